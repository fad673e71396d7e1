(* Model of the small dense linear algebra of the micromechanics applications:
   /repo/apps/micromechanics/EVPFFT/src/math_functions.h and math_functions.cpp
   (the same functions are copied into LS-EVPFFT, LS-EVPFFT-J2, LSNP-EVPFFT).
   swap_rows and solve_linear_system (math_functions.cpp:8-14, 31-81) are called by
   nothing and are not modelled.

   Simplifications.  Numbers are reals.  A double* is a function from offsets to
   numbers; every offset used below is smaller than n*n. *)
From Coq Require Import Reals List Arith Lia Bool ZArith.
From Verif Require Import BaseReal.
Import ListNotations.
Local Open Scope R_scope.

Definition mem := nat -> R.
Definition upd (m : mem) (k : nat) (v : R) : mem := fun q => if Nat.eqb q k then v else m q.

(* for (int i = 0; i < n; i++) s = body(i, s) *)
Definition loop {S} (n : nat) (body : nat -> S -> S) (s : S) : S := fold_left (fun s i => body i s) (seq 0 n) s.

(* scale_row (math_functions.cpp:17-21). *)
Definition scale_row (m : mem) (row : nat) (factor : R) (n : nat) : mem :=
  loop n (fun i m => upd m (row * n + i) (m (row * n + i)%nat * factor)) m.

(* add_rows (24-28). *)
Definition add_rows (m : mem) (src dst : nat) (factor : R) (n : nat) : mem :=
  loop n (fun i m => upd m (dst * n + i) (m (dst * n + i)%nat + m (src * n + i)%nat * factor)) m.

(* invert_matrix<n> (math_functions.h:30-75). *)

(* 40-44 *)
Definition identity (n : nat) (m : mem) : mem :=
  loop n (fun i m => loop n (fun j m => upd m (i * n + j) (if Nat.eqb i j then 1 else 0)) m) m.

(* 57-63: the rows other than the pivot row. *)
Definition clear_row (n i j : nat) (me : mem * mem) : mem * mem :=
  if Nat.eqb j i then me
  else let factor := - fst me (j * n + i)%nat in
       (add_rows (fst me) i j factor n, add_rows (snd me) i j factor n).
Definition clear_column (n i : nat) (me : mem * mem) : mem * mem := loop n (clear_row n i) me.

(* 47-64: [None] when the pivot is zero. *)
Definition gj_step (n i : nat) (me : mem * mem) : option (mem * mem) :=
  if Req_EM_T (fst me (i * n + i)%nat) 0 then None
  else let pivot := fst me (i * n + i)%nat in
       Some (clear_column n i (scale_row (fst me) i (1 / pivot) n, scale_row (snd me) i (1 / pivot) n)).

(* The loop 47-64: true and both matrices when it ran to the end, false and both
   matrices as they are when it returned early. *)
Fixpoint gj (n : nat) (is : list nat) (me : mem * mem) : bool * (mem * mem) :=
  match is with
  | [] => (true, me)
  | i :: r => match gj_step n i me with None => (false, me) | Some me' => gj n r me' end
  end.

(* 67-71 *)
Definition copy_back (n : nat) (m e : mem) : mem :=
  loop n (fun i m => loop n (fun j m => upd m (i * n + j) (e (i * n + j)%nat)) m) m.

(* 30-75: the returned flag and the matrix; [scratch] is what the array on the
   stack held before. *)
Definition invert_matrix (n : nat) (scratch m : mem) : Z * mem :=
  let '(done, (m', e)) := gj n (seq 0 n) (m, identity n scratch) in
  if done then (0%Z, copy_back n m' e) else (0%Z, m').

(* PowIntExpo (math_functions.h:82-101).  The loop 94-99 for exponent > 0. *)
Fixpoint pow_loop (exponent : positive) (base result : R) : R :=
  match exponent with
  | xH => result * base
  | xO e => pow_loop e (base * base) result
  | xI e => pow_loop e (base * base) (result * base)
  end.

(* [None]: abs(INT_MIN) overflows, or 1.0 / 0. *)
Definition PowIntExpo (base : R) (exponent : Z) : option R :=
  if (exponent =? 0)%Z then Some 1
  else if (exponent =? 1)%Z then Some base
  else if (exponent =? -2147483648)%Z then None
  else match Z.abs exponent with
       | Zpos e => let result := pow_loop e base 1 in
                   if (exponent <? 0)%Z then if Req_EM_T result 0 then None else Some (1 / result)
                   else Some result
       | _ => None
       end.
