(* Checkpoints of the forward solution for the adjoint pass of the optimization,
   /repo/legacy/Fierro_V0/src/Parallel-Solvers: dynamic_checkpoint.h, dynamic_checkpoint.cpp and,
   under Parallel-Explicit/SGH_Solver/src, FEA_Module_SGH.cpp (sgh_solve), sgh_optimization.cpp
   (compute_topology_optimization_adjoint_full, checkpoint_solve) and time_integration.cpp.
   One process; numbers are reals. *)
From Coq Require Import Reals List Arith ZArith Bool.
Import ListNotations.
Local Open Scope R_scope.

(* ---------- the time loop ---------- *)

(* [X] is what a checkpoint holds: coordinates, velocities and internal energies; [H] is what else
   the solver carries from step to step, such as the stress of a hypoelastic material.  [evolve] is
   one Runge-Kutta step, [limit] the smallest stable time step over the elements.  The number of
   cycles between outputs is [S p_cyc]. *)
Record problem (X H : Type) := Problem { evolve : R -> X -> H -> X * H; limit : X -> R; p_fuzz : R; p_final : R; p_ival : R; p_cyc : nat; p_write_final : bool }.
Arguments Problem {X H}. Arguments evolve {X H}. Arguments limit {X H}. Arguments p_fuzz {X H}. Arguments p_final {X H}. Arguments p_ival {X H}. Arguments p_cyc {X H}. Arguments p_write_final {X H}.
Record loop (X H : Type) := Loop { lx : X; lh : H; lt_ : R; ld : R; lg : R }.
Arguments Loop {X H}. Arguments lx {X H}. Arguments lh {X H}. Arguments lt_ {X H}. Arguments ld {X H}. Arguments lg {X H}.

(* get_timestep (time_integration.cpp 98-180) *)
Definition timestep {X H} (p : problem X H) (l : loop X H) : R :=
  let dt := ld l * (11 / 10) in
  let dt := if Rlt_dec (limit p (lx l)) dt then limit p (lx l) else dt in
  let dt := Rmin dt (lg l - lt_ l + p_fuzz p) in
  Rmin dt (p_final p - lt_ l).
(* FEA_Module_SGH.cpp 1714-1726, sgh_optimization.cpp 3541-3555; cycle == cycle_stop cannot hold
   inside the loop *)
Definition written {X H} (p : problem X H) (cycle : nat) (t g : R) : bool :=
  ((Nat.eqb ((cycle + 1) mod S (p_cyc p)) 0 && Nat.ltb 0 cycle)
   || ((if Rle_dec (p_final p) t then true else false) && p_write_final p)
   || (if Rle_dec g t then true else false))%bool.
(* One cycle of sgh_solve (1122-1757): the step before a written output is not kept for the next
   (1750).  With [again], one cycle of checkpoint_solve (3028-3566), where it is. *)
Definition cycle_step {X H} (again : bool) (p : problem X H) (cycle : nat) (l : loop X H) : loop X H * R :=
  let dt := timestep p l in
  let '(x, h) := evolve p dt (lx l) (lh l) in
  let t := lt_ l + dt in
  if written p cycle t (lg l) then (Loop x h t (if again then dt else ld l) (t + p_ival p), dt) else (Loop x h t dt (lg l), dt).

(* ---------- the checkpoints ---------- *)

(* Dynamic_Checkpoint (dynamic_checkpoint.h 53-165); [ck_buf] numbers the vectors it points to *)
Record ck := Ck { ck_step : nat; ck_level : Z; ck_buf : nat; ck_time : R; ck_dt : R }.
(* [cks] is the set in the order of operator< (dynamic_checkpoint.cpp 42-50); [mem] what the
   vectors hold; [cached] the vectors of cached_dynamic_checkpoints, the last pushed first;
   [raised] the iterator last_raised_checkpoint by the step it stands at, None when not set;
   [before_begin]: an iterator at begin() was decremented, which C++ leaves undefined. *)
Record store (X : Type) := Store { cks : list ck; mem : nat -> X; cached : list nat; active : nat; raised : option nat; raised_level : Z; before_begin : bool }.
Arguments Store {X}. Arguments cks {X}. Arguments mem {X}. Arguments cached {X}. Arguments active {X}. Arguments raised {X}. Arguments raised_level {X}. Arguments before_begin {X}.

(* std::set insert and erase *)
Fixpoint insert_ck (c : ck) (l : list ck) : list ck :=
  match l with
  | [] => [c]
  | d :: r => if Nat.ltb (ck_step c) (ck_step d) then c :: l else if Nat.ltb (ck_step d) (ck_step c) then d :: insert_ck c r else l
  end.
Definition erase_ck (c : ck) (l : list ck) : list ck := filter (fun d => negb (Nat.eqb (ck_step d) (ck_step c))) l.
Definition last_ck (l : list ck) : option ck := match rev l with [] => None | c :: _ => Some c end.
Definition put {X} (m : nat -> X) (b : nat) (x : X) : nat -> X := fun i => if Nat.eqb i b then x else m i.

(* FEA_Module_SGH.cpp 1653-1664, sgh_optimization.cpp 3491-3504: from the raised one backwards to
   the first after begin *)
Definition dispensable (l : list ck) (at_ : nat) (lvl : Z) : option ck :=
  find (fun c => Z.ltb (ck_level c) lvl) (rev (filter (fun c => Nat.ltb (ck_step c) at_) (tl l))).

(* FEA_Module_SGH.cpp 1632-1699; with [again] sgh_optimization.cpp 3470-3539.  [None]: a vector
   past the end, an iterator that is not set, or an empty set. *)
Definition record {X} (again : bool) (K : nat) (step : nat) (x : X) (t dt : R) (s : store X) : option (store X) :=
  if Nat.ltb (active s) K then
    if again then
      match cached s with
      | [] => None
      | b :: rest => Some (Store (insert_ck (Ck step 0 b t dt) (cks s)) (put (mem s) b x) rest (S (active s)) (raised s) (raised_level s) (before_begin s))
      end
    else
      let b := S (active s) in
      let l := insert_ck (Ck step 0 b t dt) (cks s) in
      Some (Store l (put (mem s) b x) (cached s) (S (active s)) (option_map ck_step (last_ck l)) (raised_level s) (before_begin s))
  else
    match raised s with
    | None => None
    | Some r =>
      let at_begin := match cks s with [] => false | b :: _ => Nat.eqb r (ck_step b) end in
      match (if at_begin then None else dispensable (cks s) r (raised_level s)) with
      | Some d =>
        Some (Store (insert_ck (Ck step 0 (ck_buf d) t dt) (erase_ck d (cks s))) (put (mem s) (ck_buf d) x) (cached s) (active s) (raised s) (raised_level s) (before_begin s || at_begin)%bool)
      | None =>
        match last_ck (cks s) with
        | None => None
        | Some c =>
          let lvl := (ck_level c + 1)%Z in
          let l := insert_ck (Ck step lvl (ck_buf c) t dt) (erase_ck c (cks s)) in
          Some (Store l (put (mem s) (ck_buf c) x) (cached s) (active s) (option_map ck_step (last_ck l)) lvl (before_begin s || at_begin)%bool)
        end
      end
    end.

(* FEA_Module_SGH.cpp 1100-1113: the first checkpoint, of the largest level *)
Definition int_max : Z := 2147483647.
Definition first_store {X H} (l : loop X H) (m : nat -> X) : store X := Store [Ck 0 int_max 0 (lt_ l) (ld l)] (put m 0%nat (lx l)) [] 0 None 0%Z false.

(* sgh_solve (1121-1759): from [cycle], at most [todo] more; the result has last_time_step *)
Fixpoint forward {X H} (p : problem X H) (K : nat) (todo cycle : nat) (l : loop X H) (s : store X) : option (nat * loop X H * store X) :=
  match todo with
  | O => Some (cycle, l, s)
  | S todo =>
    let '(l', dt) := cycle_step false p cycle l in
    match record false K (cycle + 1) (lx l') (lt_ l') dt s with
    | None => None
    | Some s' => if Rle_dec (p_final p) (lt_ l') then Some (cycle, l', s') else forward p K todo (cycle + 1) l' s'
    end
  end.

(* checkpoint_solve (2824-3566): the solver's state is set from the checkpoint (2837-2842,
   2863-2890); what the checkpoint does not hold stays as it is.  int() rounds towards zero. *)
Definition restore {X H} (p : problem X H) (c : ck) (x : X) (h : H) : loop X H :=
  Loop x h (ck_time c) (ck_dt c) (IZR (Int_part (ck_time c / p_ival p)) * p_ival p + p_ival p).
(* 2955-2960: the earliest after begin with a level, else begin *)
Definition first_raised (l : list ck) : option nat :=
  match filter (fun c => negb (Z.eqb (ck_level c) 0)) (tl l) with
  | c :: _ => Some (ck_step c)
  | [] => option_map ck_step (hd_error l)
  end.
Fixpoint again_loop {X H} (p : problem X H) (K : nat) (todo cycle : nat) (l : loop X H) (s : store X) : option (loop X H * store X) :=
  match todo with
  | O => Some (l, s)
  | S todo =>
    let '(l', dt) := cycle_step true p cycle l in
    match record true K (cycle + 1) (lx l') (lt_ l') dt s with
    | None => None
    | Some s' => if Rle_dec (p_final p) (lt_ l') then Some (l', s') else again_loop p K todo (cycle + 1) l' s'
    end
  end.
Definition checkpoint_solve {X H} (p : problem X H) (K : nat) (start : ck) (bound : nat) (h : H) (s : store X) : option (loop X H * store X) :=
  again_loop p K (bound - ck_step start) (ck_step start) (restore p start (mem s (ck_buf start)) h)
    (Store (cks s) (mem s) (cached s) (active s) (first_raised (cks s)) 0%Z (before_begin s)).

(* What one cycle of the adjoint pass works with (sgh_optimization.cpp 626-656). *)
Record view (X : Type) := View { v_previous : X; v_dt : R; v_current : X; v_time : R }.
Arguments View {X}. Arguments v_previous {X}. Arguments v_dt {X}. Arguments v_current {X}. Arguments v_time {X}.
(* [h]: what the solver carries beside the checkpoints at this time *)
Definition adjoint_cycle {X H} (p : problem X H) (K : nat) (cycle : nat) (h : H) (s : store X) : option (view X * H * store X) :=
  match last_ck (cks s) with
  | None => None
  | Some c =>
    let previous := mem s (ck_buf c) in
    let s1 := Store (erase_ck c (cks s)) (mem s) (ck_buf c :: cached s) (pred (active s)) (raised s) (raised_level s) (before_begin s) in
    match last_ck (cks s1) with
    | None => None
    | Some c1 =>
      match (if Nat.eqb (ck_step c1) cycle then Some (h, s1) else match checkpoint_solve p K c1 cycle h s1 with Some (l, s2) => Some (lh l, s2) | None => None end) with
      | None => None
      | Some (h2, s2) =>
        match last_ck (cks s2) with
        | None => None
        | Some c2 => Some (View previous (ck_dt c) (mem s2 (ck_buf c2)) (ck_time c2), h2, s2)
        end
      end
    end
  end.
(* 596: from last_time_step down to zero.  What the adjoint itself does to the carried state is
   any function [touch]. *)
Fixpoint adjoint {X H} (p : problem X H) (K : nat) (touch : view X -> H -> H) (cycles : nat) (h : H) (s : store X) : option (list (view X) * store X) :=
  match cycles with
  | O => Some ([], s)
  | S cycle =>
    match adjoint_cycle p K cycle h s with
    | None => None
    | Some (v, h', s') => match adjoint p K touch cycle (touch v h') s' with Some (vs, s'') => Some (v :: vs, s'') | None => None end
    end
  end.

(* A run: the forward solution and then the adjoint. *)
Definition optimization_run {X H} (p : problem X H) (K cycle_stop : nat) (touch : view X -> H -> H) (l0 : loop X H) (m0 : nat -> X) : option (list (view X) * store X) :=
  match forward p K cycle_stop 0 l0 (first_store l0 m0) with
  | None => None
  | Some (last, l, s) => adjoint p K touch (last + 1) (lh l) s
  end.
