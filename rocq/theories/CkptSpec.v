(* What the adjoint pass sees when every step of the forward solution is kept. *)
From Coq Require Import Reals List Arith.
From Verif Require Import CkptModel.
Import ListNotations.
Local Open Scope R_scope.

(* The forward solution, step by step, and the time step that led to each state. *)
Fixpoint history {X H} (p : problem X H) (l0 : loop X H) (k : nat) : loop X H := match k with O => l0 | S k => fst (cycle_step false p k (history p l0 k)) end.
Definition led_by {X H} (p : problem X H) (l0 : loop X H) (k : nat) : R := match k with O => ld l0 | S k => timestep p (history p l0 k) end.
Definition state_at {X H} (p : problem X H) (l0 : loop X H) (k : nat) : X := lx (history p l0 k).
Definition time_at {X H} (p : problem X H) (l0 : loop X H) (k : nat) : R := lt_ (history p l0 k).

(* With every state kept: cycle by cycle backwards, the state after the cycle, the time step, the
   state before it and its time. *)
Fixpoint all_kept {X H} (p : problem X H) (l0 : loop X H) (n : nat) : list (view X) :=
  match n with O => [] | S n => View (state_at p l0 (S n)) (led_by p l0 (S n)) (state_at p l0 n) (time_at p l0 n) :: all_kept p l0 n end.

(* A run that ends with its n-th step at the final time. *)
Definition before_end {X H} (p : problem X H) (l0 : loop X H) (n : nat) : Prop := forall k, (k < n)%nat -> time_at p l0 k < p_final p.
Definition ends_at {X H} (p : problem X H) (l0 : loop X H) (n : nat) : Prop := before_end p l0 n /\ p_final p <= time_at p l0 n.
(* Time steps are positive and no output falls before the final time. *)
Definition quiet {X H} (p : problem X H) (l0 : loop X H) (n : nat) : Prop :=
  p_final p < p_ival p /\ p_final p < lg l0 /\ 0 <= p_fuzz p /\ (n <= p_cyc p)%nat /\ 0 <= lt_ l0 /\ 0 < ld l0 /\ (forall x, 0 < limit p x).
(* What a step leaves in the checkpoint does not depend on what is carried beside it. *)
Definition self_contained {X H} (p : problem X H) : Prop := forall dt x h h', fst (evolve p dt x h) = fst (evolve p dt x h').

(* The kept checkpoints are those of true steps, and they and the spare vectors never share one. *)
Definition kept_true {X H} (p : problem X H) (l0 : loop X H) (s : store X) : Prop :=
  forall c, In c (cks s) -> mem s (ck_buf c) = state_at p l0 (ck_step c) /\ ck_time c = time_at p l0 (ck_step c) /\ ck_dt c = led_by p l0 (ck_step c).
Definition within {X} (K : nat) (s : store X) : Prop :=
  (length (cks s) <= S K)%nat /\ NoDup (map ck_buf (cks s) ++ cached s) /\ (forall b, In b (map ck_buf (cks s) ++ cached s) -> (b <= K)%nat).

(* What is kept after some cycles of the adjoint pass. *)
Fixpoint after_cycles {X H} (p : problem X H) (K : nat) (touch : view X -> H -> H) (some : nat) (cycles : nat) (h : H) (s : store X) : option (store X) :=
  match some, cycles with
  | O, _ | _, O => Some s
  | S some, S cycle => match adjoint_cycle p K cycle h s with None => None | Some (v, h', s') => after_cycles p K touch some cycle (touch v h') s' end
  end.
