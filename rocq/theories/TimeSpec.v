(** Specification vocabulary for the time-control properties. *)
From Coq Require Import NArith.
From Verif Require Import BaseReal TimeModel.
Local Open Scope R_scope.

(** What the outcome of a run leaves behind: the state after the last executed cycle. *)
Definition final_of (r : run_res) : option lst :=
  match r with RUndefined => None | ReachedFinal s => Some s | CycleLimit s => Some s end.

(** The four upper bounds on the step of one executed cycle. *)
Definition step_bounds (c : tcfg) (h : cyc) : Prop :=
  c_dt h <= dt_max c /\
  c_dt h <= c_dtin h * (11/10) /\
  c_dt h <= t_final c - c_t0 h + tiny c /\
  c_dt h <= Rmax (fuzz c) (c_gt h - c_t0 h) + tiny c /\
  c_t1 h = c_t0 h + c_dt h.

(** Guaranteed progress per cycle: depends on the inputs only. *)
Definition min_progress (c : tcfg) : R :=
  Rmin (Rmin (dt_start c) (dt_max c)) (Rmin (dt_min c) (tiny c)).

(** Inputs for which the controller is meant to be used. *)
Definition good_cfg (c : tcfg) : Prop :=
  0 < dt_start c /\ 0 < dt_max c /\ 0 < dt_min c /\ 0 < tiny c /\ 0 <= fuzz c /\ t_start c < t_final c.

Fixpoint strictly_increasing (l : list R) : Prop :=
  match l with
  | [] => True
  | x :: r => (forall y, In y r -> x < y) /\ strictly_increasing r
  end.

(** No cycle-count trigger, solver starting at zero, interval above the overshoot. *)
Definition sched_cfg (c : tcfg) : Prop :=
  good_cfg c /\ t_start c = 0 /\ (cycle_stop c < gr_cyc c)%nat /\ fuzz c + tiny c < gr_dt c.

(** Each window starts where the previous one ends. *)
Definition contiguous (l : list (R * R)) : Prop :=
  forall i a b a' b', nth_error l i = Some (a, b) -> nth_error l (S i) = Some (a', b') -> a' = b.

Fixpoint nondecreasing (l : list R) : Prop :=
  match l with
  | [] => True
  | x :: r => match r with [] => True | y :: _ => x <= y end /\ nondecreasing r
  end.

(** Euclidean distance of two nodes of an element. *)
Definition euclid (x : nat -> nat -> R) (a b : nat) : R :=
  sqrt ((x a 0%nat - x b 0%nat)² + (x a 1%nat - x b 1%nat)² + (x a 2%nat - x b 2%nat)²).
