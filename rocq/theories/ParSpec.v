(** What schedule independence of a parallel loop means. *)
From Coq Require Import Reals Permutation.
From Verif Require Import BaseReal BaseArr SghModel SghSpec ParModel.
Local Open Scope R_scope.

Section Spec.
Context {L : Type} (eq_dec : forall x y : L, {x = y} + {x <> y}).

(** what a thread reads and writes when it runs alone *)
Inductive event := Reads (x : L) | Writes (x : L) (v : R).
Fixpoint events (p : prog L) (m : L -> R) : list event :=
  match p with
  | Done => []
  | Rd x k => Reads x :: events (k (m x)) m
  | Wr x v p => Writes x v :: events p (store eq_dec m x v)
  end.

(** No iteration touches an entry another one writes, except that several may write the same value. *)
Definition race_free (ps : list (prog L)) (m : L -> R) : Prop :=
  forall i j p q x v, i <> j -> nth_error ps i = Some p -> nth_error ps j = Some q -> In (Writes x v) (events p m) ->
    ~ In (Reads x) (events q m) /\ forall w, In (Writes x w) (events q m) -> w = v.

(** Every schedule ends, in the memory [m']; there is such a schedule. *)
Definition always_ends_in (ps : list (prog L)) (m m' : L -> R) : Prop :=
  Acc (fun a b => step eq_dec b a) (ps, m) /\
  (exists e, exec eq_dec ps m e) /\ (forall e, exec eq_dec ps m e -> forall x, e x = m' x).
End Spec.

(** A plan covers a range when every iteration is run exactly once. *)
Definition covers (p : plan) (n : nat) : Prop := Permutation (iterations p) (seq 0 n).

(** a material lists no element twice *)
Definition listed_once (Y : layout) (mat : nat) : Prop :=
  forall i j, (i < num_mat_elems Y mat)%nat -> (j < num_mat_elems Y mat)%nat -> elem_in_mat Y mat i = elem_in_mat Y mat j -> i = j.

(** device memory holding a state of the solver (node.force and contact_force apart) *)
Record holds (s : sgh) (mem : loc -> R) : Prop := mk_holds {
  h_nmass : forall n, mem (NMass n) = s_nmass s n;
  h_cforce : forall c d, mem (CForce c d) = s_cforce s c d;
  h_mcforce : forall a c d, mem (MCForce a c d) = s_mcforce s a c d;
  h_v : forall n d, mem (Vel n d) = s_v s n d;
  h_v0 : forall n d, mem (Vel0 n d) = s_v0 s n d;
  h_x : forall n d, mem (Pos n d) = s_x s n d;
  h_x0 : forall n d, mem (Pos0 n d) = s_x0 s n d;
  h_sie : forall a p, mem (Sie a p) = s_sie s a p;
  h_sie0 : forall a p, mem (Sie0 a p) = s_sie0 s a p;
  h_mass : forall a p, mem (Mass a p) = s_mass s a p
}.
