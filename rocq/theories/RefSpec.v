(** Words the properties of the reference element are stated in.  Nothing here
    depends on the model. *)
From Coq Require Import Reals List Arith.
From Verif Require Import BaseArr BaseReal.
Import ListNotations.
Open Scope R_scope.

(** [integral f a b v]: v is the integral of f from a to b. *)
Definition integral (f : R -> R) (a b v : R) : Prop :=
  exists F, (forall x, derivable_pt_lim F x (f x)) /\ v = F b - F a.

(** A polynomial in one variable, by its coefficients, lowest first. *)
Fixpoint peval (c : list R) (x : R) : R :=
  match c with [] => 0 | a :: c' => a + x * peval c' x end.

(** The sum of the magnitudes of the coefficients. *)
Definition csize (c : list R) : R := suml Rabs c.

(** A polynomial in three variables: a list of terms c x^i y^j z^k. *)
Definition poly3 := list (R * (nat * nat * nat)).
Definition eval3 (f : poly3) (pt : R * R * R) : R :=
  let '(x, y, z) := pt in
  suml (fun t => let '(c, (i, j, k)) := t in c * (x ^ i * y ^ j * z ^ k)) f.
Definition size3 (f : poly3) : R := suml (fun t => Rabs (fst t)) f.

(** Of degree less than n in each variable. *)
Definition degree3 (n : nat) (f : poly3) : Prop :=
  forall c i j k, In (c, (i, j, k)) f -> (i < n /\ j < n /\ k < n)%nat.

(** [integral3 f v]: v is the integral of f over the cube [-1,1]^3, one variable
    after the other. *)
Definition integral3 (f : R * R * R -> R) (v : R) : Prop :=
  exists (Ix : R -> R -> R) (Ixy : R -> R),
    (forall y z, integral (fun x => f (x, y, z)) (-1) 1 (Ix y z)) /\
    (forall z, integral (fun y => Ix y z) (-1) 1 (Ixy z)) /\
    integral Ixy (-1) 1 v.

(** The partial derivatives of f at a point. *)
Definition gradient3 (f : R * R * R -> R) (pt g : R * R * R) : Prop :=
  let '(x, y, z) := pt in let '(gx, gy, gz) := g in
  derivable_pt_lim (fun t => f (t, y, z)) x gx /\
  derivable_pt_lim (fun t => f (x, t, z)) y gy /\
  derivable_pt_lim (fun t => f (x, y, t)) z gz.

(** [table a r c f]: the array has r rows and c columns and every entry has been
    given the value f says. *)
Definition table {A} (a : arr A) (r c : nat) (f : nat -> nat -> A) : Prop :=
  nrow a = r /\ ncol a = c /\
  forall i j, (i < r)%nat -> (j < c)%nat -> aget a i j = Some (f i j).

(** Row q of an array of positions. *)
Definition at_row (X : nat -> nat -> R) (q : nat) : R * R * R := (X q 0%nat, X q 1%nat, X q 2%nat).
