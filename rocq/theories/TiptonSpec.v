(** What pressure equilibration should do, in terms of the materials at one gauss point. *)
From Coq Require Import Reals List Arith.
Import ListNotations.
Open Scope R_scope.

(** The materials at gauss point [g], as (material, storage index) pairs, given each material's list of
    (gauss point, storage index). *)
Definition mats_at (nmats : nat) (pts : nat -> list (nat * nat)) (g : nat) : list (nat * nat) :=
  flat_map (fun mat => map (fun p => (mat, snd p)) (filter (fun p => Nat.eqb (fst p) g) (pts mat))) (seq 0 nmats).

Definition total {A} (f : A -> R) (l : list A) : R := fold_right (fun a s => f a + s) 0 l.

(** Layouts in which no material occupies a gauss point or a storage index twice. *)
Definition layout_ok (nmats : nat) (pts : nat -> list (nat * nat)) : Prop :=
  forall mat, (mat < nmats)%nat -> NoDup (map fst (pts mat)) /\ NoDup (map snd (pts mat)).

(** Compressibility-weighted mean pressure: sum_i (f_i/K_i) p_i / sum_i f_i/K_i, regularised by [eps]. *)
Definition compliance (eps : R) (f K : nat * nat -> R) (i : nat * nat) : R := f i / (K i + eps).
Definition mean_pressure (eps : R) (f K p : nat * nat -> R) (l : list (nat * nat)) : R :=
  total (fun i => compliance eps f K i * p i) l / (total (compliance eps f K) l + eps).

(** Tipton's relaxation of fraction [i]: towards the mean pressure, plus the share of the volume change [div * alpha * dt]. *)
Definition wanted_change (eps c1 div alpha dt : R) (f K p : nat * nat -> R) (l : list (nat * nat)) (i : nat * nat) : R :=
  compliance eps f K i * (p i - mean_pressure eps f K p l) / (c1 + eps)
  + (compliance eps f K i / (total (compliance eps f K) l + eps) - f i) * div * alpha * dt.

(** A limiter is allowed when no change exceeds the part [c] of any fraction present. *)
Definition allowed (eps c : R) (f want : nat * nat -> R) (l : list (nat * nat)) (x : R) : Prop :=
  x <= 1 /\ forall i j, In i l -> In j l -> x * (Rabs (want i) + eps) <= c * f j.

Definition greatest (P : R -> Prop) (x : R) : Prop := P x /\ forall y, P y -> y <= x.
