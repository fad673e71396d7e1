(** What the material storage should look like, stated on the input arrays. *)
From Verif Require Import SetupModel.

(** Slot a of element e is in use. *)
Definition used (f : fills) (e a : nat) : Prop := (e < in_ne f)%nat /\ (a < in_num f e)%nat.
(** The arrays are large enough and material numbers exist. *)
Definition well_formed (f : fills) : Prop :=
  (0 < in_ng f)%nat /\ forall e a, used f e a -> (a < in_max f)%nat /\ (in_mat f e a < in_mats f)%nat.
(** Material slots in element order. *)
Definition all_slots (f : fills) : list (nat * nat) := flat_map (fun e => map (pair e) (seq 0 (in_num f e))) (seq 0 (in_ne f)).
Definition slots_of (f : fills) (m : nat) : list (nat * nat) := filter (fun p => Nat.eqb (in_mat f (fst p) (snd p)) m) (all_slots f).

Definition slot_mass (f : fills) (e a : nat) : R := in_den f e a * (in_vol f e * in_vf f e a * in_geo f e a).

(** What is stored for a material. *)
Definition stored_mass (st : store) (m s : nat) : R := match rget (st_point st) m s with Some p => pt_mass p | None => 0 end.
