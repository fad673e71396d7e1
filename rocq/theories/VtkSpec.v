(** What a user expects of the graphics files. *)
From Verif Require Import BaseArr.
From Verif Require Import VtkModel.
Open Scope string_scope.

(** the materials that have elements come first *)
Definition leading (o : opts) : Prop := exists q, forall m, m < o_mats o -> (0 < o_elems o m <-> m < q).

(** the material block of an index file lists exactly the files of the materials that have elements *)
Definition lists_exactly (o : opts) (id : nat) (b : block) : Prop := forall name,
  (exists m t, In (m, name, t) (b_pieces b)) <-> exists m, m < o_mats o /\ 0 < o_elems o m /\ name = vtu_name (o_solver o) (Mat m) id.

(** the output with this call is found in the time series of the solver: the entry with its time leads to an index whose mesh
    block leads to the data written by the call *)
Definition found {D} (f : fs D) (o : opts) (i : nat) (c : call D) : Prop :=
  exists entries vtm blocks vtu, f (pvd_path (o_solver o)) = Some (Pvd entries) /\ nth_error entries i = Some (c_time c, vtm) /\
    f ("vtk/" ++ vtm) = Some (Vtm blocks) /\ nth_error blocks 0 = Some (mkBlock 0 [(0, vtu, c_time c)]) /\
    f ("vtk/data/" ++ vtu) = Some (Vtu (c_fields c)).
