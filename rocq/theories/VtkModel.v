(** Model of the graphics files of a calculation: names, multi-block index and time series
    (MeshWriter::write_mesh, write_vtu, write_pvd and write_vtm in /repo/apps/multiphysics/src/common/include/mesh_io.hpp).
    A file system is a map from paths to contents; opening for writing replaces the file and never fails.  The data put into a
    .vtu file is a value of an arbitrary type [D] (how it is computed from the state: PartModel and FieldModel).  Times are written
    exactly (the code prints them with %12.5e). *)
From Coq Require Export String Ascii List Arith Bool Lia Reals NArith.
Export ListNotations.
From Verif Require Import BaseArr.
Open Scope string_scope.

(** ** Names *)

(** printf("%zu", n) and std::to_string(n) *)
Definition digit (d : nat) : ascii := ascii_of_nat (48 + d).
Fixpoint dec_aux (fuel n : nat) (acc : string) : string :=
  let acc := String (digit (n mod 10)) acc in
  match fuel with
  | O => acc
  | S f => if Nat.eqb (n / 10) 0 then acc else dec_aux f (n / 10) acc
  end.
Definition dec (n : nat) : string := dec_aux n n "".

(** printf("%05d", n) for n >= 0 *)
Fixpoint zeros (k : nat) : string := match k with O => "" | S k => String "0" (zeros k) end.
Definition pad5 (n : nat) : string := zeros (5 - String.length (dec n)) ++ dec n.

(** 2681 and 2741-2743 *)
Inductive piece := Fields | Mat (mat_id : nat).
Definition part_name (p : piece) : string := match p with Fields => "fields" | Mat m => "mat" ++ dec m end.

(** 4210-4211; the same text is written into the index, 4537-4538 and 4553-4554 *)
Definition vtu_name (solver : nat) (p : piece) (id : nat) : string :=
  "Fierro.solver" ++ dec solver ++ "." ++ part_name p ++ "." ++ pad5 id ++ ".vtu".
(** 4517, 4471-4472 *)
Definition vtm_name (solver id : nat) : string := "Fierro.solver" ++ dec solver ++ "." ++ pad5 id ++ ".vtm".
(** 4459 *)
Definition pvd_path (solver : nat) : string := "vtk/Fierro.solver" ++ dec solver ++ ".pvd".
Definition data_path (name : string) : string := "vtk/data/" ++ name.

(** ** Files *)

(** A .vtu file holds data; a .vtm file its blocks (index, and the pieces with file and time); a .pvd file times and files. *)
Record block := mkBlock { b_index : nat; b_pieces : list (nat * string * R) }.
Inductive content (D : Type) := Vtu (d : D) | Vtm (blocks : list block) | Pvd (entries : list (R * string)).
Arguments Vtu {D} d. Arguments Vtm {D} blocks. Arguments Pvd {D} entries.

Definition fs (D : Type) := string -> option (content D).
Definition put {D} (f : fs D) (name : string) (c : content D) : fs D := fun x => if String.eqb x name then Some c else f x.

(** One call of write_mesh: the time, what the field file and the file of a material contain.  *)
Record call (D : Type) := mkCall { c_time : R; c_fields : D; c_mats : nat -> D }.
Arguments mkCall {D}. Arguments c_time {D}. Arguments c_fields {D}. Arguments c_mats {D}.

(** What does not change during a calculation: solver_id, num_mats, num_mat_elems, and whether any mesh variable or any material
    point variable was asked for. *)
Record opts := mkOpts { o_solver : nat; o_mats : nat; o_elems : nat -> nat; o_mesh_vars : bool; o_mat_vars : bool }.

(** MeshWriter::graphics_id, the array graphics_times (shared with the solver) and the file system *)
Record writer (D : Type) := mkWriter { w_fs : fs D; w_id : nat; w_times : nat -> R }.
Arguments mkWriter {D}. Arguments w_fs {D}. Arguments w_id {D}. Arguments w_times {D}.

(** rm vtk/Fierro* and rm vtk/data/Fierro*, 2643-2676: before the first output of solver 0 (a directory that does not exist yet
    holds no files) *)
Definition stale (x : string) : bool := prefix "vtk/Fierro" x || prefix "vtk/data/Fierro" x.
Definition clear {D} (f : fs D) : fs D := fun x => if stale x then None else f x.

(** 2710-2806: the files of the materials that live on the mesh, and their number *)
Definition write_mats {D} (o : opts) (id : nat) (c : call D) (s : fs D * nat) : fs D * nat :=
  if o_mat_vars o then
    fold_left (fun '(f, n) m =>
      if Nat.ltb 0 (o_elems o m) then (put f (data_path (vtu_name (o_solver o) (Mat m) id)) (Vtu (c_mats c m)), S n) else (f, n))
      (seq 0 (o_mats o)) s
  else s.

(** write_vtm, 4508-4571: the index of every output so far is written again *)
Definition vtm_blocks (o : opts) (num_mats : nat) (times : nat -> R) (file : nat) : list block :=
  (if o_mesh_vars o then [mkBlock 0 [(0, vtu_name (o_solver o) Fields file, times file)]] else [])
  ++ (if o_mat_vars o then
        [mkBlock (if o_mesh_vars o then 1 else 0) (map (fun m => (m, vtu_name (o_solver o) (Mat m) file, times file)) (seq 0 num_mats))]
      else []).
Definition write_vtm {D} (o : opts) (num_mats : nat) (times : nat -> R) (id : nat) (f : fs D) : fs D :=
  fold_left (fun f file => put f (data_path (vtm_name (o_solver o) file)) (Vtm (vtm_blocks o num_mats times file))) (seq 0 (S id)) f.

(** write_pvd, 4448-4482 *)
Definition write_pvd {D} (o : opts) (times : nat -> R) (id : nat) (f : fs D) : fs D :=
  put f (pvd_path (o_solver o)) (Pvd (map (fun i => (times i, "data/" ++ vtm_name (o_solver o) i)) (seq 0 (S id)))).

(** write_mesh, 2638-2856, format viz or viz_and_state; graphics_times has 20000 entries
    (Solvers/SGH_solver_3D/src/sgh_execute.cpp:130 and the other solvers), more outputs are undefined behaviour *)
Definition write_mesh {D} (o : opts) (c : call D) (w : writer D) : option (writer D) :=
  let f := if Nat.eqb (o_solver o) 0 && Nat.eqb (w_id w) 0 then clear (w_fs w) else w_fs w in
  let f := put f (data_path (vtu_name (o_solver o) Fields (w_id w))) (Vtu (c_fields c)) in
  let '(f, num_mat_files_written) := write_mats o (w_id w) c (f, 0%nat) in
  if N.ltb (N.of_nat (w_id w)) 20000 then
    let times := fun i => if Nat.eqb i (w_id w) then c_time c else w_times w i in
    let f := write_vtm o num_mat_files_written times (w_id w) f in
    let f := write_pvd o times (w_id w) f in
    Some (mkWriter f (S (w_id w)) times)
  else None.

(** all outputs of one solver: a new MeshWriter, graphics_id = 0 *)
Definition outputs {D} (o : opts) (calls : list (call D)) (f : fs D) : option (writer D) :=
  for_each calls (write_mesh o) (mkWriter f 0 (fun _ => 0%R)).
