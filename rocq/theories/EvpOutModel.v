(* Model of the files of the spectral crystal plasticity solver,
   /repo/apps/micromechanics/EVPFFT/src: write_micro_state.cpp (write_micro_state_pvtu),
   manager_mpi_io.h, micro_output_writer.h, hdf5_io_functions.cpp and write_texture.cpp.
   The three headers and hdf5_io_functions.cpp are the same text in LS-EVPFFT,
   LS-EVPFFT-J2 and LSNP-EVPFFT.

   Simplifications.  Numbers are reals, integers do not overflow.  A file is the
   sequence of the numbers written, each with its width in bytes; of the XML text the
   model has the attributes of the data arrays, in order.  Opening and writing files
   never fails. *)
From Coq Require Import Reals List Arith Lia Bool ZArith String.
From Verif Require Import BaseReal EvpModel VtkModel.
Import ListNotations.
Local Open Scope R_scope.

(* ---------- write_micro_state_pvtu ---------- *)

Inductive item := U64 (n : nat) | I32 (z : Z) | F64 (x : R) | U8 (n : nat).
(* sizeof *)
Definition width (i : item) : nat := match i with U64 _ => 8 | I32 _ => 4 | F64 _ => 8 | U8 _ => 1 end.

(* for kz = 1 .. n3, for ky = 1 .. n2, for kx = 1 .. n1 (e.g. 1036-1042) *)
Definition voxel := (nat * nat * nat)%type.
Definition voxels (n1 n2 n3 : nat) : list voxel :=
  flat_map (fun kz => flat_map (fun ky => map (fun kx => (kx, ky, kz)) (seq 1 n1)) (seq 1 n2)) (seq 1 n3).
Definition points (n1 n2 n3 : nat) : list voxel := voxels (n1 + 1) (n2 + 1) (n3 + 1).

(* xintp (497-514), on the process whose box starts after [start]. *)
Definition xintp (F : T2) (delt : T1) (start : nat -> nat) (k : voxel) (ii : nat) : R :=
  let '(kx, ky, kz) := k in
  let xtmp jj := match jj with
                 | 1%nat => INR kx + INR (start 1%nat) - 1 / 2
                 | 2%nat => INR ky + INR (start 2%nat) - 1 / 2
                 | _ => INR kz + INR (start 3%nat) - 1 / 2
                 end in
  sum1 3 (fun jj => F ii jj * xtmp jj) * delt ii.
(* defgradavg (483-493) *)
Definition defgradavg (imicro : nat) (disgradmacroactual : T2) : T2 := fun ii jj =>
  (if Nat.eqb imicro 0 then 0 else disgradmacroactual ii jj) + (if Nat.eqb ii jj then 1 else 0).

(* What the rank writes: the arrays of the members of EVPFFT and those computed before
   (456-472; their values: EvpPlotModel). *)
Record micro := {
  m_rank : Z; m_time : R; m_x : voxel -> nat -> R;
  m_phase : voxel -> Z; m_grain : voxel -> Z;
  m_vm_strain : voxel -> R; m_vm_stress : voxel -> R; m_vm_rate : voxel -> R; m_vm_elastic : voxel -> R;
  m_strain : voxel -> T2; m_stress : voxel -> T2; m_rate : voxel -> T2; m_elastic : voxel -> T2;
  m_ipf : voxel -> nat -> nat }.

(* pid (948-960): ic counts the points as they are written. *)
Definition pid_table (n1 n2 n3 : nat) : list (voxel * nat) := combine (points n1 n2 n3) (seq 0 (length (points n1 n2 n3))).
Definition voxel_eqb (a b : voxel) : bool :=
  let '(a1, a2, a3) := a in let '(b1, b2, b3) := b in (Nat.eqb a1 b1 && Nat.eqb a2 b2 && Nat.eqb a3 b3)%bool.
Definition pid (n1 n2 n3 : nat) (k : voxel) : Z :=
  match find (fun e => voxel_eqb (fst e) k) (pid_table n1 n2 n3) with Some e => Z.of_nat (snd e) | None => (-1)%Z end.

(* 974-996 *)
Definition connect (n1 n2 n3 : nat) (k : voxel) : list Z :=
  let '(kx, ky, kz) := k in
  let p a b c := pid n1 n2 n3 (a, b, c) in
  [p kx ky kz; p (kx + 1) ky kz; p (kx + 1) (ky + 1) kz; p kx (ky + 1) kz;
   p kx ky (kz + 1); p (kx + 1) ky (kz + 1); p (kx + 1) (ky + 1) (kz + 1); p kx (ky + 1) (kz + 1)]%nat.

(* 1108-1113 and the like: the order of the components *)
Definition six (t : T2) : list item := [F64 (t 1 1); F64 (t 2 2); F64 (t 3 3); F64 (t 1 2); F64 (t 2 3); F64 (t 1 3)]%nat.

(* The appended data (930-1176): data_block_size and the numbers of every block. *)
Definition blocks (n1 n2 n3 : nat) (m : micro) : list (nat * list item) :=
  let num_points := ((n1 + 1) * (n2 + 1) * (n3 + 1))%nat in
  let num_cells := (n1 * n2 * n3)%nat in
  let cells := voxels n1 n2 n3 in
  [ (8, [F64 (m_time m)]);
    (num_points * 3 * 8, flat_map (fun k => map (fun dim => F64 (m_x m k dim)) (seq 1 3)) (points n1 n2 n3));
    (num_cells * 8 * 4, flat_map (fun k => map I32 (connect n1 n2 n3 k)) cells);
    (num_cells * 4, map (fun e => I32 (Z.of_nat ((e + 1) * 8))) (seq 0 num_cells));
    (num_cells * 4, map (fun _ => I32 12) (seq 0 num_cells));
    (num_cells * 4, map (fun _ => I32 (m_rank m)) (seq 0 num_cells));
    (num_cells * 4, map (fun k => I32 (m_phase m k)) cells);
    (num_cells * 4, map (fun k => I32 (m_grain m k)) cells);
    (num_cells * 8, map (fun k => F64 (m_vm_strain m k)) cells);
    (num_cells * 8, map (fun k => F64 (m_vm_stress m k)) cells);
    (num_cells * 8, map (fun k => F64 (m_vm_rate m k)) cells);
    (num_cells * 8, map (fun k => F64 (m_vm_elastic m k)) cells);
    (6 * num_cells * 8, flat_map (fun k => six (m_strain m k)) cells);
    (6 * num_cells * 8, flat_map (fun k => six (m_stress m k)) cells);
    (6 * num_cells * 8, flat_map (fun k => six (m_rate m k)) cells);
    (6 * num_cells * 8, flat_map (fun k => six (m_elastic m k)) cells);
    (num_cells * 3 * 1, flat_map (fun k => map (fun dim => U8 (m_ipf m k dim)) (seq 1 3)) cells) ]%nat.
Definition appended (n1 n2 n3 : nat) (m : micro) : list item := flat_map (fun b => U64 (fst b) :: snd b) (blocks n1 n2 n3 m).

(* The data arrays in the order of the text: Name, type, NumberOfComponents and what is
   added to byte_offset after it, without block_header_size (729-894). *)
Inductive ty := Float64 | Int32 | UInt8.
Definition array := (string * ty * nat)%type.
Definition header (n1 n2 n3 : nat) : list (array * nat) :=
  let num_points := ((n1 + 1) * (n2 + 1) * (n3 + 1))%nat in
  let num_cells := (n1 * n2 * n3)%nat in
  [ (("TimeValue", Float64, 1), 8); (("Points", Float64, 3), num_points * 3 * 8);
    (("connectivity", Int32, 1), num_cells * 8 * 4); (("offsets", Int32, 1), num_cells * 4); (("types", Int32, 1), num_cells * 4);
    (("rank", Int32, 1), num_cells * 4); (("phase_id", Int32, 1), num_cells * 4); (("grain_id", Int32, 1), num_cells * 4);
    (("vm-strain", Float64, 1), num_cells * 8); (("vm-stress", Float64, 1), num_cells * 8);
    (("vm-pl-strain-rate", Float64, 1), num_cells * 8); (("vm-el-strain", Float64, 1), num_cells * 8);
    (("strain", Float64, 6), 6 * num_cells * 8); (("stress", Float64, 6), 6 * num_cells * 8);
    (("pl-strain-rate", Float64, 6), 6 * num_cells * 8); (("el-strain", Float64, 6), 6 * num_cells * 8);
    (("IPFColor", UInt8, 3), num_cells * 3 * 1) ]%nat%string.
(* The offset attributes: byte_offset += ... + block_header_size. *)
Fixpoint offsets (byte_offset : nat) (l : list (array * nat)) : list (array * nat) :=
  match l with [] => [] | (a, b) :: l => (a, byte_offset) :: offsets (byte_offset + (b + 8))%nat l end.
(* A .vtu file: the arrays with their offsets, NumberOfPoints, NumberOfCells, data *)
Record vtu := { v_arrays : list (array * nat); v_points : nat; v_cells : nat; v_data : list item }.
Definition write_vtu (n1 n2 n3 : nat) (m : micro) : vtu :=
  {| v_arrays := offsets 0 (header n1 n2 n3); v_points := (n1 + 1) * (n2 + 1) * (n3 + 1); v_cells := n1 * n2 * n3; v_data := appended n1 n2 n3 m |}.

(* The .pvtu file, written by rank 0 (552-704): the arrays of points and cells, and the
   pieces by step and rank. *)
Definition pvtu_arrays : list array :=
  [ ("Points", Float64, 3); ("rank", Int32, 1); ("phase_id", Int32, 1); ("grain_id", Int32, 1);
    ("vm-strain", Float64, 1); ("vm-stress", Float64, 1); ("vm-pl-strain-rate", Float64, 1); ("vm-el-strain", Float64, 1);
    ("strain", Float64, 6); ("stress", Float64, 6); ("pl-strain-rate", Float64, 6); ("el-strain", Float64, 6); ("IPFColor", UInt8, 3) ]%nat%string.
(* subdirname (520), the pieces by rank (678-684) and the name of the file a rank writes
   (709); %05lu is [pad5] of VtkModel.  The arguments are int, which on the usual
   machines prints the same for the numbers that occur. *)
Definition subdirname (graphics_idx : nat) : string := ("MicroState_" ++ pad5 graphics_idx)%string.
Definition piece_name (graphics_idx rank : nat) : string :=
  (subdirname graphics_idx ++ "/" ++ "MicroState_" ++ pad5 graphics_idx ++ "_" ++ pad5 rank ++ ".vtu")%string.
Definition pvtu_pieces (graphics_idx num_ranks : nat) : list string := map (piece_name graphics_idx) (seq 0 num_ranks).
Definition vtu_filename (graphics_idx my_rank : nat) : string :=
  ("pvtu" ++ "/" ++ subdirname graphics_idx ++ "/" ++ "MicroState_" ++ pad5 graphics_idx ++ "_" ++ pad5 my_rank ++ ".vtu")%string.
(* 553 *)
Definition pvtu_filename (graphics_idx : nat) : string := ("pvtu" ++ "/" ++ "MicroState_" ++ pad5 graphics_idx ++ ".pvtu")%string.

(* ---------- a box of a grid ---------- *)

(* globalRealBoxSize, localRealBoxSizes and localRealBoxes.low, with points counted from
   0 (FFT3D_R2C.h; allocate_memory.cpp:128-136). *)
Record box := { b_low : nat -> nat; b_size : nat -> nat }.
Definition cell3 (a b c : nat) : nat -> nat := fun d => match d with 1%nat => a | 2%nat => b | _ => c end.
(* The points of a box, first index fastest: the order of the elements of a subarray type
   of MPI_ORDER_FORTRAN, and of a hyperslab of HDF5 after reverse_array
   (micro_output_writer.h:69-76). *)
Definition box_cells (b : box) : list (nat -> nat) :=
  flat_map (fun k => flat_map (fun j => map (fun i => cell3 (b_low b 1 + i) (b_low b 2 + j) (b_low b 3 + k)) (seq 0 (b_size b 1))) (seq 0 (b_size b 2))) (seq 0 (b_size b 3)).
(* The place of a point in an array of n(1) x n(2) x n(3) elements. *)
Definition place (n c : nat -> nat) : nat := (c 1 + n 1 * (c 2 + n 2 * c 3))%nat.
(* MPI_Type_create_subarray(3, sizes, subsizes, starts, MPI_ORDER_FORTRAN, ...) *)
Definition subarray (sizes subsizes starts : nat -> nat) : list nat :=
  map (place sizes) (box_cells {| b_low := starts; b_size := subsizes |}).

(* H5Sselect_hyperslab(space, H5S_SELECT_SET, start, stride, count, NULL) with stride 1 in
   a space of 3 dimensions: places in C order, last index fastest
   (hdf5_io_functions.cpp:3-62). *)
Definition hyperslab (dims start count : nat -> nat) : list nat :=
  flat_map (fun i => flat_map (fun j => map (fun k =>
    (((start 1 + i) * dims 2 + (start 2 + j)) * dims 3 + (start 3 + k))%nat) (seq 0 (count 3%nat))) (seq 0 (count 2%nat))) (seq 0 (count 1%nat)).
(* reverse_array (micro_output_writer.h:106-120) of three numbers *)
Definition reverse_array (a : nat -> nat) : nat -> nat := cell3 (a 3%nat) (a 2%nat) (a 1%nat).
(* filespace_ and memspace_ (78-80) *)
Definition h5_filespace (full : nat -> nat) (b : box) : list nat := hyperslab (reverse_array full) (reverse_array (b_low b)) (reverse_array (b_size b)).
Definition h5_memspace (b : box) : list nat := hyperslab (fun d => (reverse_array (b_size b) d + 2 * 0)%nat) (fun _ => 0%nat) (reverse_array (b_size b)).

(* Manager_MPI_IO (manager_mpi_io.h:55-142): num_ghost_nodes more elements at both ends. *)
Definition local_dimensions (ghost : nat) (sub : nat -> nat) : nat -> nat := fun d => (sub d + 2 * ghost)%nat.
Definition memory_space_type (ghost : nat) (sub : nat -> nat) : list nat := subarray (local_dimensions ghost sub) sub (fun _ => ghost).
Definition file_space_type (full : nat -> nat) (b : box) : list nat := subarray full (b_size b) (b_low b).

(* A file: for every element the number at it, None where nothing was written. *)
Definition file (A : Type) := nat -> option A.
Definition put {A} (f : file A) (at_ : nat) (v : A) : file A := fun p => if Nat.eqb p at_ then Some v else f p.
Definition put_all {A} (f : file A) (l : list (nat * A)) : file A := fold_left (fun f e => put f (fst e) (snd e)) l f.

(* write_binary (198-207) of one rank; file_offset in elements.  The file view takes the
   elements of the memory type in order. *)
Definition rank_writes {A} (file_offset : nat) (full : nat -> nat) (ghost : nat) (b : box) (data : nat -> A) : list (nat * A) :=
  combine (map (Nat.add file_offset) (file_space_type full b)) (map data (memory_space_type ghost (b_size b))).
(* All ranks; in which order is up to MPI. *)
Definition write_binary {A} (file_offset : nat) (full : nat -> nat) (ghost : nat) (ranks : list (box * (nat -> A))) (f : file A) : file A :=
  fold_left (fun f r => put_all f (rank_writes file_offset full ghost (fst r) (snd r))) ranks f.
(* read_binary (209-219) of one rank into data; what was not written is left alone. *)
Definition read_binary {A} (file_offset : nat) (full : nat -> nat) (ghost : nat) (b : box) (f : file A) (data : nat -> option A) : nat -> option A :=
  put_all data (flat_map (fun e => match f (fst e) with Some v => [(snd e, v)] | None => [] end)
                  (combine (map (Nat.add file_offset) (file_space_type full b)) (memory_space_type ghost (b_size b)))).

(* ---------- write_ascii (221-254) ---------- *)

(* A buffer of chars; sprintf writes the text and a closing zero: None if that does not
   fit, undefined. *)
Definition buffer := list (option nat).
Definition sprintf_at (buf : buffer) (at_ : nat) (text : list nat) : option buffer :=
  let n := (length text + 1)%nat in
  if Nat.leb (at_ + n) (length buf) then
    Some (firstn at_ buf ++ map Some (text ++ [0%nat]) ++ skipn (at_ + n) buf)%list else None.
(* format "%013.6E\n": [fmt] gives the text of a number. *)
Fixpoint print_all {A} (fmt : A -> list nat) (chars_per_num : nat) (i : nat) (data : list A) (buf : buffer) : option buffer :=
  match data with
  | [] => Some buf
  | v :: data => match sprintf_at buf (i * chars_per_num) (fmt v) with
                 | Some buf => print_all fmt chars_per_num (S i) data buf
                 | None => None
                 end
  end.
(* data_as_chars of write_ascii; None: undefined.  chars_per_num_ is the length of the
   text of zero (124-126). *)
Definition data_as_chars {A} (fmt : A -> list nat) (zero : A) (data : list A) : option buffer :=
  let chars_per_num := length (fmt zero) in
  print_all fmt chars_per_num 0 data (repeat None (length data * chars_per_num)).

(* ---------- write_texture.cpp ---------- *)

(* The lines of tex.out: written by rank 0 alone, one for every point of its box, with
   the indices in the box; the count on the fourth line (41). *)
Definition write_texture {A} (line : nat -> (nat -> nat) -> A) (ranks : list box) : option (nat * list A) :=
  match ranks with
  | [] => None
  | b :: _ => Some ((b_size b 1 * b_size b 2 * b_size b 3)%nat, map (line 0%nat) (box_cells {| b_low := fun _ => 1%nat; b_size := b_size b |}))
  end.
