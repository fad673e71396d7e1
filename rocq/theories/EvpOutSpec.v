(* What the files of the spectral solver should hold, stated without the writer. *)
From Coq Require Import Reals List Arith Lia Bool ZArith String.
From Verif Require Import BaseReal EvpModel EvpOutModel.
Import ListNotations.
Local Open Scope R_scope.

(* ---------- a reader of a .vtu file with appended raw data ---------- *)

Definition bytes (l : list item) : nat := list_sum (map width l).
(* Leave out the first o bytes; an offset inside a number cannot be read. *)
Fixpoint skip_bytes (l : list item) (o : nat) : option (list item) :=
  match o, l with
  | 0%nat, _ => Some l
  | _, [] => None
  | _, i :: l => if Nat.leb (width i) o then skip_bytes l (o - width i) else None
  end.
(* Exactly the first n bytes. *)
Fixpoint take_bytes (l : list item) (n : nat) : option (list item) :=
  match n, l with
  | 0%nat, _ => Some []
  | _, [] => None
  | _, i :: l => if Nat.leb (width i) n then match take_bytes l (n - width i) with Some r => Some (i :: r) | None => None end else None
  end.
(* header_type UInt64: the block at an offset starts with its number of bytes. *)
Definition read_block (l : list item) (o : nat) : option (list item) :=
  match skip_bytes l o with Some (U64 n :: l) => take_bytes l n | _ => None end.

Definition has_type (t : ty) (i : item) : Prop :=
  match t, i with Float64, F64 _ => True | Int32, I32 _ => True | UInt8, U8 _ => True | _, _ => False end.

Definition named (v : vtu) (name : string) : option (array * nat) :=
  find (fun e => String.eqb (fst (fst (fst e))) name) (v_arrays v).
(* The numbers of the array of that name, and tuple number i of it. *)
Definition read_array (v : vtu) (name : string) : option (list item) :=
  match named v name with Some (_, o) => read_block (v_data v) o | None => None end.
Definition components (v : vtu) (name : string) : nat := match named v name with Some ((_, _, c), _) => c | None => 0 end.
Definition slice (l : list item) (from n : nat) : option (list item) :=
  if Nat.leb (from + n) (length l) then Some (firstn n (skipn from l)) else None.
Definition tuple (v : vtu) (name : string) (i : nat) : option (list item) :=
  match read_array v name with Some l => slice l (components v name * i) (components v name) | None => None end.

(* Corner number q of a VTK_HEXAHEDRON (type 12): the lower face around, then the upper. *)
Definition hex_corner (k : voxel) (q : nat) : voxel :=
  let '(x, y, z) := k in
  match q with
  | 0%nat => (x, y, z) | 1%nat => (S x, y, z) | 2%nat => (S x, S y, z) | 3%nat => (x, S y, z)
  | 4%nat => (x, y, S z) | 5%nat => (S x, y, S z) | 6%nat => (S x, S y, S z) | _ => (x, S y, S z)
  end.

(* Voxels counted from 1; the first index runs fastest. *)
Definition in_grid (n1 n2 n3 : nat) (k : voxel) : Prop :=
  let '(x, y, z) := k in (1 <= x <= n1 /\ 1 <= y <= n2 /\ 1 <= z <= n3)%nat.
Definition number (n1 n2 : nat) (k : voxel) : nat := let '(x, y, z) := k in ((x - 1) + n1 * ((y - 1) + n2 * (z - 1)))%nat.

(* ---------- arrays of several ranks in one file ---------- *)

Definition in_box (b : box) (c : nat -> nat) : Prop := forall d, (1 <= d <= 3)%nat -> (b_low b d <= c d < b_low b d + b_size b d)%nat.
Definition in_full (full c : nat -> nat) : Prop := forall d, (1 <= d <= 3)%nat -> (c d < full d)%nat.
Definition box_inside (full : nat -> nat) (b : box) : Prop := forall d, (1 <= d <= 3)%nat -> (b_low b d + b_size b d <= full d)%nat.
(* The memory of a rank with ghost layers around its box holds the field G on the box. *)
Definition holds {A} (ghost : nat) (b : box) (data : nat -> A) (G : (nat -> nat) -> A) : Prop :=
  forall c, in_box b c -> data (place (fun d => (b_size b d + 2 * ghost)%nat) (fun d => (c d - b_low b d + ghost)%nat)) = G c.
(* Fields do not depend on how an index is represented. *)
Definition field_ok {A} (G : (nat -> nat) -> A) : Prop := forall c c', (forall d, (1 <= d <= 3)%nat -> c d = c' d) -> G c = G c'.
Definition volume (b : box) : nat := (b_size b 1 * b_size b 2 * b_size b 3)%nat.
