(** Specification vocabulary for tables. *)
From Verif Require Import BaseReal BaseArr StrModel StrSpec TableModel.
Local Open Scope R_scope.

(** column c of the table holds Y *)
Definition column (T : arr R) (c : nat) (Y : nat -> R) : Prop := forall i, (i < nrow T)%nat -> aget T i c = Some (Y i).

Definition ascending (n : nat) (X : nat -> R) : Prop := forall i, (S i < n)%nat -> X i <= X (S i).
Definition strictly_ascending (n : nat) (X : nat -> R) : Prop := forall i, (S i < n)%nat -> X i < X (S i).

(** v is the value at x of the piecewise linear curve through the n >= 1 points (X i, Y i), constant outside; at an
    abscissa that occurs several times the curve jumps and takes the first of the values (the last one at the end) *)
Inductive curve (n : nat) (X Y : nat -> R) (x : R) : R -> Prop :=
| before_first : x <= X 0%nat -> curve n X Y x (Y 0%nat)
| after_last : X 0%nat < x -> X (n - 1)%nat <= x -> curve n X Y x (Y (n - 1)%nat)
| inside i : X 0%nat < x -> x < X (n - 1)%nat -> (S i < n)%nat -> X i < x <= X (S i) ->
    curve n X Y x (Y i + (x - X i) / (X (S i) - X i) * (Y (S i) - Y i)).

Definition clamp (lo hi x : R) : R := Rmax lo (Rmin hi x).

(** a line of the file with the numbers vs, separated by commas and blanks *)
Definition data_line (stod : str -> option R) (line : str) (vs : list R) : Prop :=
  exists tl toks ws, trim line = Some tl /\ tl = join [","%char] toks /\ Forall (fun t => ~ In ","%char t) toks /\
    starts_with ["*"%char] tl = false /\ vs <> [] /\
    Forall2 (fun t w => trim t = Some w /\ w <> []) toks ws /\ Forall2 (fun w v => stod w = Some v) ws vs.

(** a line that carries nothing *)
Definition empty_line (line : str) : Prop := exists tl, trim line = Some tl /\ (tl = [] \/ is_comment tl = true).
(** the line that opens the block of the keyword, and a line that opens another block *)
Definition opens (key line : str) : Prop := exists tl, trim line = Some tl /\ is_keyword tl = true /\ starts_with key (upper tl) = true.
Definition other_keyword (key line : str) : Prop := exists tl, trim line = Some tl /\ is_keyword tl = true /\ starts_with key (upper tl) = false.

(** the lines of a block and the rows in them *)
Inductive block (stod : str -> option R) : list str -> list (list R) -> Prop :=
| block_nil : block stod [] []
| block_empty l ls rows : empty_line l -> block stod ls rows -> block stod (l :: ls) rows
| block_data l ls row rows : data_line stod l row -> block stod ls rows -> block stod (l :: ls) (row :: rows).
