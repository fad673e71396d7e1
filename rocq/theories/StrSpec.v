(** Specification vocabulary for strings. *)
From Verif Require Import StrModel.

(** d occurs in s *)
Definition occurs (d s : str) : Prop := exists a b, s = a ++ d ++ b.

(** pieces glued with a delimiter *)
Fixpoint join (d : str) (l : list str) : str :=
  match l with
  | [] => []
  | [x] => x
  | x :: l' => x ++ d ++ join d l'
  end.

Definition blanks (s : str) : Prop := Forall (fun c => c = SP) s.
Definition no_blank_ends (s : str) : Prop := forall c t, s = c :: t -> c <> SP /\ last s c <> SP.

(** the delimiter is found in a piece followed by a delimiter only at the end of the piece: this makes "the first
    occurrence" precise also for delimiters that overlap themselves *)
Definition first_occurrence (d p : str) : Prop := forall a b, p ++ d = a ++ d ++ b -> b = [].

(** cutting s at the first occurrence of d, again and again *)
Inductive pieces (d : str) : str -> list str -> Prop :=
| pieces_last s : ~ occurs d s -> pieces d s [s]
| pieces_cut a b l : (forall a' b', a ++ d ++ b = a' ++ d ++ b' -> length a <= length a') -> pieces d b l ->
    pieces d (a ++ d ++ b) (a :: l).
