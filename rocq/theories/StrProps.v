(** Property theorems C35. *)
From Verif Require Import StrModel StrSpec StrProofs.
Local Open Scope nat_scope.

Theorem C35_split : forall s d, d <> [] -> exists l, split s d = Some l /\ l <> [] /\ join d l = s /\ Forall (fun p => ~ occurs d p) l.
Proof.
  exact (fun s d Hd => match split_pieces s d Hd with ex_intro _ l (conj E P) =>
    ex_intro _ l (conj E (conj (proj1 (pieces_join d s l P)) (conj (proj2 (pieces_join d s l P)) (pieces_clean d s l Hd P)))) end).
Qed.
Print Assumptions C35_split.

(** the pieces are cut at the first occurrence of the delimiter, from left to right *)
Theorem C35_split_leftmost : forall s d, d <> [] -> exists l, split s d = Some l /\ pieces d s l /\ forall l', pieces d s l' -> l' = l.
Proof.
  exact (fun s d Hd => match split_pieces s d Hd with ex_intro _ l (conj E P) =>
    ex_intro _ l (conj E (conj P (fun l' P' => pieces_det d s l' l P' P))) end).
Qed.
Print Assumptions C35_split_leftmost.

Theorem C35_join_split : forall d l, d <> [] -> l <> [] -> (forall a x y b, l = a ++ x :: y :: b -> first_occurrence d x) ->
  ~ occurs d (last l []) -> split (join d l) d = Some l.
Proof. exact split_join. Qed.
Print Assumptions C35_join_split.

Theorem C35_join_split_char : forall c l, l <> [] -> Forall (fun p => ~ In c p) l -> split (join [c] l) [c] = Some l.
Proof. exact split_join_char. Qed.
Print Assumptions C35_join_split_char.

(** the loop of the code ends within length+1 passes for a nonempty delimiter and never for an empty one *)
Theorem C35_terminates : forall s d fuel, d <> [] -> length s < fuel -> split_fuel fuel s d = split s d.
Proof. exact split_fuel_enough. Qed.
Print Assumptions C35_terminates.

Theorem C35_empty_delimiter_hangs : forall s fuel, split_fuel fuel s [] = None.
Proof. exact split_hangs. Qed.
Print Assumptions C35_empty_delimiter_hangs.

Theorem C35_trim : forall s, exists a t b, trim s = Some t /\ s = a ++ t ++ b /\ blanks a /\ blanks b /\ no_blank_ends t.
Proof. exact trim_spec. Qed.
Print Assumptions C35_trim.

Theorem C35_trim_unique : forall s t a b, s = a ++ t ++ b -> blanks a -> blanks b -> no_blank_ends t -> trim s = Some t.
Proof. exact trim_unique. Qed.
Print Assumptions C35_trim_unique.

Theorem C35_trim_idempotent : forall s t, trim s = Some t -> trim t = Some t.
Proof. exact trim_idem. Qed.
Print Assumptions C35_trim_idempotent.

Theorem C35_array_values : forall c l o e, l <> [] -> Forall (fun p => ~ In c p) l ->
  exact_array_values (o :: join [c] l ++ [e]) [c] = Some l.
Proof. exact array_values. Qed.
Print Assumptions C35_array_values.

(** erasing the brackets of a string shorter than two characters is undefined behaviour *)
Theorem C35_array_values_defined : forall s d, d <> [] -> (exists l, exact_array_values s d = Some l) <-> 2 <= length s.
Proof. exact array_values_defined. Qed.
Print Assumptions C35_array_values_defined.

Theorem C35_extract_list : forall p1 mid pn,
  Forall (fun p => Forall (fun c => c <> ","%char /\ c <> "["%char /\ c <> "]"%char) p) (p1 :: mid ++ [pn]) ->
  list_words ("["%char :: join [","%char] (p1 :: mid ++ [pn]) ++ ["]"%char]) = Some ((SP :: p1) :: mid ++ [pn ++ [SP]]).
Proof. exact list_words_brackets. Qed.
Print Assumptions C35_extract_list.

Example C35_ex : split (of_string "a, b, c") (of_string ", ") = Some [of_string "a"; of_string "b"; of_string "c"] /\
  trim (of_string "  x y ") = Some (of_string "x y") /\ exact_array_values (of_string "[1,2]") (of_string ",") = Some [of_string "1"; of_string "2"].
Proof. repeat split; vm_compute; reflexivity. Qed.
