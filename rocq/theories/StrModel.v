(** Model of /repo/apps/multiphysics/src/common/include/string_utils.hpp.

    A std::string is a list of characters. [substr], [find], [find_first_not_of] and [find_last_not_of] follow the C++
    standard; [npos] is [None]. A loop that does not end, an exception and undefined behaviour are all [None] of the
    result type [option], and the theorems say when that happens. *)
From Coq Require Export Ascii String List Arith Lia Bool.
Export ListNotations.
Local Open Scope nat_scope.

Definition str := list ascii.
Definition of_string (s : string) : str := list_ascii_of_string s.

Definition SP : ascii := " "%char.

(** prefix test used by [find] *)
Fixpoint starts_with (p s : str) : bool :=
  match p, s with
  | [], _ => true
  | a :: p', b :: s' => Ascii.eqb a b && starts_with p' s'
  | _ :: _, [] => false
  end.

(** [s.find(delim, pos)]: the first position i >= pos with i + |delim| <= |s| where delim occurs; the standard asks for
    pos <= |s|, so an empty delim is found at pos = |s| and nowhere beyond. *)
Fixpoint find_at (d : str) (s : str) (i : nat) {struct s} : option nat :=
  if starts_with d s then Some i
  else match s with
       | [] => None
       | _ :: s' => find_at d s' (S i)
       end.
Definition find (s d : str) (pos : nat) : option nat :=
  if pos <=? length s then find_at d (skipn pos s) pos else None.

(** [s.substr(pos, n)] throws std::out_of_range for pos > |s| *)
Definition substr (s : str) (pos n : nat) : option str :=
  if pos <=? length s then Some (firstn n (skipn pos s)) else None.
Definition substr_end (s : str) (pos : nat) : option str :=
  if pos <=? length s then Some (skipn pos s) else None.

(** string_utils.hpp:59-66, the loop and the last piece; [fuel] bounds the number of passes *)
Fixpoint split_loop (fuel : nat) (s d : str) (pos : nat) (res : list str) : option (list str) :=
  match fuel with
  | O => None
  | S f =>
    match find s d pos with
    | Some e =>
      match substr s pos (e - pos) with
      | Some token => split_loop f s d (e + length d) (res ++ [token])
      | None => None
      end
    | None => match substr_end s pos with Some t => Some (res ++ [t]) | None => None end
    end
  end.

(** string_utils.hpp:53-67 split. [fuel] passes of the loop are enough or the loop never ends. *)
Definition split_fuel (fuel : nat) (s d : str) : option (list str) := split_loop fuel s d 0 [].
Definition split (s d : str) : option (list str) := split_fuel (S (length s)) s d.

(** string_utils.hpp:81-100 exact_array_values; erasing s.begin() of an empty string, or s.end()-1 of an empty one, is
    undefined behaviour *)
Definition exact_array_values (s d : str) : option (list str) :=
  match s with
  | [] => None
  | _ :: s' => match s' with [] => None | _ => split (removelast s') d end
  end.

(** string_utils.hpp:114-132 extract_list, up to atof *)
Definition repl (a b : ascii) (s : str) : str := map (fun c => if Ascii.eqb c a then b else c) s.
Definition list_words (s : str) : option (list str) :=
  split (repl "]"%char SP (repl "["%char SP s)) [","%char].

(** string_utils.hpp:150-154 ltrim, with WHITESPACE = " " (line 39) *)
Fixpoint first_not_blank (s : str) (i : nat) : option nat :=
  match s with
  | [] => None
  | c :: s' => if Ascii.eqb c SP then first_not_blank s' (S i) else Some i
  end.
Definition ltrim (s : str) : option str :=
  match first_not_blank s 0 with None => Some [] | Some i => substr_end s i end.

(** string_utils.hpp:172-176 rtrim; find_last_not_of scans from the end *)
Definition last_not_blank (s : str) : option nat :=
  match first_not_blank (rev s) 0 with None => None | Some k => Some (length s - 1 - k) end.
Definition rtrim (s : str) : option str :=
  match last_not_blank s with None => Some [] | Some e => substr s 0 (e + 1) end.

(** string_utils.hpp:194-197 trim *)
Definition trim (s : str) : option str :=
  match ltrim s with Some t => rtrim t | None => None end.
