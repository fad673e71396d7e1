(* Model of the YAML reader, writer and node tree that Fierro reads its input
   decks with: apps/multiphysics/src/input/Yaml.cpp (all line numbers below
   refer to that file unless another file is named).

   Simplifications that hold throughout:
   - a std::string is a list of characters; positions that the code writes as
     std::string::npos are [None];
   - node trees are values: a Node& returned by PushBack or operator[] and then
     written through is modelled by computing the new child and putting it back;
   - line numbers (ReaderLine::No) only occur in error messages and are left
     out, as are the message texts: an exception is an error constructor;
   - ReaderLine::Flags and ReaderLine::NextLine are written but never read by
     the parser, and are left out. *)
From Coq Require Import List Ascii String Arith Bool.
Import ListNotations.
Local Open Scope nat_scope.

(* ---------- characters and strings ---------- *)

Definition str := list ascii.
Definition lit (s : string) : str := list_ascii_of_string s.

Definition c_sp : ascii := " "%char.
Definition c_tab : ascii := "009"%char.
Definition c_nl : ascii := "010"%char.
Definition c_cr : ascii := "013"%char.
Definition c_dq : ascii := "034"%char.
Definition c_sq : ascii := "039"%char.
Definition c_bs : ascii := "092"%char.

Definition spaces (n : nat) : str := repeat c_sp n.

(* std::string::operator==, used for "---" and "...". *)
Fixpoint str_eqb (a b : str) : bool :=
  match a, b with
  | [], [] => true
  | x :: a', y :: b' => Ascii.eqb x y && str_eqb a' b'
  | _, _ => false
  end.

(* std::string::operator<, the order of std::map<std::string, Node*>
   (line 667): lexicographic on unsigned character codes. *)
Fixpoint str_cmp (a b : str) : comparison :=
  match a, b with
  | [], [] => Eq
  | [], _ :: _ => Lt
  | _ :: _, [] => Gt
  | x :: a', y :: b' =>
      match Nat.compare (nat_of_ascii x) (nat_of_ascii y) with
      | Eq => str_cmp a' b'
      | o => o
      end
  end.

(* std::string::find_first_of / find_first_not_of, as the position of the first
   character satisfying a test, from the beginning or from a given position. *)
Fixpoint find_if (p : ascii -> bool) (s : str) : option nat :=
  match s with
  | [] => None
  | c :: r => if p c then Some 0 else option_map S (find_if p r)
  end.

Definition find_at (p : ascii -> bool) (s : str) (pos : nat) : option nat :=
  option_map (fun k => pos + k) (find_if p (skipn pos s)).

(* std::string::find_last_not_of *)
Fixpoint find_last (p : ascii -> bool) (s : str) : option nat :=
  match s with
  | [] => None
  | c :: r => match find_last p r with
              | Some k => Some (S k)
              | None => if p c then Some 0 else None
              end
  end.

Definition is_ws (c : ascii) : bool := Ascii.eqb c c_sp || Ascii.eqb c c_tab.
Definition not_ws (c : ascii) : bool := negb (is_ws c).

(* ---------- errors (lines 47-60) ---------- *)

Inductive yerr :=
| InvalidCharacter | KeyMissing | KeyIncorrect | TabInOffset
| BlockSequenceNotAllowed | UnexpectedDocumentEnd | DiffEntryNotAllowed
| IncorrectOffset | InvalidBlockScalar | InvalidQuote | Indentation
| NoFuel.   (* not an outcome of the code: the model's recursion bound was hit *)

Inductive res (A : Type) :=
| Ok (a : A)
| Err (e : yerr).
Arguments Ok {A} a.
Arguments Err {A} e.

Definition rbind {A B} (x : res A) (f : A -> res B) : res B :=
  match x with Ok a => f a | Err e => Err e end.

(* ---------- the node tree (163-1010, 2030-2643) ---------- *)

(* Node / NodeImp with its TypeImp (891-1010): nothing, a SequenceImp
   (std::map<size_t, Node*>, 163-433), a MapImp (std::map<std::string, Node*>,
   436-667) or a ScalarImp (670-888).  A std::map is its list of entries in key
   order. *)
Inductive node :=
| NNone
| NSeq (m : list (nat * node))
| NMap (m : list (str * node))
| NScalar (v : str).

(* NodeImp::InitSequence (947-958): anything but a sequence is deleted. *)
Definition seq_of (n : node) : list (nat * node) :=
  match n with NSeq m => m | _ => [] end.

(* NodeImp::InitMap (974-985): anything but a map is deleted. *)
Definition map_of (n : node) : list (str * node) :=
  match n with NMap m => m | _ => [] end.

Fixpoint seq_find (m : list (nat * node)) (i : nat) : option node :=
  match m with
  | [] => None
  | (k, v) :: r => if Nat.eqb k i then Some v else seq_find r i
  end.

Fixpoint map_find (m : list (str * node)) (key : str) : option node :=
  match m with
  | [] => None
  | (k, v) :: r => if str_eqb k key then Some v else map_find r key
  end.

(* std::map::operator[] = / insert, keeping the entries in key order; an
   existing entry is overwritten. *)
Fixpoint map_set (m : list (str * node)) (key : str) (x : node) : list (str * node) :=
  match m with
  | [] => [(key, x)]
  | (k, v) :: r =>
      match str_cmp key k with
      | Lt => (key, x) :: (k, v) :: r
      | Eq => (key, x) :: r
      | Gt => (k, v) :: map_set r key x
      end
  end.

Fixpoint seq_set (m : list (nat * node)) (i : nat) (x : node) : list (nat * node) :=
  match m with
  | [] => [(i, x)]
  | (k, v) :: r =>
      match Nat.compare i k with
      | Lt => (i, x) :: (k, v) :: r
      | Eq => (i, x) :: r
      | Gt => (k, v) :: seq_set r i x
      end
  end.

(* SequenceImp::PushBack (373-387): one more than the last index, 0 if empty. *)
Definition next_index (m : list (nat * node)) : nat :=
  match rev m with [] => 0 | (k, _) :: _ => k + 1 end.

(* Node::PushBack (2270-2274), then writing [child] through the reference. *)
Definition push_back (n child : node) : node :=
  NSeq (seq_of n ++ [(next_index (seq_of n), child)]).

(* Node::operator[](key) (2319-2323) with MapImp::GetNode (547-557): the node
   becomes a map if it was not one, a missing key is created with an empty
   node.  [get_key] is what the returned reference holds, [set_key] writes
   through it, [touch_key] is the tree after the access alone. *)
Definition get_key (n : node) (key : str) : node :=
  match map_find (map_of n) key with Some v => v | None => NNone end.

Definition set_key (n : node) (key : str) (child : node) : node :=
  NMap (map_set (map_of n) key child).

Definition touch_key (n : node) (key : str) : node :=
  set_key n key (get_key n key).

(* Node::operator[](index) (2292-2300) with SequenceImp::GetNode (253-260): a
   missing index gives the shared empty node and leaves the entries alone. *)
Definition get_index (n : node) (i : nat) : node :=
  match seq_find (seq_of n) i with Some v => v | None => NNone end.

Definition touch_index (n : node) (i : nat) : node := NSeq (seq_of n).

(* Node::Size (2201-2208). *)
Definition node_size (n : node) : nat :=
  match n with
  | NNone => 0
  | NSeq m => List.length m
  | NMap m => List.length m
  | NScalar _ => 0
  end.

(* Node::AsString (2636-2643), Node::As<std::string> (Yaml.hpp). *)
Definition as_string (n : node) : str :=
  match n with NScalar v => v | _ => [] end.

(* Node::As<std::string>(default): StringConverter<std::string>, Yaml.hpp. *)
Definition as_string_or (n : node) (d : str) : str :=
  match as_string n with [] => d | v => v end.

Definition lower (c : ascii) : ascii :=
  let k := nat_of_ascii c in
  if (65 <=? k) && (k <=? 90) then ascii_of_nat (k + 32) else c.

(* StringConverter<bool>::Get (Yaml.hpp). *)
Definition as_bool (n : node) : bool :=
  let t := map lower (as_string n) in
  str_eqb t (lit "true") || str_eqb t (lit "yes") || str_eqb t (lit "1").

(* Node::Erase(index) (2341-2348) with SequenceImp::Erase (403-411), and
   Node::Erase(key) (2366-2373) with MapImp::Erase (657-665). *)
Definition erase_index (n : node) (i : nat) : node :=
  match n with
  | NSeq m => NSeq (filter (fun e => negb (Nat.eqb (fst e) i)) m)
  | _ => n
  end.

Definition erase_key (n : node) (key : str) : node :=
  match n with
  | NMap m => NMap (filter (fun e => negb (str_eqb (fst e) key)) m)
  | _ => n
  end.

(* CopyNode (4233-4260) into a cleared node: Node::operator=(const Node&)
   (2391-2396) and the copy constructor. *)
Fixpoint copy_node (from : node) : node :=
  match from with
  | NNone => NNone
  | NScalar v => NScalar v
  | NSeq m =>
      (fix go (l : list (nat * node)) (to : node) : node :=
         match l with
         | [] => to
         | (_, x) :: r => go r (push_back to (copy_node x))
         end) m NNone
  | NMap m =>
      (fix go (l : list (str * node)) (to : node) : node :=
         match l with
         | [] => to
         | (k, x) :: r => go r (set_key to k (copy_node x))
         end) m NNone
  end.

(* SequenceImp::PushFront (346-355).  The loop copies each entry to the next
   index while it iterates, so the entry just written is the next one visited.
   One turn at index [k]; [None] when the iterator reaches the end. *)
Fixpoint next_key (m : list (nat * node)) (k : nat) : option nat :=
  match m with
  | [] => None
  | (j, _) :: r => if k <? j then Some j else next_key r k
  end.

Definition first_key (m : list (nat * node)) : option nat :=
  match m with [] => None | (j, _) :: _ => Some j end.

Fixpoint push_front_loop (fuel : nat) (m : list (nat * node)) (at_ : option nat)
  : option (list (nat * node)) :=
  match fuel with
  | 0 => None
  | S f =>
      match at_ with
      | None => Some m
      | Some k =>
          let m' := match seq_find m k with
                    | Some x => seq_set m (k + 1) x
                    | None => m
                    end in
          push_front_loop f m' (next_key m' k)
      end
  end.

(* std::map::insert leaves an existing entry alone. *)
Definition seq_insert_new (m : list (nat * node)) (i : nat) (x : node) : list (nat * node) :=
  match seq_find m i with Some _ => m | None => seq_set m i x end.

(* [fuel] turns of the loop; [None] = still running. *)
Definition push_front (fuel : nat) (n child : node) : option node :=
  match push_front_loop fuel (seq_of n) (first_key (seq_of n)) with
  | None => None
  | Some m => Some (NSeq (seq_insert_new m 0 child))
  end.

(* SequenceImp::Insert (299-330) after InitSequence.  In the loop the iterator
   is never advanced. *)
Fixpoint insert_loop (fuel : nat) (m : list (nat * node)) (at_ index : nat)
  : option (list (nat * node)) :=
  match fuel with
  | 0 => None
  | S f =>
      let m' := match seq_find m at_ with
                | Some x => seq_set m (at_ + 1) x
                | None => m
                end in
      if Nat.eqb at_ index then Some m' else insert_loop f m' at_ index
  end.

Definition insert_at (fuel : nat) (n : node) (index : nat) (child : node) : option node :=
  let m := seq_of n in
  match first_key m with
  | None => Some (NSeq [(0, child)])
  | Some k0 =>
      if List.length m <=? index then
        Some (NSeq (seq_insert_new m (next_index m - 1) child))
      else
        match insert_loop fuel m k0 index with
        | None => None
        | Some m' => Some (NSeq (seq_insert_new m' index child))
        end
  end.

(* ---------- quotes (4015-4230) ---------- *)

(* FindQuote (4015-4049) called repeatedly, each time from just after the
   previous closing quote (4079-4087): one scan from left to right.  Only
   double quotes not preceded by a backslash open or close.  [i] is the
   position of the head of [s] and [open] the position of an opening quote. *)
Fixpoint quotes_from (prev : option ascii) (s : str) (i : nat) (open : option nat)
  : list (nat * nat) :=
  match s with
  | [] => []
  | c :: r =>
      let escaped := match prev with Some b => Ascii.eqb b c_bs | None => false end in
      if Ascii.eqb c c_dq && negb escaped then
        match open with
        | None => quotes_from (Some c) r (S i) (Some i)
        | Some a => (a, i) :: quotes_from (Some c) r (S i) None
        end
      else quotes_from (Some c) r (S i) open
  end.

Definition quotes (s : str) : list (nat * nat) := quotes_from None s 0 None.

(* The loop of FindNotCited (4097-4118). *)
Fixpoint not_cited_loop (input : str) (token : ascii) (qs : list (nat * nat))
    (pos count : nat) : option nat * nat :=
  match qs with
  | [] => (Some pos, count)
  | (a, b) :: r =>
      if pos <? a then (Some pos, count)
      else if pos <=? b then
        match find_at (Ascii.eqb token) input (pos + 1) with
        | None => (None, S count)
        | Some p => not_cited_loop input token r p (S count)
        end
      else not_cited_loop input token r pos (S count)
  end.

(* FindNotCited (4069-4121): position of the first occurrence of [token] taken
   to be outside quotes, and the number of quoted parts seen before it. *)
Definition find_not_cited (input : str) (token : ascii) : option nat * nat :=
  match find_if (Ascii.eqb token) input with
  | None => (None, 0)
  | Some pos => not_cited_loop input token (quotes input) pos 0
  end.

Definition is_quote (c : ascii) : bool := Ascii.eqb c c_dq || Ascii.eqb c c_sq.

(* The loop of ValidateQuote (4177-4214), from the character after [prev]. *)
Fixpoint validate_loop (token : option ascii) (prev : ascii) (s : str) : bool :=
  match s with
  | [] => match token with None => true | Some _ => false end
  | c :: r =>
      if is_quote c && negb (Ascii.eqb prev c_bs) then
        match token with
        | None => false
        | Some t => if Ascii.eqb c t then match r with [] => true | _ => false end
                    else validate_loop token c r
        end
      else validate_loop token c r
  end.

(* ValidateQuote (4162-4217).  With an opening quote the search starts at the
   third character (searchPos + 1 with searchPos = 1). *)
Definition validate_quote (input : str) : bool :=
  match input with
  | [] => true
  | c :: r =>
      if is_quote c then
        match r with
        | [] => false
        | d :: r' => validate_loop (Some c) d r'
        end
      else validate_loop None c r
  end.

(* RemoveAllEscapeTokens (4327-4341): a backslash is dropped and the character
   after it kept; a backslash that ends the text stays. *)
Fixpoint remove_escapes (s : str) : str :=
  match s with
  | [] => []
  | c :: r =>
      if Ascii.eqb c c_bs then
        match r with
        | [] => [c]
        | d :: r' => d :: remove_escapes r'
        end
      else c :: remove_escapes r
  end.

(* AddEscapeTokens (4297-4308) for one token, and for the tokens backslash and
   double quote in that order (3801). *)
Fixpoint escape_one (token : ascii) (s : str) : str :=
  match s with
  | [] => []
  | c :: r => if Ascii.eqb c token then c_bs :: c :: escape_one token r
              else c :: escape_one token r
  end.

Definition add_escapes (s : str) : str := escape_one c_dq (escape_one c_bs s).

(* ShouldBeCited (4276-4279). *)
Definition cite_chars : str := c_dq :: lit ":{}[],&*#?|-<>=!%@".
Definition should_be_cited (s : str) : bool :=
  existsb (fun c => existsb (Ascii.eqb c) cite_chars) s.

(* ---------- reading lines (2815-2899) ---------- *)

Inductive ltype := LNone | LSeq | LMap | LScalar.

(* ReaderLine (2650-2746). *)
Record rline := mkL { l_data : str; l_off : nat; l_type : ltype }.

(* std::getline until the stream is at its end: the text cut at every newline,
   with a last, possibly empty, piece. *)
Fixpoint lines_of (s : str) : list str :=
  match s with
  | [] => [[]]
  | c :: r =>
      if Ascii.eqb c c_nl then [] :: lines_of r
      else match lines_of r with
           | [] => [[c]]
           | l :: ls => (c :: l) :: ls
           end
  end.

(* line 2866; char is signed on the supported platforms, so codes above 127
   compare below 32. *)
Definition valid_char (c : ascii) : bool :=
  Ascii.eqb c c_tab || ((32 <=? nat_of_ascii c) && (nat_of_ascii c <=? 125)).

Definition strip_comment (line : str) : str :=
  match fst (find_not_cited line "#"%char) with
  | Some p => firstn p line
  | None => line
  end.

Definition strip_cr (line : str) : str :=
  match rev line with
  | c :: r => if Ascii.eqb c c_cr then rev r else line
  | [] => line
  end.

(* Lines 2857-2886: trailing return, character and tab checks, offset. *)
Definition read_line (line0 : str) : res (str * nat) :=
  let line := strip_cr line0 in
  if forallb valid_char line then
    match find_if not_ws line with
    | Some start =>
        match find_if (Ascii.eqb c_tab) line with
        | Some t => if t <? start then Err TabInOffset else Ok (skipn start line, start)
        | None => Ok (skipn start line, start)
        end
    | None => Ok ([], 0)
    end
  else Err InvalidCharacter.

(* ParseImp::ReadLines (2815-2899); [acc] holds m_Lines. *)
Fixpoint read_lines (ls : list str) (doc_start found_first : bool) (acc : list rline)
  : res (list rline) :=
  match ls with
  | [] => Ok acc
  | l :: r =>
      let line := strip_comment l in
      if negb doc_start && str_eqb line (lit "---") then read_lines r true found_first []
      else if str_eqb line (lit "...") then Ok acc
      else if str_eqb line (lit "---") then Ok acc
      else
        rbind (read_line line) (fun '(d, o) =>
          if negb found_first && match d with [] => true | _ => false end
          then read_lines r doc_start false acc
          else read_lines r doc_start true (acc ++ [mkL d o LNone]))
  end.

(* ---------- splitting and typing lines (2906-3100) ---------- *)

Definition is_empty (s : str) : bool := match s with [] => true | _ => false end.

(* ClearTrailingEmptyLines (3467-3480) at the head of the remaining lines. *)
Fixpoint clear_empty (ls : list rline) : list rline :=
  match ls with
  | [] => []
  | l :: r => if is_empty (l_data l) then clear_empty r else ls
  end.

(* IsSequenceStart (3498-3509). *)
Definition is_seq_start (d : str) : bool :=
  match d with
  | [] => false
  | c :: r =>
      Ascii.eqb c "-"%char &&
      match r with [] => true | c2 :: _ => Ascii.eqb c2 c_sp end
  end.

Inductive bkind := Literal | Folded.

(* IsBlockScalar (3527-3561): the kind, and whether the text ends in a newline. *)
Definition block_scalar (d : str) : res (option (bkind * bool)) :=
  match d with
  | [] => Ok None
  | c :: r =>
      let kind := if Ascii.eqb c "|"%char then Some Literal
                  else if Ascii.eqb c ">"%char then Some Folded else None in
      match kind with
      | None => Ok None
      | Some k =>
          match r with
          | [] => Ok (Some (k, true))
          | c2 :: _ => if Ascii.eqb c2 "-"%char || is_ws c2 then Ok (Some (k, false))
                       else Err InvalidBlockScalar
          end
      end
  end.

(* The loop of PostProcessScalarLine (3083-3099): lines kept as continuation
   (up to the last non-empty one) and lines left.  [kept] and [pending] hold
   the lines up to the last non-empty one and the empty lines after it. *)
Fixpoint continuation (parent : nat) (ls kept pending : list rline)
  : list rline * list rline :=
  match ls with
  | [] => (kept, [])
  | l :: r =>
      if is_empty (l_data l) then
        continuation parent r kept (pending ++ [mkL (l_data l) (l_off l) LScalar])
      else if l_off l <=? parent then (kept, ls)
      else continuation parent r
             (kept ++ pending ++ [mkL (l_data l) (l_off l) LScalar]) []
  end.

Definition last_off (o : nat) (ls : list rline) : nat :=
  match rev ls with [] => o | l :: _ => l_off l end.

(* PostProcessLines (2906-2919) with PostProcessSequenceLine (2950-2974),
   PostProcessMappingLine (2983-3060) and PostProcessScalarLine (3069-3100).
   [prev] is the offset of the line before the current one in m_Lines ([None]
   for the first line); the result is the final m_Lines from the current line
   on. *)
Definition pp_scalar (go : option nat -> list rline -> res (list rline))
    (prev : option nat) (l : rline) (rest : list rline) : res (list rline) :=
  let parent := match prev with Some o => o | None => l_off l end in
  let '(kept, todo) := continuation parent rest [] [] in
  rbind (go (Some (last_off (l_off l) kept)) todo) (fun out =>
    Ok (mkL (l_data l) (l_off l) LScalar :: kept ++ out)).

(* The key of a mapping line (2999-3015). *)
Definition map_key (d : str) (token quoted : nat) : res str :=
  match find_last not_ws (firstn token d) with
  | None => Err KeyMissing
  | Some e =>
      let key := firstn (S e) (firstn token d) in
      if Nat.eqb quoted 1 then
        match key with
        | c :: _ =>
            if Ascii.eqb c c_dq && Ascii.eqb (List.last key c_sp) c_dq
            then Ok (remove_escapes (firstn (List.length key - 2) (skipn 1 key)))
            else Err KeyIncorrect
        | [] => Err KeyIncorrect
        end
      else Ok (remove_escapes key)
  end.

Definition pp_mapping (go : option nat -> list rline -> res (list rline))
    (prev : option nat) (l : rline) (rest : list rline) : res (list rline) :=
  match find_not_cited (l_data l) ":"%char with
  | (None, _) => pp_scalar go prev l rest
  | (Some token, quoted) =>
      if 1 <? quoted then Err KeyIncorrect
      else
        rbind (map_key (l_data l) token quoted) (fun key =>
          let vstart := find_at not_ws (l_data l) (token + 1) in
          let value := match vstart with Some v => skipn v (l_data l) | None => [] end in
          if is_seq_start value then Err BlockSequenceNotAllowed
          else
            let rest' := clear_empty rest in
            let head := mkL key (l_off l) LMap in
            match vstart, rest' with
            | None, nx :: _ =>
                if l_off l <? l_off nx
                then rbind (go (Some (l_off l)) rest') (fun out => Ok (head :: out))
                else rbind (pp_scalar go (Some (l_off l)) (mkL [] (token + 2) LScalar) rest')
                       (fun out => Ok (head :: out))
            | None, [] =>
                rbind (pp_scalar go (Some (l_off l)) (mkL [] (token + 2) LScalar) rest')
                  (fun out => Ok (head :: out))
            | Some v, _ =>
                rbind (block_scalar value) (fun b =>
                  let off := match b with Some _ => l_off l | None => v + l_off l end in
                  rbind (pp_scalar go (Some (l_off l)) (mkL value off LScalar) rest')
                    (fun out => Ok (head :: out)))
            end)
  end.

Fixpoint pp (fuel : nat) (prev : option nat) (ls : list rline) : res (list rline) :=
  match fuel with
  | 0 => match ls with [] => Ok [] | _ => Err NoFuel end
  | S f =>
      match ls with
      | [] => Ok []
      | l :: rest =>
          if is_seq_start (l_data l) then
            let rest' := clear_empty rest in
            match find_at not_ws (l_data l) 1 with
            | None =>
                rbind (pp f (Some (l_off l)) rest') (fun out =>
                  Ok (mkL (l_data l) (l_off l) LSeq :: out))
            | Some v =>
                rbind (pp_mapping (pp f) (Some (l_off l))
                         (mkL (skipn v (l_data l)) (l_off l + v) LNone) rest') (fun out =>
                  Ok (mkL [] (l_off l) LSeq :: out))
            end
          else pp_mapping (pp f) prev l rest
      end
  end.

(* PostProcessLines with its final check (2921-2925). *)
Definition post_process (ls : list rline) : res (list rline) :=
  rbind (pp (List.length ls) None ls) (fun out =>
    match rev out with
    | [] => Ok out
    | l :: _ => match l_type l with
                | LScalar => Ok out
                | _ => Err UnexpectedDocumentEnd
                end
    end).

(* ---------- building the tree (3106-3366) ---------- *)

Definition is_scalar_next (ls : list rline) : bool :=
  match ls with
  | l :: _ => match l_type l with LScalar => true | _ => false end
  | [] => false
  end.

(* ParseScalar, not a block scalar (3265-3289): text, offset of the last line
   read, lines left. *)
Fixpoint plain_scalar (parent : nat) (ls : list rline) (data : str)
  : res (str * nat * list rline) :=
  match ls with
  | [] => Ok (data, 0, [])
  | l :: r =>
      if negb (Nat.eqb parent 0) && (l_off l <=? parent) then Err IncorrectOffset
      else
        let data' := data ++ match find_last not_ws (l_data l) with
                             | None => [c_nl]
                             | Some e => firstn (S e) (l_data l)
                             end in
        if is_scalar_next r then plain_scalar parent r (data' ++ [c_sp])
        else Ok (data', l_off l, r)
  end.

Definition set_last (d : str) (c : ascii) : str := firstn (List.length d - 1) d ++ [c].

(* ParseScalar, block scalar (3296-3354). *)
Fixpoint block_text (k : bkind) (newline : bool) (boff : nat) (ls : list rline)
    (data : str) (added : bool) (prev : nat) : res (str * nat * list rline) :=
  match ls with
  | [] => Ok (data, prev, [])
  | l :: r =>
      match l_type l with
      | LScalar =>
          match find_last not_ws (l_data l) with
          | None =>
              block_text k newline boff r
                (if added then set_last data c_nl else data ++ [c_nl]) false (l_off l)
          | Some _ =>
              if l_off l <? boff then Err IncorrectOffset
              else
                let folded := match k with Folded => true | Literal => false end in
                let indented := negb (Nat.eqb boff (l_off l)) && folded in
                let data1 := if indented
                             then (if added then set_last data c_nl else data ++ [c_nl])
                             else data in
                let added1 := if indented then false else added in
                let data2 := data1 ++ spaces (l_off l - boff) ++ l_data l in
                if is_scalar_next r then
                  if folded then block_text k newline boff r (data2 ++ [c_sp]) true (l_off l)
                  else block_text k newline boff r (data2 ++ [c_nl]) added1 (l_off l)
                else Ok (if newline then data2 ++ [c_nl] else data2, l_off l, r)
          end
      | _ => Ok (data, prev, ls)
      end
  end.

(* Lines 3358-3360. *)
Definition strip_quotes (d : str) : str :=
  match d with
  | c :: r => if is_quote c then firstn (List.length d - 2) r else d
  | [] => []
  end.

(* ParseScalar (3236-3363): the node, the offset of the last line read, the
   lines left. *)
Definition parse_scalar (prev : option nat) (ls : list rline) (nd : node)
  : res (node * option nat * list rline) :=
  match ls with
  | [] => Ok (nd, prev, [])
  | l :: r =>
      let parent := match prev with Some o => o | None => 0 end in
      rbind (block_scalar (l_data l)) (fun b =>
        match b with
        | None =>
            rbind (plain_scalar parent ls []) (fun '(d, o, todo) =>
              if validate_quote d then Ok (NScalar (strip_quotes d), Some o, todo)
              else Err InvalidQuote)
        | Some (k, newline) =>
            match r with
            | [] => Ok (nd, Some (l_off l), r)
            | l2 :: _ =>
                match l_type l2 with
                | LScalar =>
                    if l_off l2 <=? parent then Err IncorrectOffset
                    else
                      rbind (block_text k newline (l_off l2) r [] false (l_off l))
                        (fun '(d, o, todo) => Ok (NScalar (strip_quotes d), Some o, todo))
                | _ => Ok (nd, Some (l_off l), r)
                end
            end
        end)
  end.

(* ParseSequence (3140-3182), ParseMap (3188-3230) and the choice between them
   (3116-3129, 3155-3168, 3203-3216).  One turn of either loop reads one entry;
   the loop goes on only at a line of the same kind, so the next turn is the
   same choice again.  [nd] is the node being filled. *)
Fixpoint parse_node (fuel : nat) (prev : option nat) (ls : list rline) (nd : node)
  : res (node * option nat * list rline) :=
  match fuel with
  | 0 => Err NoFuel
  | S f =>
      match ls with
      | [] => Ok (nd, prev, [])
      | l :: r =>
          match l_type l with
          | LNone => Ok (nd, prev, ls)
          | LScalar => parse_scalar prev ls nd
          | LSeq =>
              match r with
              | [] => Err UnexpectedDocumentEnd
              | _ :: _ =>
                  rbind (parse_node f (Some (l_off l)) r NNone) (fun '(child, p', todo) =>
                    let nd' := push_back nd child in
                    match todo with
                    | [] => Ok (nd', p', todo)
                    | nx :: _ =>
                        if l_off nx <? l_off l then Ok (nd', p', todo)
                        else if l_off l <? l_off nx then Err IncorrectOffset
                        else match l_type nx with
                             | LSeq => parse_node f p' todo nd'
                             | _ => Err DiffEntryNotAllowed
                             end
                    end)
              end
          | LMap =>
              match r with
              | [] => Err UnexpectedDocumentEnd
              | _ :: _ =>
                  rbind (parse_node f (Some (l_off l)) r (get_key nd (l_data l)))
                    (fun '(child, p', todo) =>
                    let nd' := set_key nd (l_data l) child in
                    match todo with
                    | [] => Ok (nd', p', todo)
                    | nx :: _ =>
                        if l_off nx <? l_off l then Ok (nd', p', todo)
                        else if l_off l <? l_off nx then Err IncorrectOffset
                        else match l_type nx with
                             | LMap => parse_node f p' todo nd'
                             | _ => Err DiffEntryNotAllowed
                             end
                    end)
              end
          end
      end
  end.

(* ParseRoot (3106-3134). *)
Definition parse_root (ls : list rline) : res node :=
  match ls with
  | [] => Ok NNone
  | _ :: _ =>
      rbind (parse_node (S (List.length ls)) None ls NNone) (fun '(nd, _, todo) =>
        match todo with
        | [] => Ok nd
        | _ :: _ => Err UnexpectedDocumentEnd
        end)
  end.

(* ParseImp::Parse (2780-2795) and Yaml::Parse (3601-3616, 3634-3638) on a text:
   what the root holds, or the exception.  The file variant (3567-3583) reads
   the whole file and does the same. *)
Definition parse (text : str) : res node :=
  rbind (read_lines (lines_of text) false false []) (fun ls =>
  rbind (post_process ls) parse_root).

(* The root after the call: cleared when an exception is thrown (2790-2794). *)
Definition parse_root_after (before : node) (text : str) : node :=
  match parse text with Ok n => n | Err _ => NNone end.

(* ---------- writing (3665-3928) ---------- *)

(* SerializeConfig (Yaml.hpp, 3665-3672). *)
Record sconfig := mkCfg {
  sc_indent : nat;          (* SpaceIndentation *)
  sc_maxlen : nat;          (* ScalarMaxLength *)
  sc_seq_map_nl : bool;     (* SequenceMapNewline *)
  sc_map_scalar_nl : bool   (* MapScalarNewline *)
}.

(* LineFolding (3705-3738): from [last], look for a space at or after
   last + maxLength.  [fuel] bounds the number of turns; the text length does.
   The position spacePos kept from an earlier turn is only used after it was
   set again in the same turn. *)
Fixpoint fold_from (fuel : nat) (input : str) (maxlen last : nat) : list str :=
  match fuel with
  | 0 => []
  | S f =>
      let tail := match skipn last input with [] => [] | t => [t] end in
      if last + maxlen <? List.length input then
        match find_at (Ascii.eqb c_sp) input (last + maxlen) with
        | None => tail
        | Some p => firstn (p - last) (skipn last input)
                      :: fold_from f input maxlen (p + 1)
        end
      else tail
  end.

Definition line_folding (input : str) (maxlen : nat) : list str :=
  match input with [] => [] | _ => fold_from (S (List.length input)) input maxlen 0 end.

(* The scalar case of SerializeLoop (3814-3885). *)
Definition ser_scalar (cfg : sconfig) (use_level : bool) (level : nat) (value : str) : str :=
  match value with
  | [] => [c_nl]
  | _ =>
      let ls0 := lines_of value in
      let end_nl := is_empty (List.last ls0 []) in
      let ls := if end_nl then removelast ls0 else ls0 in
      let block (mark : ascii) (body : list str) :=
        mark :: (if end_nl then [] else lit "-") ++ [c_nl]
             ++ flat_map (fun l => spaces level ++ l ++ [c_nl]) body in
      let plain :=
        (if use_level then spaces level else [])
        ++ (if should_be_cited value then [c_dq] ++ value ++ [c_dq] else value) ++ [c_nl] in
      if 1 <? List.length ls then block "|"%char ls
      else
        let front := hd [] ls in
        if Nat.eqb (sc_maxlen cfg) 0 || (List.length front <=? sc_maxlen cfg) then plain
        else
          let fl := line_folding front (sc_maxlen cfg) in
          if Nat.eqb (List.length fl) 1 then plain else block ">"%char fl
  end.

Definition is_none (n : node) : bool := match n with NNone => true | _ => false end.
Definition is_seq (n : node) : bool := match n with NSeq _ => true | _ => false end.
Definition is_map (n : node) : bool := match n with NMap _ => true | _ => false end.
Definition is_scalar (n : node) : bool := match n with NScalar _ => true | _ => false end.

(* The key text (3800-3807). *)
Definition ser_key (key : str) : str :=
  let k := add_escapes key in
  if should_be_cited k then [c_dq] ++ k ++ [c_dq] else k.

(* SerializeLoop (3756-3893). *)
Fixpoint ser (cfg : sconfig) (use_level : bool) (level : nat) (n : node) : str :=
  match n with
  | NNone => []
  | NScalar v => ser_scalar cfg use_level level v
  | NSeq m =>
      (fix go (l : list (nat * node)) : str :=
         match l with
         | [] => []
         | (_, x) :: r =>
             if is_none x then go r
             else
               let nl := is_seq x || (is_map x && sc_seq_map_nl cfg) in
               spaces level ++ lit "- " ++ (if nl then [c_nl] else [])
               ++ ser cfg nl (level + 2) x ++ go r
         end) m
  | NMap m =>
      (fix go (l : list (str * node)) (use : bool) : str :=
         match l with
         | [] => []
         | (k, x) :: r =>
             if is_none x then go r use
             else
               let nl := negb (is_scalar x) || sc_map_scalar_nl cfg in
               (if use then spaces level else [])
               ++ ser_key k ++ lit ": " ++ (if nl then [c_nl] else [])
               ++ ser cfg nl (level + sc_indent cfg) x ++ go r true
         end) m use_level
  end.

(* Yaml::Serialize (3898-3905, 3923-3928). *)
Definition serialize (cfg : sconfig) (n : node) : res str :=
  if sc_indent cfg <? 2 then Err Indentation
  else Ok (ser cfg false 0 n).
