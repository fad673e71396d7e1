(* What the YAML input reader is relied on for, said without the reader's own
   machinery: a document with a chosen layout, the lines it is written as, and
   what a program finds when it walks the tree with Type, Size, operator[] and
   As<std::string>. *)
From Coq Require Import List Ascii String Arith Bool Permutation.
From Verif Require Import YamlModel.
Import ListNotations.
Local Open Scope nat_scope.

(* ---------- documents with a layout ---------- *)

(* How a text value is written. *)
Inductive quoting := Bare | DQuoted | SQuoted.

Definition quoted (q : quoting) (v : str) : str :=
  match q with
  | Bare => v
  | DQuoted => c_dq :: v ++ [c_dq]
  | SQuoted => c_sq :: v ++ [c_sq]
  end.

(* Where an entry's value starts: on the same line after some spaces, or on the
   next line, after some trailing spaces, indented by more than the entry. *)
Inductive place :=
| SameLine (gap : nat)
| NextLine (trail indent : nat).

(* A key: quoted or not, its text, the number of spaces before the colon. *)
Record dkey := mkKey { k_quoted : bool; k_text : str; k_gap : nat }.

Definition key_str (k : dkey) : str :=
  quoted (if k_quoted k then DQuoted else Bare) (k_text k) ++ spaces (k_gap k).

(* A document: a text with trailing spaces, a sequence, a mapping. *)
Inductive doc :=
| DText (q : quoting) (v : str) (trail : nat)
| DSeq (es : list (place * doc))
| DMap (es : list (dkey * place * doc)).

(* The lines of a document whose first line is indented by [level] spaces, as
   pairs of indentation and remaining text.  A value on the same line starts
   after "-" and gap + 1 spaces, or after ":" and gap spaces. *)
Fixpoint doc_lines (level : nat) (d : doc) : list (nat * str) :=
  match d with
  | DText q v t => [(level, quoted q v ++ spaces t)]
  | DSeq es =>
      flat_map (fun e : place * doc =>
        let (p, c) := e in
        match p with
        | SameLine g =>
            match doc_lines (level + 2 + g) c with
            | [] => []
            | (_, s) :: r => (level, lit "-" ++ spaces (S g) ++ s) :: r
            end
        | NextLine t i => (level, lit "-" ++ spaces t) :: doc_lines (level + S i) c
        end) es
  | DMap es =>
      flat_map (fun e : dkey * place * doc =>
        let '(k, p, c) := e in
        match p with
        | SameLine g =>
            match doc_lines 0 c with
            | [] => []
            | (_, s) :: r => (level, key_str k ++ lit ":" ++ spaces g ++ s) :: r
            end
        | NextLine t i =>
            (level, key_str k ++ lit ":" ++ spaces t) :: doc_lines (level + S i) c
        end) es
  end.

(* ---------- well-formed documents ---------- *)

Definition printable (c : ascii) : Prop :=
  c = c_tab \/ (32 <= nat_of_ascii c <= 125).

Definition has (c : ascii) (s : str) : Prop := In c s.

Definition blank (c : ascii) : Prop := c = c_sp \/ c = c_tab.

(* No blank at either end, not empty. *)
Definition trimmed (s : str) : Prop :=
  s <> [] /\ ~ blank (hd c_sp s) /\ ~ blank (List.last s c_sp).

(* Text that starts like a list entry: "-" alone or followed by a space. *)
Definition dash_start (s : str) : Prop :=
  s = lit "-" \/ exists r, s = lit "- " ++ r.

(* Text that may be written bare. *)
Definition bare_ok (v : str) : Prop :=
  Forall printable v /\ trimmed v /\ ~ dash_start v /\
  ~ has "#" v /\ ~ has c_dq v /\ ~ has c_sq v /\
  hd c_sp v <> "|"%char /\ hd c_sp v <> ">"%char.

(* Text that may be written between quotes: not empty, no double quote, no
   comment sign, no backslash before the closing quote. *)
Definition quoted_ok (v : str) : Prop :=
  Forall printable v /\ v <> [] /\ ~ has "#" v /\ ~ has c_dq v /\
  List.last v c_sp <> c_bs.

Definition text_ok (q : quoting) (v : str) : Prop :=
  match q with
  | Bare => bare_ok v
  | DQuoted => quoted_ok v
  | SQuoted => quoted_ok v /\ ~ has c_sq v
  end.

Definition key_ok (k : dkey) : Prop :=
  Forall printable (k_text k) /\ ~ has "#" (k_text k) /\ ~ has c_dq (k_text k) /\
  ~ has ":" (k_text k) /\ ~ has c_bs (k_text k) /\
  (k_quoted k = false -> trimmed (k_text k) /\ ~ dash_start (k_text k)).

Definition same_line (p : place) : bool :=
  match p with SameLine _ => true | NextLine _ _ => false end.

(* [colons] tells whether a colon may occur in the text: it may in a value on
   its key's line.  Only a text may stand on its key's line, and not a sequence
   on the line of a list entry. *)
Inductive doc_ok : bool -> doc -> Prop :=
| ok_text : forall colons q v t,
    text_ok q v -> (colons = false -> ~ has ":" v) -> doc_ok colons (DText q v t)
| ok_seq : forall colons es,
    es <> [] ->
    (forall p c, In (p, c) es -> doc_ok false c) ->
    (forall p c es', In (p, c) es -> same_line p = true -> c <> DSeq es') ->
    doc_ok colons (DSeq es)
| ok_map : forall colons es,
    es <> [] ->
    (forall k p c, In (k, p, c) es -> key_ok k) ->
    (forall k p c, In (k, p, c) es -> doc_ok (same_line p) c) ->
    (forall k p c, In (k, p, c) es -> same_line p = true -> exists q v t, c = DText q v t) ->
    doc_ok colons (DMap es).

(* A document that is one text must not be a document marker. *)
Definition root_ok (d : doc) : Prop :=
  doc_ok false d /\
  match d with
  | DText Bare v _ => v <> lit "---" /\ v <> lit "..."
  | _ => True
  end.

(* ---------- the file ---------- *)

(* A line of the file: a line of the document or an empty one, either with an
   optional comment and an optional carriage return. *)
Inductive src_line :=
| SLine (level : nat) (text : str) (comment : option str) (cr : bool)
| SBlank (level : nat) (comment : option str) (cr : bool).

Definition comment_str (c : option str) : str :=
  match c with Some t => lit "#" ++ t | None => [] end.

Definition cr_str (cr : bool) : str := if cr then [c_cr] else [].

Definition src_str (l : src_line) : str :=
  match l with
  | SLine n s c cr => spaces n ++ s ++ comment_str c ++ cr_str cr
  | SBlank n c cr => spaces n ++ comment_str c ++ cr_str cr
  end.

Fixpoint join_lines (ls : list str) : str :=
  match ls with
  | [] => []
  | [l] => l
  | l :: r => l ++ [c_nl] ++ join_lines r
  end.

Definition src_text (ls : list src_line) : str := join_lines (map src_str ls).

(* The document lines of a file. *)
Fixpoint src_doc (ls : list src_line) : list (nat * str) :=
  match ls with
  | [] => []
  | SLine n s _ _ :: r => (n, s) :: src_doc r
  | SBlank _ _ _ :: r => src_doc r
  end.

Definition comment_of (l : src_line) : option str :=
  match l with SLine _ _ c _ => c | SBlank _ c _ => c end.

(* A comment is any text without a newline. *)
Definition comments_ok (ls : list src_line) : Prop :=
  forall l t, In l ls -> comment_of l = Some t -> ~ has c_nl t.

(* ---------- what is found in the tree ---------- *)

(* The node holds the document, as seen through Type, Size, operator[] and
   As<std::string>.  For a mapping this is said of documents that do not give a
   key twice. *)
Inductive holds : node -> doc -> Prop :=
| holds_text : forall n q v t,
    is_scalar n = true -> as_string n = v -> holds n (DText q v t)
| holds_seq : forall n es,
    is_seq n = true -> node_size n = List.length es ->
    (forall i p c, nth_error es i = Some (p, c) -> holds (get_index n i) c) ->
    holds n (DSeq es)
| holds_map : forall n es,
    is_map n = true -> node_size n = List.length es ->
    (forall k p c, In (k, p, c) es -> holds (get_key n (k_text k)) c) ->
    holds n (DMap es).

Fixpoint keys_of (es : list (dkey * place * doc)) : list str :=
  match es with [] => [] | (k, _, _) :: r => k_text k :: keys_of r end.

(* No mapping in the document gives a key twice. *)
Inductive no_dup_keys : doc -> Prop :=
| nd_text : forall q v t, no_dup_keys (DText q v t)
| nd_seq : forall es, (forall p c, In (p, c) es -> no_dup_keys c) -> no_dup_keys (DSeq es)
| nd_map : forall es,
    NoDup (keys_of es) ->
    (forall k p c, In (k, p, c) es -> no_dup_keys c) -> no_dup_keys (DMap es).

(* Two documents that differ only in layout and in the order of the keys of
   their mappings. *)
Inductive same_data : doc -> doc -> Prop :=
| sd_text : forall q q' v t t', same_data (DText q v t) (DText q' v t')
| sd_seq : forall es es',
    List.length es = List.length es' ->
    (forall i p c p' c', nth_error es i = Some (p, c) -> nth_error es' i = Some (p', c') ->
       same_data c c') ->
    same_data (DSeq es) (DSeq es')
| sd_map : forall es es1 es',
    Permutation es1 es' -> List.length es = List.length es1 ->
    (forall i k p c k' p' c', nth_error es i = Some (k, p, c) ->
       nth_error es1 i = Some (k', p', c') -> k_text k = k_text k') ->
    (forall i k p c k' p' c', nth_error es i = Some (k, p, c) ->
       nth_error es1 i = Some (k', p', c') -> same_data c c') ->
    same_data (DMap es) (DMap es').

(* ---------- trees ---------- *)

(* What a loop over 0 .. Size()-1 relies on.  Every
   sequence has the indices 0 .. Size()-1, every mapping its keys in strictly
   increasing order (so no key twice), at every depth. *)
Definition keys_increasing (ks : list str) : Prop :=
  forall i j a b, i < j -> nth_error ks i = Some a -> nth_error ks j = Some b ->
    str_cmp a b = Lt.

Inductive regular : node -> Prop :=
| reg_none : regular NNone
| reg_scalar : forall v, regular (NScalar v)
| reg_seq : forall m,
    map fst m = seq 0 (List.length m) -> (forall i x, In (i, x) m -> regular x) ->
    regular (NSeq m)
| reg_map : forall m,
    keys_increasing (map fst m) -> (forall k x, In (k, x) m -> regular x) ->
    regular (NMap m).

(* No mapping or sequence in the tree is empty. *)
Inductive solid : node -> Prop :=
| solid_none : solid NNone
| solid_scalar : forall v, solid (NScalar v)
| solid_seq : forall m, m <> [] -> (forall i x, In (i, x) m -> solid x) -> solid (NSeq m)
| solid_map : forall m, m <> [] -> (forall k x, In (k, x) m -> solid x) -> solid (NMap m).

(* ---------- trees that can be written and read back ---------- *)

(* A value: one line, no blank at either end, no comment sign, no quote, no
   backslash at the end. *)
Definition value_ok (v : str) : Prop :=
  Forall printable v /\ trimmed v /\ ~ has "#" v /\ ~ has c_dq v /\ ~ has c_sq v /\
  List.last v c_sp <> c_bs.

Definition plain_key (k : str) : Prop :=
  Forall printable k /\ trimmed k /\ ~ has "#" k /\ ~ has c_dq k /\ ~ has ":" k /\ ~ has c_bs k.

(* [colons]: the value stands on its key's line, where colons are harmless. *)
Inductive writable (cfg : sconfig) : bool -> node -> Prop :=
| wr_scalar : forall colons v,
    value_ok v -> (colons = false -> ~ has ":" v) ->
    sc_maxlen cfg = 0 \/ List.length v <= sc_maxlen cfg -> writable cfg colons (NScalar v)
| wr_seq : forall colons m,
    m <> [] -> (forall i x, In (i, x) m -> writable cfg false x) -> writable cfg colons (NSeq m)
| wr_map : forall colons m,
    m <> [] -> (forall k x, In (k, x) m -> plain_key k) ->
    (forall k x, In (k, x) m -> writable cfg (is_scalar x && negb (sc_map_scalar_nl cfg)) x) ->
    writable cfg colons (NMap m).
