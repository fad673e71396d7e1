(* Properties of the YAML input reader and its node tree. *)
From Coq Require Import List Ascii String Arith Bool Lia Permutation.
From Verif Require Import YamlModel YamlSpec YamlProofs YamlPost YamlDoc YamlTree YamlLaws YamlApi YamlWrite YamlMore YamlExamples.
Import ListNotations.
Local Open Scope nat_scope.

(* ---------- C89: a document is read as written ---------- *)

(* Every well-formed document, whatever its indentation, spacing, quoting,
   comments, empty lines and line ends, is read without error and its data are
   found in the tree. *)
Theorem C89_read : forall d ls,
  root_ok d -> no_dup_keys d -> comments_ok ls -> src_doc ls = doc_lines 0 d ->
  exists n, parse (src_text ls) = Ok n /\ holds n d.
Proof.
  intros d ls R N C S. exists (eval d NNone). split; [apply parse_source; assumption|]. eapply eval_holds; [exact (proj1 R)|exact N].
Qed.
Print Assumptions C89_read.

Example C89_read_met : root_ok deck /\ no_dup_keys deck /\ comments_ok deck_file /\ src_doc deck_file = doc_lines 0 deck.
Proof. repeat split; [apply deck_ok|apply deck_nodup|apply deck_comments]. Qed.

(* The data determine the tree: nothing else is in it. *)
Theorem C89_unique : forall d n n',
  no_dup_keys d -> regular n -> regular n' -> holds n d -> holds n' d -> n = n'.
Proof. intros d n n'. apply holds_unique. Qed.
Print Assumptions C89_unique.

Example C89_unique_met : no_dup_keys deck /\ regular deck_tree /\ holds deck_tree deck.
Proof.
  split; [apply deck_nodup|]. split; [eapply parse_regular; exact deck_runs|].
  destruct (C89_read deck deck_file deck_ok deck_nodup deck_comments deck_lines) as (n & P & H). rewrite deck_runs in P. inversion P; subst. exact H.
Qed.

(* Two files with the same data give the same tree, whatever their layout,
   comments and key order. *)
Theorem C89_layout : forall d d' ls ls',
  root_ok d -> root_ok d' -> no_dup_keys d -> no_dup_keys d' -> same_data d d' ->
  comments_ok ls -> comments_ok ls' -> src_doc ls = doc_lines 0 d -> src_doc ls' = doc_lines 0 d' ->
  parse (src_text ls) = parse (src_text ls').
Proof.
  intros d d' ls ls' R R' N N' S C C' L L'.
  destruct (C89_read d ls R N C L) as (n & P & H). destruct (C89_read d' ls' R' N' C' L') as (n' & P' & H').
  rewrite P, P'. f_equal. eapply C89_unique; [exact N'|eapply parse_regular; exact P|eapply parse_regular; exact P'|eapply holds_same; eassumption|exact H'].
Qed.
Print Assumptions C89_layout.

Example C89_layout_met : root_ok deck2 /\ no_dup_keys deck2 /\ same_data deck deck2 /\ comments_ok deck2_file /\
  src_doc deck2_file = doc_lines 0 deck2 /\ src_text deck_file <> src_text deck2_file.
Proof. repeat split; [apply deck2_ok|apply deck2_nodup|apply decks_same|apply deck2_comments|]. vm_compute. discriminate. Qed.

(* A key given more than once with a text at the end: the last one counts. *)
Theorem C89_last : forall a k p q v t b ls,
  root_ok (DMap (a ++ (k, p, DText q v t) :: b)) -> ~ In (k_text k) (keys_of b) ->
  comments_ok ls -> src_doc ls = doc_lines 0 (DMap (a ++ (k, p, DText q v t) :: b)) ->
  exists n, parse (src_text ls) = Ok n /\ is_map n = true /\
    is_scalar (get_key n (k_text k)) = true /\ as_string (get_key n (k_text k)) = v.
Proof.
  intros a k p q v t b ls R N C S. eexists. split; [apply parse_source; eassumption|].
  destruct (last_text a k p q v t b N) as [A B]. cbn zeta in A, B. rewrite B. auto.
Qed.
Print Assumptions C89_last.

Definition twice : doc := DMap ([(K "a", SameLine 1, T "1"); (K "b", SameLine 1, T "2")] ++ (K "a", SameLine 1, T "3") :: [(K "c", SameLine 1, T "4")]).
Example C89_last_met : root_ok twice /\ ~ In (lit "a") (keys_of [(K "c", SameLine 1, T "4")]) /\
  parse (text ["a: 1"; "b: 2"; "a: 3"; "c: 4"]%string) =
    Ok (NMap [(lit "a", NScalar (lit "3")); (lit "b", NScalar (lit "2")); (lit "c", NScalar (lit "4"))]).
Proof.
  split; [split; [unfold twice; cbn [app]; ok_doc|exact I]|]. split; [cbn; intuition discriminate|]. vm_compute. reflexivity.
Qed.

(* ---------- C90: reading always ends, and what it ends in ---------- *)

(* For every text the reader returns a tree or throws one of its exceptions;
   [NoFuel], the model's own recursion bound, is never the outcome. *)
Theorem C90_total : forall text,
  (exists n, parse text = Ok n) \/ (exists e, parse text = Err e /\ e <> NoFuel).
Proof.
  intros text. destruct (parse text) as [n|e] eqn:E; [left; eauto|right]. exists e. split; [reflexivity|]. intros ->. exact (parse_no_fuel text E).
Qed.
Print Assumptions C90_total.

(* Every tree read has its sequences numbered 0 .. Size()-1 and its keys
   strictly increasing, at every depth: no key twice, no gap. *)
Theorem C90_regular : forall text n, parse text = Ok n -> regular n.
Proof. exact parse_regular. Qed.
Print Assumptions C90_regular.

(* So a loop over i < Size() meets every entry, once, in order. *)
Theorem C90_walk : forall text n m, parse text = Ok n -> n = NSeq m ->
  List.length m = node_size n /\
  (forall i j x, nth_error m i = Some (j, x) -> j = i /\ get_index n i = x) /\
  (forall i, node_size n <= i -> get_index n i = NNone).
Proof.
  intros text n m P ->. pose proof (parse_regular _ _ P) as R. destruct (regular_seq _ R) as [N _]. cbn [seq_of] in N. split; [reflexivity|]. split.
  - intros i j x X. unfold get_index. cbn [seq_of]. rewrite (seq_find_num _ _ _ N X). split; [|reflexivity].
    apply (map_nth_error fst) in X. rewrite N in X. cbn [fst] in X.
    assert (i < List.length m) by (rewrite <- (seq_length (List.length m) 0); apply nth_error_Some; congruence).
    pose proof (nth_error_nth _ _ 0 X) as Z. rewrite seq_nth in Z by assumption. cbn in Z. congruence.
  - intros i L. unfold get_index. cbn [seq_of]. rewrite seq_find_none; [reflexivity|exact N|exact L].
Qed.
Print Assumptions C90_walk.

(* After an exception the root is empty, whatever it held. *)
Theorem C90_error_clears : forall before text e, parse text = Err e -> parse_root_after before text = NNone.
Proof. intros before text e H. unfold parse_root_after. rewrite H. reflexivity. Qed.
Print Assumptions C90_error_clears.

Example C90_met :
  parse (text ["- a"; "- b: 1"; "  c: 2"]%string) =
    Ok (NSeq [(0, NScalar (lit "a")); (1, NMap [(lit "b", NScalar (lit "1")); (lit "c", NScalar (lit "2"))])]) /\
  parse (text ["a:"; "- 1"]%string) = Err DiffEntryNotAllowed /\
  parse (text ["a: 'b"]%string) = Err InvalidQuote.
Proof. repeat split; vm_compute; reflexivity. Qed.

(* ---------- C91: operations on a tree ---------- *)

(* Writing under a key is seen under that key and no other, and the tree stays
   regular. *)
Theorem C91_get_set : forall n k x k',
  regular n -> regular x ->
  regular (set_key n k x) /\ get_key (set_key n k x) k = x /\
  (k <> k' -> get_key (set_key n k x) k' = get_key n k').
Proof.
  intros n k x k' R X. split; [apply regular_set; assumption|]. split; [apply get_set_same; exact R|]. intros D. apply get_set_other; assumption.
Qed.
Print Assumptions C91_get_set.

(* Appending puts the node at index Size() and leaves the others. *)
Theorem C91_push : forall m c i,
  regular (NSeq m) -> regular c ->
  regular (push_back (NSeq m) c) /\
  node_size (push_back (NSeq m) c) = S (node_size (NSeq m)) /\
  get_index (push_back (NSeq m) c) i = if Nat.eqb (node_size (NSeq m)) i then c else get_index (NSeq m) i.
Proof.
  intros m c i R C. split; [apply regular_push; assumption|]. split; [cbn; rewrite app_length; cbn; lia|]. apply (get_push (NSeq m) c i R).
Qed.
Print Assumptions C91_push.

(* Erasing a key removes it and nothing else. *)
Theorem C91_erase : forall m k k',
  regular (NMap m) ->
  regular (erase_key (NMap m) k) /\
  get_key (erase_key (NMap m) k) k' = if str_eqb k k' then NNone else get_key (NMap m) k'.
Proof. intros m k k' R. split; [apply regular_erase_key; exact R|]. apply get_erase. reflexivity. Qed.
Print Assumptions C91_erase.

(* Looking a key up changes what no key holds. *)
Theorem C91_lookup : forall n k k', regular n -> regular (touch_key n k) /\ get_key (touch_key n k) k' = get_key n k'.
Proof. intros n k k' R. split; [apply regular_touch; exact R|apply get_touch; exact R]. Qed.
Print Assumptions C91_lookup.

(* It is not free of effects: looking up a missing key in a mapping adds it. *)
Theorem C91_lookup_adds : forall m k, regular (NMap m) -> ~ In k (map fst m) ->
  node_size (touch_key (NMap m) k) = S (node_size (NMap m)).
Proof. intros m k R N. apply (size_set (NMap m) k _ R eq_refl). exact N. Qed.
Print Assumptions C91_lookup_adds.

(* And looking up a key or an index on a text deletes the text. *)
Theorem C91_lookup_refuted : ~ (forall n k, regular n -> as_string (touch_key n k) = as_string n).
Proof. intros H. specialize (H (NScalar (lit "2.5")) (lit "x") ltac:(constructor)). discriminate H. Qed.
Print Assumptions C91_lookup_refuted.

(* Erasing an index leaves a gap: a loop over i < Size() then misses entries. *)
Theorem C91_gap_refuted : ~ (forall n i j x, regular n -> In (j, x) (seq_of (erase_index n i)) -> j < node_size (erase_index n i)).
Proof.
  intros H. specialize (H (NSeq [(0, NScalar (lit "a")); (1, NScalar (lit "b"))]) 0 1 (NScalar (lit "b"))).
  assert (R : regular (NSeq [(0, NScalar (lit "a")); (1, NScalar (lit "b"))])).
  { constructor; [reflexivity|]. intros i x [E|[E|[]]]; inversion E; constructor. }
  specialize (H R (or_introl eq_refl)). cbn in H. lia.
Qed.
Print Assumptions C91_gap_refuted.

Example C91_met : regular deck_tree /\ has_key deck_tree (lit "regions") /\ ~ has_key deck_tree (lit "materials").
Proof. split; [eapply parse_regular; exact deck_runs|]. split; [right; left; reflexivity|cbn; intuition discriminate]. Qed.

(* ---------- C92: writing and reading back ---------- *)

(* With an indentation of at least two, any tree of one-line values without
   quotes or comment signs, no longer than the fold length, survives Serialize
   followed by Parse, under each of the four newline settings. *)
Theorem C92_round_trip : forall cfg n,
  2 <= sc_indent cfg -> writable cfg false n -> regular n -> n <> NScalar (lit "...") ->
  exists text, serialize cfg n = Ok text /\ parse text = Ok n.
Proof. intros cfg n I W R D. exact (round_trip cfg I n W R D). Qed.
Print Assumptions C92_round_trip.

Example C92_met : writable cfg0 false deck_tree /\ regular deck_tree /\
  serialize cfg0 deck_tree = Ok (text ["dynamic_options: "; "  dt start: ""1e-5"""; "  time_final: 2.5"; "regions: ";
    "  - density: 1.0"; "    region: "; "      type: ""sphere of r: 2"""; "  - void"; ""]%string).
Proof. split; [apply deck_writable|]. split; [eapply parse_regular; exact deck_runs|]. vm_compute. reflexivity. Qed.

Theorem C92_small_indent : forall cfg n, sc_indent cfg < 2 -> serialize cfg n = Err Indentation.
Proof. intros cfg n H. unfold serialize. replace (sc_indent cfg <? 2) with true by (symmetry; apply Nat.ltb_lt; exact H). reflexivity. Qed.
Print Assumptions C92_small_indent.

(* Not every tree survives: a double quote in a value, an empty value, an empty
   sequence and a value that ends in a line feed are lost or cannot be read. *)
Theorem C92_all_refuted : exists n1 n2 n3 n4,
  regular n1 /\ regular n2 /\ regular n3 /\ regular n4 /\
  (exists t, serialize cfg0 n1 = Ok t /\ parse t = Err InvalidQuote) /\
  (exists t, serialize cfg0 n2 = Ok t /\ parse t <> Ok n2 /\ exists m, parse t = Ok m) /\
  (exists t, serialize cfg0 n3 = Ok t /\ parse t <> Ok n3 /\ exists m, parse t = Ok m) /\
  (exists t, serialize cfg0 n4 = Ok t /\ parse t <> Ok n4 /\ exists m, parse t = Ok m).
Proof.
  assert (R : forall x, regular x -> regular (NMap [(lit "a", x)])).
  { intros x X. constructor; [|intros k y [E|[]]; inversion E; subst; exact X]. intros i j a b L A B. destruct i, j; cbn in *; try lia; destruct j; discriminate. }
  exists (NMap [(lit "a", NScalar (lit "say ""hi"" now"))]), (NMap [(lit "a", NScalar [])]),
    (NMap [(lit "a", NSeq [])]), (NMap [(lit "a", NScalar (lit "b" ++ [c_nl]))]).
  repeat (split; [apply R; constructor; reflexivity || (intros i x [])|]).
  split; [eexists; split; vm_compute; reflexivity|]. split; [|split].
  - eexists. split; [vm_compute; reflexivity|]. split; [vm_compute; discriminate|]. eexists. vm_compute. reflexivity.
  - eexists. split; [vm_compute; reflexivity|]. split; [vm_compute; discriminate|]. eexists. vm_compute. reflexivity.
  - eexists. split; [vm_compute; reflexivity|]. split; [vm_compute; discriminate|]. eexists. vm_compute. reflexivity.
Qed.
Print Assumptions C92_all_refuted.

(* ---------- C93: copies ---------- *)

(* A copy of a regular tree without empty mappings or sequences is the same
   tree; a copy of any tree is regular. *)
Theorem C93_copy : forall n, regular n -> solid n -> copy_node n = n.
Proof. exact copy_solid. Qed.
Print Assumptions C93_copy.

Theorem C93_regular : forall n, regular (copy_node n).
Proof. exact copy_regular. Qed.
Print Assumptions C93_regular.

Example C93_met : regular deck_tree /\ solid deck_tree.
Proof.
  split; [eapply parse_regular; exact deck_runs|]. unfold deck_tree.
  repeat (first [apply solid_scalar|apply solid_map; [discriminate|intros ? ? ?; in_cases]|apply solid_seq; [discriminate|intros ? ? ?; in_cases]]).
Qed.

Theorem C93_empty_refuted : ~ (forall n, regular n -> node_size (copy_node n) = node_size n /\ is_seq (copy_node n) = is_seq n).
Proof.
  intros H. destruct (H (NSeq []) ltac:(constructor; [reflexivity|intros i x []])) as [_ E]. discriminate E.
Qed.
Print Assumptions C93_empty_refuted.

(* ---------- C94: inserting at the front or in the middle ---------- *)

(* PushFront on any sequence with an entry never returns: no number of turns of
   its loop ends it. *)
Theorem C94_push_front_refuted : forall m c, regular (NSeq m) -> m <> [] -> forall turns, push_front turns (NSeq m) c = None.
Proof.
  intros m c R N turns. destruct (regular_seq _ R) as [NU _]. cbn [seq_of] in NU. unfold push_front. cbn [seq_of].
  destruct m as [|[k x] m]; [contradiction|]. assert (k = 0) by (unfold numbered in NU; cbn in NU; inversion NU; reflexivity). subst k. cbn [first_key].
  rewrite push_front_runs; [reflexivity|exact NU|cbn; lia].
Qed.
Print Assumptions C94_push_front_refuted.

(* Insert on a sequence with an entry: strictly inside it never returns; at the
   end it changes nothing; at the front it overwrites the second entry with the
   first.  The new node is never in the sequence. *)
Theorem C94_insert_refuted : forall m i c, regular (NSeq m) -> m <> [] ->
  (0 < i < List.length m -> forall turns, insert_at turns (NSeq m) i c = None) /\
  (List.length m <= i -> forall turns, insert_at turns (NSeq m) i c = Some (NSeq m)) /\
  (i = 0 -> forall turns, exists n, insert_at (S turns) (NSeq m) i c = Some n /\
     forall j, get_index n j = if Nat.eqb 1 j then get_index (NSeq m) 0 else get_index (NSeq m) j).
Proof.
  intros m i c R N. destruct (regular_seq _ R) as [NU _]. cbn [seq_of] in NU. unfold insert_at. cbn [seq_of].
  destruct m as [|[k x] m]; [contradiction|]. assert (k = 0) by (unfold numbered in NU; cbn in NU; inversion NU; reflexivity). subst k. cbn [first_key].
  set (M := (0, x) :: m) in *. assert (LM : 0 < List.length M) by (cbn; lia).
  split; [|split].
  - intros L turns. replace (List.length M <=? i) with false by (symmetry; apply Nat.leb_gt; lia). rewrite insert_runs by lia. reflexivity.
  - intros L turns. replace (List.length M <=? i) with true by (symmetry; apply Nat.leb_le; exact L). unfold seq_insert_new.
    rewrite (next_num _ NU). destruct (numbered_find M (List.length M - 1) NU ltac:(lia)) as [y ->]. reflexivity.
  - intros -> turns. replace (List.length M <=? 0) with false by (symmetry; apply Nat.leb_gt; lia). cbn [insert_loop Nat.eqb].
    assert (F : seq_find M 0 = Some x) by reflexivity. rewrite F. cbn [Nat.add]. eexists. split; [reflexivity|]. intros j.
    assert (G : forall j, seq_find (seq_set M 1 x) j = if Nat.eqb 1 j then Some x else seq_find M j) by (intros j'; apply seq_set_find; [exact NU|lia]).
    unfold seq_insert_new. rewrite (G 0). cbn [Nat.eqb]. rewrite F. unfold get_index. cbn [seq_of]. rewrite G, F. destruct j as [|[|j]]; reflexivity.
Qed.
Print Assumptions C94_insert_refuted.

Example C94_met : regular (NSeq [(0, NScalar (lit "a")); (1, NScalar (lit "b")); (2, NScalar (lit "c"))]) /\
  insert_at 1 (NSeq [(0, NScalar (lit "a")); (1, NScalar (lit "b")); (2, NScalar (lit "c"))]) 0 (NScalar (lit "new")) =
    Some (NSeq [(0, NScalar (lit "a")); (1, NScalar (lit "a")); (2, NScalar (lit "c"))]).
Proof. split; [constructor; [reflexivity|intros i x [E|[E|[E|[]]]]; inversion E; constructor]|reflexivity]. Qed.

(* ---------- C95: input that is taken for something else ---------- *)

(* A field indented below a one-line value is taken into that value: the file
   is accepted and the field is missing. *)
Theorem C95_misplaced_field_refuted :
  parse (text ["time_final: 1.0"; "  dt_start: 1e-5"; "cycles: 10"]%string) =
    Ok (NMap [(lit "cycles", NScalar (lit "10")); (lit "time_final", NScalar (lit "1.0 dt_start: 1e-5"))]).
Proof. vm_compute. reflexivity. Qed.
Print Assumptions C95_misplaced_field_refuted.

(* A line without a colon at the same level is glued to the value before it. *)
Theorem C95_stray_line_refuted :
  parse (text ["name: steel"; "copper"; "id: 1"]%string) =
    Ok (NMap [(lit "id", NScalar (lit "1")); (lit "name", NScalar (lit "steel copper"))]).
Proof. vm_compute. reflexivity. Qed.
Print Assumptions C95_stray_line_refuted.

(* Everything before a document start is dropped without a word. *)
Theorem C95_dropped_refuted :
  parse (text ["time_final: 1.0"; "---"; "cycles: 10"]%string) = Ok (NMap [(lit "cycles", NScalar (lit "10"))]).
Proof. vm_compute. reflexivity. Qed.
Print Assumptions C95_dropped_refuted.

(* A key given twice with sequences: the second is appended to the first. *)
Theorem C95_merged_refuted :
  parse (text ["a:"; "  - 1"; "a:"; "  - 2"]%string) =
    Ok (NMap [(lit "a", NSeq [(0, NScalar (lit "1")); (1, NScalar (lit "2"))])]).
Proof. vm_compute. reflexivity. Qed.
Print Assumptions C95_merged_refuted.

(* A "#" inside a word cuts the value; a nested list on one line is a text; an
   absent value is a line feed, not an empty text. *)
Theorem C95_values_refuted :
  parse (text ["file: run#1.vtk"]%string) = Ok (NMap [(lit "file", NScalar (lit "run"))]) /\
  parse (text ["- - a"]%string) = Ok (NSeq [(0, NScalar (lit "- a"))]) /\
  parse (text ["a:"]%string) = Ok (NMap [(lit "a", NScalar [c_nl])]).
Proof. repeat split; vm_compute; reflexivity. Qed.
Print Assumptions C95_values_refuted.

(* Ordinary YAML that is refused: an absent value of a short nested key, an
   empty quoted text, a list at its key's indentation, a tilde, two "#" in
   quotes, an apostrophe. *)
Theorem C95_refused_refuted :
  parse (text ["x:"; "    y:"; "    z: 1"]%string) = Err IncorrectOffset /\
  parse (text ["a: """""]%string) = Err InvalidQuote /\
  parse (text ["a:"; "- 1"; "- 2"]%string) = Err DiffEntryNotAllowed /\
  parse (text ["a: ~"]%string) = Err InvalidCharacter /\
  parse (text ["a: ""x#y#z"""]%string) = Err InvalidQuote /\
  parse (text ["a: it's"]%string) = Err InvalidQuote.
Proof. repeat split; vm_compute; reflexivity. Qed.
Print Assumptions C95_refused_refuted.
