(* Building the tree from the typed lines. *)
From Coq Require Import List Ascii String Arith Bool Lia Sorting.Sorted.
From Verif Require Import YamlModel YamlSpec YamlProofs YamlPost YamlDoc.
Import ListNotations.
Local Open Scope nat_scope.

(* ---------- reading a text ---------- *)

Lemma validate_none prev s : ~ In c_dq s -> ~ In c_sq s -> validate_loop None prev s = true.
Proof.
  revert prev. induction s as [|c s IH]; intros prev D S; [reflexivity|]. cbn [validate_loop].
  replace (is_quote c) with false.
  2:{ symmetry. unfold is_quote. apply orb_false_iff. split; apply Ascii.eqb_neq; intros ->; [apply D|apply S]; left; reflexivity. }
  cbn [andb]. apply IH; intros I; [apply D|apply S]; right; exact I.
Qed.
Lemma validate_some t prev v : is_quote t = true -> ~ In t v -> (plast (Some prev) v) <> Some c_bs ->
  validate_loop (Some t) prev (v ++ [t]) = true.
Proof.
  intros Q. revert prev. induction v as [|c v IH]; intros prev D L; cbn [app validate_loop].
  - rewrite Q. replace (Ascii.eqb prev c_bs) with false; [cbn; rewrite Ascii.eqb_refl; reflexivity|].
    symmetry. apply Ascii.eqb_neq. intros ->. apply L. reflexivity.
  - assert (D' : ~ In t v) by (intros I; apply D; right; exact I).
    assert (L' : plast (Some c) v <> Some c_bs) by (rewrite (plast_cons (Some prev)); exact L).
    destruct (is_quote c && negb (Ascii.eqb prev c_bs)); [|apply IH; assumption].
    replace (Ascii.eqb c t) with false; [apply IH; assumption|]. symmetry. apply Ascii.eqb_neq. intros ->. apply D. left. reflexivity.
Qed.

Lemma text_valid q v : text_ok q v -> validate_quote (quoted q v) = true /\ strip_quotes (quoted q v) = v.
Proof.
  assert (W : forall t, is_quote t = true -> v <> [] -> ~ In t v -> List.last v c_sp <> c_bs ->
    validate_quote (t :: v ++ [t]) = true /\ strip_quotes (t :: v ++ [t]) = v).
  { intros t Q N D L. split.
    - unfold validate_quote. rewrite Q. destruct v as [|c v]; [contradiction|]. cbn [app].
      apply validate_some; [exact Q|intros I; apply D; right; exact I|]. rewrite (plast_cons None).
      unfold plast. intros E. apply L. congruence.
    - unfold strip_quotes. rewrite Q. replace (List.length (t :: v ++ [t]) - 2) with (List.length v) by (cbn; rewrite app_length; cbn; lia).
      apply firstn_len. }
  destruct q; cbn [text_ok quoted].
  - intros (_ & (N & _) & _ & _ & D & S & _). destruct v as [|c v]; [contradiction|].
    assert (Q : is_quote c = false).
    { unfold is_quote. apply orb_false_iff. split; apply Ascii.eqb_neq; intros ->; [apply D|apply S]; left; reflexivity. }
    unfold validate_quote, strip_quotes. rewrite Q. split; [|reflexivity].
    apply validate_none; intros I; [apply D|apply S]; right; exact I.
  - intros (_ & N & _ & D & L). apply W; try assumption. reflexivity.
  - intros ((_ & N & _ & _ & L) & D). apply W; try assumption. reflexivity.
Qed.

Lemma parse_text f prev off q v t rest nd : text_ok q v -> (forall p, prev = Some p -> p < off) ->
  is_scalar_next rest = false ->
  parse_node (S f) prev (typed off (DText q v t) ++ rest) nd = Ok (NScalar v, Some off, rest).
Proof.
  intros T P R. cbn [typed app parse_node l_type]. unfold parse_scalar. cbn [l_data].
  rewrite text_block by exact T. cbn [rbind plain_scalar l_off].
  replace (negb (Nat.eqb (match prev with Some o => o | None => 0 end) 0) && (off <=? match prev with Some o => o | None => 0 end)) with false.
  2:{ symmetry. destruct prev as [p|]; [|reflexivity]. specialize (P p eq_refl). apply andb_false_iff. right. apply Nat.leb_gt. exact P. }
  destruct (text_last q v T) as (a & c & E & C).
  assert (FL : match find_last not_ws (quoted q v ++ spaces t) with Some e => firstn (S e) (quoted q v ++ spaces t) | None => [c_nl] end = quoted q v).
  { rewrite find_last_app by apply spaces_ws. rewrite E at 1. rewrite find_last_end by (apply not_ws_blank; exact C).
    replace (S (List.length a)) with (List.length (quoted q v)) by (rewrite E, app_length; cbn; lia). apply firstn_len. }
  cbn [app l_data]. rewrite FL. rewrite R. cbn [rbind]. destruct (text_valid q v T) as [V1 V2]. rewrite V1, V2. reflexivity.
Qed.

(* ---------- what the tree becomes ---------- *)

Fixpoint eval (d : doc) (nd : node) : node :=
  match d with
  | DText _ v _ => NScalar v
  | DSeq es => fold_left (fun n (e : place * doc) => let (_, c) := e in push_back n (eval c NNone)) es nd
  | DMap es => fold_left (fun n (e : dkey * place * doc) => let '(k, _, c) := e in
                 set_key n (k_text k) (eval c (get_key n (k_text k)))) es nd
  end.

Definition rest_below (off : nat) (rest : list rline) : Prop :=
  match rest with [] => True | l :: _ => l_off l < off /\ l_type l <> LScalar end.

Lemma rest_not_scalar off rest : rest_below off rest -> is_scalar_next rest = false.
Proof. destruct rest as [|l r]; [reflexivity|]. cbn. intros [_ H]. destruct (l_type l); congruence. Qed.

Definition parse_ok (d : doc) : Prop :=
  forall off prev rest nd f, doc_ok true d \/ doc_ok false d ->
    (forall p, prev = Some p -> p < off) -> rest_below off rest ->
    List.length (typed off d ++ rest) < f ->
    parse_node f prev (typed off d ++ rest) nd = Ok (eval d nd, Some (last_off off (typed off d)), rest).

Lemma parse_seq es : es <> [] -> (forall p c, In (p, c) es -> doc_ok false c /\ parse_ok c) ->
  forall off prev rest nd f, rest_below off rest -> List.length (typed off (DSeq es) ++ rest) < f ->
  parse_node f prev (typed off (DSeq es) ++ rest) nd = Ok (eval (DSeq es) nd, Some (last_off off (typed off (DSeq es))), rest).
Proof.
  induction es as [|[p c] es IH]; intros NE H off prev rest nd f B L; [contradiction|].
  destruct (H p c (or_introl eq_refl)) as [C Pc].
  set (coff := match p with SameLine g => off + 2 + g | NextLine t i => off + S i end).
  assert (CO : off < coff) by (unfold coff; destruct p; lia).
  assert (EN : exists h, l_off h = off /\ l_type h = LSeq /\ seq_entry off (p, c) = h :: typed coff c).
  { unfold coff. destruct p; eexists; (split; [|split; [|reflexivity]]); reflexivity. }
  destruct EN as (h & Ho & Ht & EN). clearbody coff.
  set (after := flat_map (seq_entry off) es ++ rest).
  assert (TE : typed off (DSeq ((p, c) :: es)) ++ rest = h :: typed coff c ++ after).
  { rewrite typed_seq. cbn [flat_map]. rewrite EN. unfold after. rewrite <- app_assoc. reflexivity. }
  assert (BA : rest_below coff after).
  { unfold after. destruct es as [|[p2 c2] es]; [destruct rest; [exact I|cbn in *; intuition lia]|].
    destruct p2; cbn; (split; [lia|discriminate]). }
  rewrite TE in *. cbn [List.length] in L. destruct f as [|f]; [lia|]. cbn [parse_node]. rewrite Ht, Ho.
  destruct (typed coff c ++ after) as [|x xs] eqn:TX.
  { apply app_eq_nil in TX. destruct (typed_ne _ _ C coff (proj1 TX)). }
  rewrite <- TX in *. clear x xs TX.
  rewrite (Pc coff (Some off) after NNone f (or_intror C)); [|intros q Q; inversion Q; subst; exact CO|exact BA|lia].
  cbn [rbind eval fold_left]. rewrite typed_seq. cbn [flat_map]. rewrite EN.
  unfold after. destruct es as [|e2 es].
  - cbn [flat_map app fold_left]. rewrite app_nil_r. rewrite last_off_cons.
    rewrite (last_off_ne (l_off h) coff) by (eapply typed_ne; exact C).
    destruct rest as [|x rest]; [reflexivity|]. cbn in B. destruct B as [B _].
    replace (l_off x <? off) with true by (symmetry; apply Nat.ltb_lt; exact B). reflexivity.
  - destruct (flat_map (seq_entry off) (e2 :: es) ++ rest) as [|x xs] eqn:X.
    { destruct e2 as [[g|t i] c2]; discriminate X. }
    assert (XO : l_off x = off /\ l_type x = LSeq).
    { destruct e2 as [[g|t i] c2]; cbn in X; inversion X; subst; split; reflexivity. }
    destruct XO as [XO XT]. rewrite XO, Nat.ltb_irrefl, XT. rewrite <- X. rewrite <- typed_seq.
    rewrite IH; [|discriminate| |exact B|].
    + cbn [eval fold_left]. f_equal. f_equal. f_equal. f_equal. symmetry. apply (last_off_app off (h :: typed coff c)).
      rewrite typed_seq. destruct e2 as [[g|t i] c2]; discriminate.
    + intros p' c' J. apply (H p' c'). right. exact J.
    + unfold after in L. rewrite typed_seq, X. rewrite app_length in L. lia.
Qed.

Lemma parse_map es : es <> [] -> (forall k p c, In (k, p, c) es -> (doc_ok true c \/ doc_ok false c) /\ parse_ok c) ->
  forall off prev rest nd f, rest_below off rest -> List.length (typed off (DMap es) ++ rest) < f ->
  parse_node f prev (typed off (DMap es) ++ rest) nd = Ok (eval (DMap es) nd, Some (last_off off (typed off (DMap es))), rest).
Proof.
  induction es as [|[[k p] c] es IH]; intros NE H off prev rest nd f B L; [contradiction|].
  destruct (H k p c (or_introl eq_refl)) as [C Pc].
  set (coff := match p with SameLine g => List.length (key_str k) + 1 + g + off | NextLine t i => off + S i end).
  assert (CO : off < coff) by (unfold coff; destruct p; lia).
  assert (TN : typed coff c <> []) by (destruct C as [C|C]; eapply typed_ne; exact C).
  assert (EN : exists h, l_off h = off /\ l_type h = LMap /\ l_data h = k_text k /\ map_entry off (k, p, c) = h :: typed coff c).
  { unfold coff. destruct p; eexists; (split; [|split; [|split; [|reflexivity]]]); reflexivity. }
  destruct EN as (h & Ho & Ht & Hd & EN). clearbody coff.
  set (after := flat_map (map_entry off) es ++ rest).
  assert (TE : typed off (DMap ((k, p, c) :: es)) ++ rest = h :: typed coff c ++ after).
  { rewrite typed_map. cbn [flat_map]. rewrite EN. unfold after. rewrite <- app_assoc. reflexivity. }
  assert (BA : rest_below coff after).
  { unfold after. destruct es as [|[[k2 p2] c2] es]; [destruct rest; [exact I|cbn in *; intuition lia]|].
    destruct p2; cbn; (split; [lia|discriminate]). }
  rewrite TE in *. cbn [List.length] in L. destruct f as [|f]; [lia|]. cbn [parse_node]. rewrite Ht, Ho, Hd.
  destruct (typed coff c ++ after) as [|x xs] eqn:TX.
  { apply app_eq_nil in TX. destruct (TN (proj1 TX)). }
  rewrite <- TX in *. clear x xs TX.
  rewrite (Pc coff (Some off) after _ f C); [|intros q Q; inversion Q; subst; exact CO|exact BA|lia].
  cbn [rbind eval fold_left]. rewrite typed_map. cbn [flat_map]. rewrite EN.
  unfold after. destruct es as [|e2 es].
  - cbn [flat_map app fold_left]. rewrite app_nil_r. rewrite last_off_cons.
    rewrite (last_off_ne (l_off h) coff) by exact TN.
    destruct rest as [|x rest]; [reflexivity|]. cbn in B. destruct B as [B _].
    replace (l_off x <? off) with true by (symmetry; apply Nat.ltb_lt; exact B). reflexivity.
  - destruct (flat_map (map_entry off) (e2 :: es) ++ rest) as [|x xs] eqn:X.
    { destruct e2 as [[k2 [g|t i]] c2]; discriminate X. }
    assert (XO : l_off x = off /\ l_type x = LMap).
    { destruct e2 as [[k2 [g|t i]] c2]; cbn in X; inversion X; subst; split; reflexivity. }
    destruct XO as [XO XT]. rewrite XO, Nat.ltb_irrefl, XT. rewrite <- X. rewrite <- typed_map.
    rewrite IH; [|discriminate| |exact B|].
    + cbn [eval fold_left]. f_equal. f_equal. f_equal. f_equal. symmetry. apply (last_off_app off (h :: typed coff c)).
      rewrite typed_map. destruct e2 as [[k2 [g|t i]] c2]; discriminate.
    + intros k' p' c' J. apply (H k' p' c'). right. exact J.
    + unfold after in L. rewrite typed_map, X. rewrite app_length in L. lia.
Qed.

Lemma parse_doc d : parse_ok d.
Proof.
  induction d as [q v t|es IH|es IH] using doc_ind'; intros off prev rest nd f D P B L.
  - destruct f as [|f]; [lia|]. rewrite (parse_text f prev off q v t rest nd); [reflexivity| |exact P|eapply rest_not_scalar; exact B].
    destruct D as [D|D]; exact (proj1 (ok_text_inv _ _ _ _ D)).
  - assert (E : exists b, doc_ok b (DSeq es)) by (destruct D as [D|D]; eauto). destruct E as [b E].
    destruct (ok_seq_inv _ _ E) as (NE & HC & _). apply parse_seq; [exact NE| |exact B|exact L]. intros p c I. split; [eauto|eapply IH; exact I].
  - assert (E : exists b, doc_ok b (DMap es)) by (destruct D as [D|D]; eauto). destruct E as [b E].
    destruct (ok_map_inv _ _ E) as (NE & _ & HC & _). apply parse_map; [exact NE| |exact B|exact L].
    intros k p c I. split; [|eapply IH; exact I]. specialize (HC _ _ _ I). destruct (same_line p); auto.
Qed.

(* the last line is a text *)
Lemma typed_last b d : doc_ok b d -> forall off, exists a x, typed off d = a ++ [x] /\ l_type x = LScalar.
Proof.
  revert b. induction d as [q v t|es IH|es IH] using doc_ind'; intros b H off.
  - exists [], (mkL (quoted q v ++ spaces t) off LScalar). split; reflexivity.
  - destruct (ok_seq_inv _ _ H) as (NE & HC & _). destruct (last_split es (SameLine 0, DSeq []) NE) as [es0 E].
    destruct (List.last es (SameLine 0, DSeq [])) as [p c]. assert (I : In (p, c) es) by (rewrite E; apply in_or_app; right; left; reflexivity).
    rewrite typed_seq, E, flat_map_app. cbn [flat_map]. rewrite app_nil_r.
    destruct p as [g|t i]; [destruct (IH _ _ I false (HC _ _ I) (off + 2 + g)) as (a & x & A & X)|destruct (IH _ _ I false (HC _ _ I) (off + S i)) as (a & x & A & X)];
    cbn [seq_entry]; rewrite A; (eexists (_ ++ _ :: a), x; split; [rewrite <- app_assoc; reflexivity|exact X]).
  - destruct (ok_map_inv _ _ H) as (NE & _ & HC & _). destruct (last_split es (mkKey false [] 0, SameLine 0, DSeq []) NE) as [es0 E].
    destruct (List.last es _) as [[k p] c]. assert (I : In (k, p, c) es) by (rewrite E; apply in_or_app; right; left; reflexivity).
    rewrite typed_map, E, flat_map_app. cbn [flat_map]. rewrite app_nil_r.
    destruct p as [g|t i]; [destruct (IH _ _ _ I _ (HC _ _ _ I) (List.length (key_str k) + 1 + g + off)) as (a & x & A & X)|destruct (IH _ _ _ I _ (HC _ _ _ I) (off + S i)) as (a & x & A & X)];
    cbn [map_entry]; rewrite A; (eexists (_ ++ _ :: a), x; split; [rewrite <- app_assoc; reflexivity|exact X]).
Qed.

Lemma parse_source d ls : root_ok d -> comments_ok ls -> src_doc ls = doc_lines 0 d ->
  parse (src_text ls) = Ok (eval d NNone).
Proof.
  intros [D M] C S.
  assert (LO : forall n s, In (n, s) (src_doc ls) -> line_ok n s).
  { intros n s I. rewrite S in I. apply (lines_ok d false 0 D) in I; [exact I|]. intros _. destruct d as [[] | |]; exact M || exact Logic.I. }
  assert (NE : map src_str ls <> []).
  { destruct (doc_head _ _ D 0) as (s & r & E & _). rewrite E in S. destruct ls; [discriminate|]. discriminate. }
  unfold parse, src_text. rewrite lines_of_join; [|exact NE|intros l L; exact (src_no_nl ls C LO l L)].
  destruct (read_src ls false false [] LO) as (out & O1 & O2 & O3). rewrite O1. cbn [app rbind].
  unfold post_process. rewrite S in O2. rewrite (pp_doc d out D (O3 eq_refl) O2). cbn [rbind].
  destruct (typed_last _ _ D 0) as (a & x & A & X). rewrite A, rev_app_distr. cbn [rev app]. rewrite X. cbn [rbind].
  unfold parse_root. rewrite <- A. destruct (typed 0 d) as [|y ys] eqn:E; [destruct (typed_ne _ _ D 0 E)|]. rewrite <- E.
  pose proof (parse_doc d 0 None [] NNone (Datatypes.S (List.length (typed 0 d))) (or_intror D) ltac:(discriminate) I) as P.
  rewrite !app_nil_r in P. rewrite P by lia. reflexivity.
Qed.
