(* Writing a tree and reading it back. *)
From Coq Require Import List Ascii String Arith Bool Lia Sorting.Sorted.
From Verif Require Import YamlModel YamlSpec YamlProofs YamlPost YamlDoc YamlTree YamlLaws YamlApi.
Import ListNotations.
Local Open Scope nat_scope.

Section Write.
Variable cfg : sconfig.
Hypothesis indent2 : 2 <= sc_indent cfg.

Fixpoint to_doc (n : node) : doc :=
  match n with
  | NNone => DText Bare [] 0
  | NScalar v => DText (if should_be_cited v then DQuoted else Bare) v 0
  | NSeq m => DSeq (map (fun e : nat * node => let (_, x) := e in
      (if is_seq x || (is_map x && sc_seq_map_nl cfg) then NextLine 1 1 else SameLine 0, to_doc x)) m)
  | NMap m => DMap (map (fun e : str * node => let (k, x) := e in
      (mkKey (should_be_cited k) k 0,
       if negb (is_scalar x) || sc_map_scalar_nl cfg then NextLine 1 (sc_indent cfg - 1) else SameLine 1, to_doc x)) m)
  end.

Lemma not_cited s c : should_be_cited s = false -> In c cite_chars -> ~ In c s.
Proof.
  intros H C I. unfold should_be_cited in H. assert (K : existsb (fun c => existsb (Ascii.eqb c) cite_chars) s = true); [|congruence].
  apply existsb_exists. exists c. split; [exact I|]. apply existsb_exists. exists c. split; [exact C|apply Ascii.eqb_refl].
Qed.
Ltac incite := repeat (first [left; reflexivity|right]).
Lemma not_cited_dash s : should_be_cited s = false -> ~ dash_start s.
Proof.
  intros H D. apply (not_cited s "-"%char H); [incite|]. destruct D as [->|[r ->]]; left; reflexivity.
Qed.
Lemma not_cited_hd s c : should_be_cited s = false -> In c cite_chars -> c <> c_sp -> hd c_sp s <> c.
Proof. intros H C N E. destruct s as [|x s]; [cbn in E; congruence|]. cbn in E. apply (not_cited _ c H C). left. exact E. Qed.

Lemma value_text v : value_ok v -> text_ok (if should_be_cited v then DQuoted else Bare) v.
Proof.
  intros (P & T & H & D & S & L). destruct (should_be_cited v) eqn:C; cbn.
  - split; [exact P|]. split; [exact (proj1 T)|]. auto.
  - split; [exact P|]. split; [exact T|]. split; [apply not_cited_dash; exact C|]. split; [exact H|]. split; [exact D|]. split; [exact S|].
    split; apply not_cited_hd; try exact C; try discriminate; incite.
Qed.
Lemma plain_key_ok k : plain_key k -> key_ok (mkKey (should_be_cited k) k 0).
Proof.
  intros (P & T & H & D & C & B). unfold key_ok. cbn [k_text k_quoted]. split; [exact P|]. split; [exact H|]. split; [exact D|]. split; [exact C|].
  split; [exact B|]. intros Q. split; [exact T|apply not_cited_dash; exact Q].
Qed.

Lemma to_doc_ok b n : writable cfg b n -> doc_ok b (to_doc n).
Proof.
  revert b. induction n as [|v|m IH|m IH] using node_ind'; intros b W; inversion W; subst; cbn [to_doc].
  - constructor; [apply value_text; assumption|assumption].
  - constructor.
    + destruct m; [contradiction|discriminate].
    + intros p c I. apply in_map_iff in I. destruct I as ([i x] & E & I). inversion E; subst. eapply IH; [exact I|]. eauto.
    + intros p c es I S. apply in_map_iff in I. destruct I as ([i x] & E & I). inversion E; subst. destruct x; cbn in *; try discriminate.
  - constructor.
    + destruct m; [contradiction|discriminate].
    + intros k p c I. apply in_map_iff in I. destruct I as ([j x] & E & I). inversion E; subst. apply plain_key_ok. eauto.
    + intros k p c I. apply in_map_iff in I. destruct I as ([j x] & E & I). inversion E; subst.
      assert (Wx := H3 _ _ I). specialize (IH _ _ I _ Wx).
      destruct (is_scalar x), (sc_map_scalar_nl cfg); cbn in *; exact IH.
    + intros k p c I S. apply in_map_iff in I. destruct I as ([j x] & E & I). inversion E; subst.
      destruct x; cbn in *; try discriminate. eexists _, _, _. reflexivity.
Qed.

(* ---------- the text is the lines of that document ---------- *)

Definition txt (ls : list (nat * str)) : str := flat_map (fun p => spaces (fst p) ++ snd p ++ [c_nl]) ls.

Lemma txt_app a b : txt (a ++ b) = txt a ++ txt b. Proof. apply flat_map_app. Qed.

Lemma no_nl_value v : Forall printable v -> ~ In c_nl v.
Proof. intros P I. rewrite Forall_forall in P. exact (printable_nl (P _ I)). Qed.

Lemma ser_value use level v : value_ok v -> sc_maxlen cfg = 0 \/ List.length v <= sc_maxlen cfg ->
  ser cfg use level (NScalar v) = (if use then spaces level else []) ++ quoted (if should_be_cited v then DQuoted else Bare) v ++ [c_nl].
Proof.
  intros (P & (N & _) & _) L. cbn [ser]. unfold ser_scalar. destruct v as [|c v]; [contradiction|].
  rewrite (lines_of_one (c :: v)) by (apply no_nl_value; exact P).
  assert (E : Nat.eqb (sc_maxlen cfg) 0 || (List.length (c :: v) <=? sc_maxlen cfg) = true).
  { apply orb_true_iff. destruct L as [->|L]; [left; reflexivity|right; apply Nat.leb_le; exact L]. }
  set (w := c :: v) in *. cbv zeta. change (List.last [w] []) with w. change (is_empty w) with false. cbv iota.
  change (1 <? List.length [w]) with false. cbv iota. cbn [hd]. rewrite E. destruct (should_be_cited w); reflexivity.
Qed.

Lemma escape_none t s : ~ In t s -> escape_one t s = s.
Proof.
  induction s as [|c s IH]; intros H; [reflexivity|]. cbn. replace (Ascii.eqb c t) with false.
  - rewrite IH; [reflexivity|]. intros I. apply H. right. exact I.
  - symmetry. apply Ascii.eqb_neq. intros ->. apply H. left. reflexivity.
Qed.
Lemma ser_key_plain k : plain_key k -> ser_key k = key_str (mkKey (should_be_cited k) k 0).
Proof.
  intros (_ & _ & _ & D & _ & B). unfold ser_key, add_escapes. rewrite (escape_none c_bs) by exact B. rewrite escape_none by exact D.
  unfold key_str. cbn [k_quoted k_text k_gap spaces repeat]. rewrite app_nil_r. destruct (should_be_cited k); reflexivity.
Qed.

Fixpoint ser_seq (level : nat) (l : list (nat * node)) : str :=
  match l with
  | [] => []
  | (_, x) :: r =>
      if is_none x then ser_seq level r
      else
        let nl := is_seq x || (is_map x && sc_seq_map_nl cfg) in
        spaces level ++ lit "- " ++ (if nl then [c_nl] else []) ++ ser cfg nl (level + 2) x ++ ser_seq level r
  end.
Fixpoint ser_map (level : nat) (l : list (str * node)) (use : bool) : str :=
  match l with
  | [] => []
  | (k, x) :: r =>
      if is_none x then ser_map level r use
      else
        let nl := negb (is_scalar x) || sc_map_scalar_nl cfg in
        (if use then spaces level else []) ++ ser_key k ++ lit ": " ++ (if nl then [c_nl] else [])
        ++ ser cfg nl (level + sc_indent cfg) x ++ ser_map level r true
  end.
Lemma ser_seq_eq use level m : ser cfg use level (NSeq m) = ser_seq level m.
Proof. cbn [ser]. induction m as [|[i x] m IH]; [reflexivity|]. cbn [ser_seq]. rewrite <- IH. reflexivity. Qed.
Lemma ser_map_eq use level m : ser cfg use level (NMap m) = ser_map level m use.
Proof. cbn [ser]. revert use. induction m as [|[i x] m IH]; intros use; [reflexivity|]. cbn [ser_map]. rewrite <- !IH. reflexivity. Qed.

Lemma writable_none b x : writable cfg b x -> is_none x = false. Proof. intros H. inversion H; reflexivity. Qed.

Lemma ser_indent b x level : writable cfg b x -> is_seq x = false -> ser cfg true level x = spaces level ++ ser cfg false level x.
Proof.
  intros W S. destruct x as [|m|m|v]; try discriminate; inversion W; subst.
  - rewrite !ser_map_eq. destruct m as [|[k x] m]; [contradiction|]. cbn [ser_map].
    rewrite (writable_none (is_scalar x && negb (sc_map_scalar_nl cfg)) x) by (eapply H3; left; reflexivity). reflexivity.
  - rewrite !ser_value by assumption. reflexivity.
Qed.

Lemma ser_txt b n : writable cfg b n -> forall level, ser cfg true level n = txt (doc_lines level (to_doc n)).
Proof.
  revert b. induction n as [|v|m IH|m IH] using node_ind'; intros b W level; [inversion W| | |].
  - inversion W; subst. rewrite ser_value by assumption. cbn. rewrite !app_nil_r. reflexivity.
  - assert (HW : forall i x, In (i, x) m -> writable cfg false x) by (inversion W; subst; assumption). clear W.
    rewrite ser_seq_eq. cbn [to_doc]. rewrite lines_seq.
    induction m as [|[i x] m IHm]; [reflexivity|]. cbn [ser_seq map flat_map]. rewrite txt_app.
    assert (Wx : writable cfg false x) by (eapply HW; left; reflexivity). rewrite (writable_none _ _ Wx). cbv zeta.
    rewrite IHm; [|intros j y J; apply (IH j y); right; exact J|intros j y J; apply (HW j y); right; exact J].
    assert (IX := IH i x (or_introl eq_refl) false Wx (level + 2)). clear IHm IH.
    match goal with |- spaces level ++ lit "- " ++ ?a ++ ?b ++ ?c = ?d ++ ?c => assert (E : spaces level ++ lit "- " ++ a ++ b = d) end;
      [|rewrite <- E, <- !app_assoc; reflexivity].
    destruct (is_seq x || (is_map x && sc_seq_map_nl cfg)) eqn:NL; cbn [seq_entry_lines].
    + replace (level + 2) with (level + 2) in * by reflexivity. rewrite IX. change (txt ((level, lit "-" ++ spaces 1) :: ?r)) with (spaces level ++ (lit "-" ++ spaces 1) ++ [c_nl] ++ txt r) || idtac.
      unfold txt at 2. cbn [flat_map fst snd]. fold txt. rewrite <- !app_assoc. reflexivity.
    + apply orb_false_iff in NL. destruct NL as [NS _]. rewrite (ser_indent _ _ _ Wx NS) in IX.
      replace (level + 2 + 0) with (level + 2) by lia.
      destruct (doc_head false (to_doc x) (to_doc_ok _ _ Wx) (level + 2)) as (s & r & E & _). rewrite E in *.
      unfold txt in IX. cbn [flat_map fst snd] in IX. fold (txt r) in IX. rewrite <- !app_assoc in IX. apply app_inv_head in IX. rewrite IX.
      unfold txt. cbn [flat_map fst snd]. rewrite <- !app_assoc. reflexivity.
  - assert (HK : forall k x, In (k, x) m -> plain_key k) by (inversion W; subst; assumption).
    assert (HW : forall k x, In (k, x) m -> writable cfg (is_scalar x && negb (sc_map_scalar_nl cfg)) x) by (inversion W; subst; assumption). clear W.
    rewrite ser_map_eq. cbn [to_doc]. rewrite lines_map.
    induction m as [|[k x] m IHm]; [reflexivity|]. cbn [ser_map map flat_map]. rewrite txt_app.
    assert (Wx := HW k x (or_introl eq_refl)). assert (Kx := HK k x (or_introl eq_refl)). rewrite (writable_none _ _ Wx). cbv zeta.
    rewrite IHm; [|intros j y J; apply (IH j y); right; exact J|intros j y J; apply (HK j y); right; exact J|intros j y J; apply (HW j y); right; exact J].
    assert (IX := IH k x (or_introl eq_refl) _ Wx (level + sc_indent cfg)). clear IHm IH.
    rewrite (ser_key_plain k Kx).
    match goal with |- spaces level ++ ?k ++ lit ": " ++ ?a ++ ?b ++ ?c = ?d ++ ?c => assert (E : spaces level ++ k ++ lit ": " ++ a ++ b = d) end;
      [|rewrite <- E, <- !app_assoc; reflexivity].
    destruct (negb (is_scalar x) || sc_map_scalar_nl cfg) eqn:NL; cbn [map_entry_lines].
    + replace (level + S (sc_indent cfg - 1)) with (level + sc_indent cfg) by lia. rewrite IX.
      unfold txt at 2. cbn [flat_map fst snd]. fold txt. rewrite <- !app_assoc. reflexivity.
    + apply orb_false_iff in NL. destruct NL as [NS NM]. apply negb_false_iff in NS. destruct x as [| | |v]; try discriminate.
      inversion Wx; subst. rewrite ser_value by assumption. cbn [to_doc doc_lines]. unfold txt. cbn [flat_map fst snd spaces repeat].
      rewrite !app_nil_r, <- !app_assoc. reflexivity.
Qed.

(* ---------- reading the document back gives the tree ---------- *)

Lemma eval_copy n b : writable cfg b n -> regular n -> eval (to_doc n) NNone = n.
Proof.
  revert b. induction n as [|v|m IH|m IH] using node_ind'; intros b W R; [inversion W|reflexivity| |].
  - assert (SO : solid (NSeq m)).
    { revert W. clear. revert b. generalize (NSeq m). induction n as [|v|m' IH|m' IH] using node_ind'; intros b W; inversion W; subst; constructor; eauto. }
    rewrite <- (copy_solid _ R SO) at 2. rewrite copy_seq_eq. cbn [to_doc eval].
    assert (HW : forall i x, In (i, x) m -> writable cfg false x) by (inversion W; subst; assumption).
    destruct (regular_seq _ R) as [_ HR]. cbn [seq_of] in HR.
    assert (HS : forall i x, In (i, x) m -> eval (to_doc x) NNone = copy_node x).
    { intros i x I. rewrite (IH i x I _ (HW i x I) (HR i x I)). symmetry. apply copy_solid; [eapply HR; exact I|]. inversion SO; subst. eauto. }
    clear -HS.
    assert (G : forall to, fold_left (fun n (e : place * doc) => let (_, c) := e in push_back n (eval c NNone))
      (map (fun e : nat * node => let (_, x) := e in
        (if is_seq x || (is_map x && sc_seq_map_nl cfg) then NextLine 1 1 else SameLine 0, to_doc x)) m) to = copy_seq m to); [|apply G].
    induction m as [|[i x] m IHm]; intros to; [reflexivity|]. cbn [map fold_left copy_seq].
    rewrite (HS i x) by (left; reflexivity). apply IHm. intros j y J. apply (HS j y). right. exact J.
  - assert (SO : solid (NMap m)).
    { revert W. clear. revert b. generalize (NMap m). induction n as [|v|m' IH|m' IH] using node_ind'; intros b W; inversion W; subst; constructor; eauto. }
    rewrite <- (copy_solid _ R SO) at 2. rewrite copy_map_eq. cbn [to_doc eval].
    assert (HW : forall k x, In (k, x) m -> writable cfg (is_scalar x && negb (sc_map_scalar_nl cfg)) x) by (inversion W; subst; assumption).
    destruct (regular_map _ R) as [ST HR]. cbn [map_of] in ST, HR.
    assert (HS : forall i x, In (i, x) m -> eval (to_doc x) NNone = copy_node x).
    { intros i x I. rewrite (IH i x I _ (HW i x I) (HR i x I)). symmetry. apply copy_solid; [eapply HR; exact I|]. inversion SO; subst. eauto. }
    clear -HS ST.
    assert (G : forall to, sorted (map_of to ++ m) -> fold_left (fun n (e : dkey * place * doc) => let '(k, _, c) := e in
        set_key n (k_text k) (eval c (get_key n (k_text k))))
      (map (fun e : str * node => let (k, x) := e in
        (mkKey (should_be_cited k) k 0,
         if negb (is_scalar x) || sc_map_scalar_nl cfg then NextLine 1 (sc_indent cfg - 1) else SameLine 1, to_doc x)) m) to = copy_map m to);
      [|apply G; exact ST]. clear ST.
    induction m as [|[k x] m IHm]; intros to ST; [reflexivity|]. cbn [map fold_left copy_map k_text].
    assert (FL : Forall (fun j => klt j k) (map fst (map_of to))).
    { clear -ST. unfold sorted in ST. induction (map_of to) as [|[j y] done IHd]; [constructor|]. cbn in ST. inversion ST as [|? ? S F]; subst.
      constructor; [|apply IHd; exact S]. rewrite Forall_forall in F. apply F. rewrite map_app. apply in_or_app. right. left. reflexivity. }
    assert (GK : get_key to k = NNone).
    { unfold get_key. destruct (map_find (map_of to) k) as [z|] eqn:F; [|reflexivity]. apply find_in in F. apply (in_map fst) in F.
      rewrite Forall_forall in FL. specialize (FL _ F). cbn in FL. unfold klt in FL. rewrite str_cmp_refl in FL. discriminate. }
    rewrite GK, (HS k x) by (left; reflexivity). apply IHm; [intros j y J; apply (HS j y); right; exact J|].
    cbn [set_key map_of]. rewrite map_set_end by exact FL. rewrite <- app_assoc. unfold sorted in *. rewrite map_app in *. exact ST.
Qed.

Definition file (ls : list (nat * str)) : list src_line := map (fun p => SLine (fst p) (snd p) None false) ls ++ [SBlank 0 None false].

Lemma file_text ls : src_text (file ls) = txt ls.
Proof.
  unfold src_text, file. rewrite map_app. cbn [map src_str comment_str cr_str spaces repeat app].
  induction ls as [|[n s] ls IH]; [reflexivity|]. cbn [map src_str comment_str cr_str fst snd]. rewrite !app_nil_r.
  change (map src_str (SLine n s None false :: ?r) ++ [[]]) with ((spaces n ++ s ++ [] ++ []) :: (map src_str r ++ [[]])) || idtac.
  unfold txt. cbn [flat_map fst snd]. fold (txt ls). rewrite <- IH.
  destruct ls as [|p ls]; cbn [map app join_lines]; rewrite ?app_nil_r, <- ?app_assoc; reflexivity.
Qed.
Lemma file_doc ls : src_doc (file ls) = ls.
Proof. unfold file. induction ls as [|[n s] ls IH]; [reflexivity|]. cbn. rewrite IH. reflexivity. Qed.
Lemma file_comments ls : comments_ok (file ls).
Proof.
  intros l t I E. unfold file in I. apply in_app_or in I. destruct I as [I|[<-|[]]]; [|discriminate E].
  apply in_map_iff in I. destruct I as (p & <- & _). discriminate E.
Qed.

Lemma round_trip n : writable cfg false n -> regular n -> n <> NScalar (lit "...") ->
  exists text, serialize cfg n = Ok text /\ parse text = Ok n.
Proof.
  intros W R D. exists (ser cfg false 0 n). unfold serialize.
  replace (sc_indent cfg <? 2) with false by (symmetry; apply Nat.ltb_ge; exact indent2). split; [reflexivity|].
  assert (E : ser cfg false 0 n = txt (doc_lines 0 (to_doc n))).
  { rewrite <- (ser_txt _ _ W 0). destruct (is_seq n) eqn:S; [destruct n; try discriminate; rewrite !ser_seq_eq; reflexivity|].
    rewrite (ser_indent _ _ 0 W S). reflexivity. }
  rewrite E, <- file_text.
  rewrite (parse_source (to_doc n)); [rewrite (eval_copy n false W R); reflexivity| |apply file_comments|apply file_doc].
  split; [apply to_doc_ok; exact W|]. destruct n as [| | |v]; [inversion W|exact I|exact I|]. cbn [to_doc].
  destruct (should_be_cited v) eqn:C; [exact I|]. split; [intros ->; discriminate C|intros ->; apply D; reflexivity].
Qed.

End Write.
