(* A document determines the tree; keys given twice. *)
From Coq Require Import List Ascii String Arith Bool Lia Sorting.Sorted Permutation.
From Verif Require Import YamlModel YamlSpec YamlProofs YamlPost YamlDoc YamlTree YamlLaws YamlApi YamlWrite.
Import ListNotations.
Local Open Scope nat_scope.

Lemma nth_ext {A} (a b : list A) : List.length a = List.length b ->
  (forall i x y, nth_error a i = Some x -> nth_error b i = Some y -> x = y) -> a = b.
Proof.
  revert b. induction a as [|x a IH]; intros [|y b] L H; try discriminate; [reflexivity|].
  rewrite (H 0 x y eq_refl eq_refl). f_equal. apply IH; [cbn in L; lia|]. intros i u v U V. exact (H (S i) u v U V).
Qed.

Lemma sorted_unique a b : StronglySorted klt a -> StronglySorted klt b -> (forall k, In k a <-> In k b) -> a = b.
Proof.
  revert b. induction a as [|x a IH]; intros b SA SB H.
  - destruct b as [|y b]; [reflexivity|]. destruct (proj2 (H y) (or_introl eq_refl)).
  - destruct b as [|y b]; [destruct (proj1 (H x) (or_introl eq_refl))|].
    inversion SA as [|? ? SA' FA]; subst. inversion SB as [|? ? SB' FB]; subst. rewrite Forall_forall in FA, FB.
    assert (irr : forall z, ~ klt z z) by (intros z Z; unfold klt in Z; rewrite str_cmp_refl in Z; discriminate).
    assert (E : x = y).
    { destruct (proj1 (H x) (or_introl eq_refl)) as [E|I]; [congruence|]. destruct (proj2 (H y) (or_introl eq_refl)) as [E|J]; [congruence|].
      exfalso. apply (irr x). eapply str_cmp_trans; [exact (FA y J)|exact (FB x I)]. }
    subst y. f_equal. apply IH; [exact SA'|exact SB'|]. intros k. split; intros K.
    + destruct (proj1 (H k) (or_intror K)) as [E|I]; [|exact I]. subst. destruct (irr k (FA k K)).
    + destruct (proj2 (H k) (or_intror K)) as [E|I]; [|exact I]. subst. destruct (irr k (FB k K)).
Qed.
Lemma sorted_nodup a : StronglySorted klt a -> NoDup a.
Proof.
  induction 1 as [|x a S IH F]; constructor; [|exact IH]. intros I. rewrite Forall_forall in F. specialize (F x I). unfold klt in F.
  rewrite str_cmp_refl in F. discriminate.
Qed.
Lemma keys_of_in es k : In k (keys_of es) <-> exists q p c, In (q, p, c) es /\ k_text q = k.
Proof.
  induction es as [|[[q p] c] es IH]; cbn; [split; [intros []|intros (q & p & c & [] & _)]|]. rewrite IH. split.
  - intros [E|(q' & p' & c' & I & E)]; [exists q, p, c; auto|exists q', p', c'; auto].
  - intros (q' & p' & c' & [I|I] & E); [inversion I; subst; auto|right; exists q', p', c'; auto].
Qed.
Lemma keys_of_len es : List.length (keys_of es) = List.length es.
Proof. induction es as [|[[q p] c] es IH]; cbn; [reflexivity|rewrite IH; reflexivity]. Qed.
Lemma holds_none d : ~ holds NNone d.
Proof. intros H. inversion H; discriminate. Qed.
Lemma find_nth m i k x : sorted m -> nth_error m i = Some (k, x) -> map_find m k = Some x.
Proof.
  revert i. induction m as [|[j y] m IH]; intros i S N; [destruct i; discriminate|]. inversion S as [|? ? S' F]; subst. cbn [map_find].
  destruct i as [|i]; [inversion N; subst; rewrite str_eqb_refl; reflexivity|]. cbn in N.
  rewrite Forall_forall in F. assert (L : klt j k) by (apply F; apply nth_error_In in N; apply (in_map fst) in N; exact N).
  rewrite (proj1 (str_cmp_neq _ _ L)). apply (IH i); assumption.
Qed.

Lemma holds_keys m es : sorted m -> List.length m = List.length es -> NoDup (keys_of es) ->
  (forall k p c, In (k, p, c) es -> holds (get_key (NMap m) (k_text k)) c) -> forall k, In k (map fst m) <-> In k (keys_of es).
Proof.
  intros S L N H. assert (A : incl (keys_of es) (map fst m)).
  { intros k K. apply keys_of_in in K. destruct K as (q & p & c & I & <-). specialize (H q p c I). unfold get_key in H. cbn [map_of] in H.
    destruct (map_find m (k_text q)) as [x|] eqn:F; [|destruct (holds_none _ H)]. apply find_in in F. apply (in_map fst) in F. exact F. }
  intros k. split; [|apply A]. revert k. apply (NoDup_length_incl N); [rewrite map_length, keys_of_len; lia|exact A].
Qed.

Lemma holds_unique d : forall n n', no_dup_keys d -> regular n -> regular n' -> holds n d -> holds n' d -> n = n'.
Proof.
  induction d as [q v t|es IH|es IH] using doc_ind'; intros n n' ND R R' H H'; inversion H as [? ? ? ? A1 A2|? ? A1 A2 A3|? ? A1 A2 A3]; subst;
    inversion H' as [? ? ? ? B1 B2|? ? B1 B2 B3|? ? B1 B2 B3]; subst; destruct n; try discriminate; destruct n'; try discriminate.
  - cbn in B2. congruence.
  - inversion ND as [|? HN|]; subst. destruct (regular_seq _ R) as [N HR]. destruct (regular_seq _ R') as [N' HR']. cbn [seq_of node_size] in *.
    f_equal. apply nth_ext; [congruence|]. intros i [j x] [j' x'] X X'.
    assert (EJ : j = i).
    { apply (map_nth_error fst) in X. rewrite N in X. cbn [fst] in X. pose proof X as Y. apply nth_error_In, in_seq in Y.
      assert (i < List.length m) by (rewrite <- (seq_length (List.length m) 0); apply nth_error_Some; congruence).
      pose proof (nth_error_nth _ _ 0 X) as Z. rewrite seq_nth in Z by assumption. cbn in Z. congruence. }
    assert (EJ' : j' = i).
    { apply (map_nth_error fst) in X'. rewrite N' in X'. cbn [fst] in X'.
      assert (i < List.length m0) by (rewrite <- (seq_length (List.length m0) 0); apply nth_error_Some; congruence).
      pose proof (nth_error_nth _ _ 0 X') as Z. rewrite seq_nth in Z by assumption. cbn in Z. congruence. }
    subst. f_equal. destruct (nth_error es i) as [[p c]|] eqn:E.
    2:{ apply nth_error_None in E. assert (nth_error m i <> None) by congruence. apply nth_error_Some in H0. lia. }
    specialize (A3 i p c E). specialize (B3 i p c E). unfold get_index in A3, B3. cbn [seq_of] in A3, B3.
    rewrite (seq_find_num _ _ _ N X) in A3. rewrite (seq_find_num _ _ _ N' X') in B3. cbn [snd] in *.
    apply nth_error_In in E, X, X'. eapply IH; [exact E|eapply HN; exact E|eapply HR; exact X|eapply HR'; exact X'|exact A3|exact B3].
  - inversion ND as [| |? NK HN]; subst. destruct (regular_map _ R) as [N HR]. destruct (regular_map _ R') as [N' HR']. cbn [map_of node_size] in *.
    pose proof (holds_keys m es N A2 NK A3) as K. pose proof (holds_keys m0 es N' B2 NK B3) as K'.
    assert (KE : map fst m = map fst m0).
    { apply sorted_unique; [exact N|exact N'|]. intros k. rewrite K, K'. tauto. }
    f_equal. apply nth_ext; [congruence|]. intros i [j x] [j' x'] X X'.
    assert (EJ : j = j').
    { apply (map_nth_error fst) in X, X'. rewrite KE in X. cbn in *. congruence. }
    subst j'. f_equal. pose proof (nth_error_In _ _ X) as IX. assert (KJ : In j (keys_of es)) by (apply K; apply (in_map fst) in IX; exact IX).
    apply keys_of_in in KJ. destruct KJ as (q & p & c & E & <-). specialize (A3 _ _ _ E). specialize (B3 _ _ _ E).
    unfold get_key in A3, B3. cbn [map_of] in A3, B3. rewrite (find_nth _ _ _ _ N X) in A3. rewrite (find_nth _ _ _ _ N' X') in B3.
    apply nth_error_In in X'. eapply IH; [exact E|eapply HN; exact E|eapply HR; exact IX|eapply HR'; exact X'|exact A3|exact B3].
Qed.

Lemma holds_same d : forall d' n, same_data d d' -> holds n d -> holds n d'.
Proof.
  induction d as [q v t|es IH|es IH] using doc_ind'; intros d' n S H; inversion S as [|? ? L G|? es1 es' P L GK G]; subst; inversion H as [? ? ? ? A1 A2|? ? A1 A2 A3|? ? A1 A2 A3]; subst.
  - constructor; [assumption|reflexivity].
  - constructor; [assumption|congruence|]. intros i p c I. destruct (nth_error es i) as [[p0 c0]|] eqn:E.
    + eapply IH; [eapply nth_error_In; exact E|eapply G; eassumption|eapply A3; exact E].
    + apply nth_error_None in E. match goal with Q : nth_error ?z i = Some (p, c) |- _ => assert (N : nth_error z i <> None) by congruence; apply nth_error_Some in N; lia end.
  - constructor; [assumption|rewrite <- (Permutation_length P); congruence|]. intros k p c I.
    apply (Permutation_in _ (Permutation_sym P)) in I. apply In_nth_error in I. destruct I as [i I].
    destruct (nth_error es i) as [[[k0 p0] c0]|] eqn:E.
    + rewrite <- (GK _ _ _ _ _ _ _ E I). pose proof (nth_error_In _ _ E) as J. eapply IH; [exact J|eapply G; eassumption|eapply A3; exact J].
    + apply nth_error_None in E. assert (N : nth_error es1 i <> None) by congruence. apply nth_error_Some in N. lia.
Qed.

(* ---------- a key given more than once ---------- *)

Lemma fold_sorted es n : sorted (map_of n) ->
  let n' := fold_left (fun n (e : dkey * place * doc) => let '(k, _, c) := e in set_key n (k_text k) (eval c (get_key n (k_text k)))) es n in
  sorted (map_of n') /\ (forall k, ~ In k (keys_of es) -> map_find (map_of n') k = map_find (map_of n) k) /\ (es <> [] \/ is_map n = true -> is_map n' = true).
Proof.
  revert n. induction es as [|[[k p] c] es IH]; intros n S; cbn zeta.
  - split; [exact S|]. split; [reflexivity|]. intros [H|H]; [contradiction|exact H].
  - cbn [fold_left keys_of]. set (n1 := set_key n (k_text k) (eval c (get_key n (k_text k)))).
    assert (S1 : sorted (map_of n1)) by (apply set_sorted; exact S).
    destruct (IH n1 S1) as (A & B & C). split; [exact A|]. split; [|intros _; apply C; right; reflexivity].
    intros j J. rewrite B by (intros I; apply J; right; exact I). cbn [n1 set_key map_of]. rewrite find_set by exact S.
    rewrite str_eqb_neq; [reflexivity|]. intros E. apply J. left. exact E.
Qed.

Lemma last_text a k p q v t b : ~ In (k_text k) (keys_of b) ->
  let n := eval (DMap (a ++ (k, p, DText q v t) :: b)) NNone in
  is_map n = true /\ get_key n (k_text k) = NScalar v.
Proof.
  intros NI. cbn zeta. cbn [eval]. rewrite fold_left_app. cbn [fold_left].
  destruct (fold_sorted a NNone sorted_nil) as (S & _ & _). cbn zeta in S. set (n0 := fold_left _ a NNone) in *.
  change (eval (DText q v t) (get_key n0 (k_text k))) with (NScalar v).
  set (n1 := set_key n0 (k_text k) (NScalar v)). assert (S1 : sorted (map_of n1)) by (apply set_sorted; exact S).
  destruct (fold_sorted b n1 S1) as (A & B & C). cbn zeta in *. split; [apply C; right; reflexivity|].
  unfold get_key. rewrite B by exact NI. cbn [n1 set_key map_of]. rewrite find_set by exact S. rewrite str_eqb_refl. reflexivity.
Qed.
