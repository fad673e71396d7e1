(* Laws of the node tree, and what every parsed tree is like. *)
From Coq Require Import List Ascii String Arith Bool Lia Sorting.Sorted.
From Verif Require Import YamlModel YamlSpec YamlProofs YamlPost YamlDoc YamlTree.
Import ListNotations.
Local Open Scope nat_scope.

(* ---------- the order of keys ---------- *)

Lemma str_cmp_refl x : str_cmp x x = Eq.
Proof. induction x as [|c x IH]; [reflexivity|]. cbn. rewrite Nat.compare_refl. exact IH. Qed.
Lemma ascii_code_inj a b : nat_of_ascii a = nat_of_ascii b -> a = b.
Proof. intros H. rewrite <- (ascii_nat_embedding a), <- (ascii_nat_embedding b), H. reflexivity. Qed.
Lemma str_cmp_eq a b : str_cmp a b = Eq -> a = b.
Proof.
  revert b. induction a as [|x a IH]; intros [|y b] H; try discriminate; [reflexivity|]. cbn in H.
  destruct (Nat.compare (nat_of_ascii x) (nat_of_ascii y)) eqn:E; try discriminate.
  apply Nat.compare_eq in E. rewrite (ascii_code_inj _ _ E), (IH _ H). reflexivity.
Qed.
Lemma str_cmp_opp a b : str_cmp b a = CompOpp (str_cmp a b).
Proof.
  revert b. induction a as [|x a IH]; intros [|y b]; try reflexivity. cbn.
  rewrite (Nat.compare_antisym (nat_of_ascii x)). destruct (Nat.compare (nat_of_ascii x) (nat_of_ascii y)); cbn; [apply IH|reflexivity|reflexivity].
Qed.
Lemma str_cmp_trans a b c : str_cmp a b = Lt -> str_cmp b c = Lt -> str_cmp a c = Lt.
Proof.
  revert b c. induction a as [|x a IH]; intros [|y b] [|z c] H K; try discriminate; [reflexivity|]. cbn in *.
  destruct (Nat.compare (nat_of_ascii x) (nat_of_ascii y)) eqn:E; try discriminate;
  destruct (Nat.compare (nat_of_ascii y) (nat_of_ascii z)) eqn:F; try discriminate.
  - apply Nat.compare_eq in E, F. rewrite E, F, Nat.compare_refl. eapply IH; eassumption.
  - apply Nat.compare_eq in E. rewrite E, F. reflexivity.
  - apply Nat.compare_eq in F. rewrite <- F, E. reflexivity.
  - apply Nat.compare_lt_iff in E, F. replace (Nat.compare (nat_of_ascii x) (nat_of_ascii z)) with Lt; [reflexivity|].
    symmetry. apply Nat.compare_lt_iff. lia.
Qed.
Lemma str_cmp_neq a b : str_cmp a b = Lt -> str_eqb a b = false /\ str_eqb b a = false.
Proof. intros H. split; apply str_eqb_neq; intros ->; rewrite str_cmp_refl in H; discriminate. Qed.

Definition klt (a b : str) : Prop := str_cmp a b = Lt.
Definition sorted (m : list (str * node)) : Prop := StronglySorted klt (map fst m).

Lemma increasing_sorted m : keys_increasing (map fst m) <-> sorted m.
Proof.
  unfold sorted. set (ks := map fst m). clearbody ks. split.
  - induction ks as [|k ks IH]; intros H; constructor.
    + apply IH. intros i j a b L A B. apply (H (S i) (S j) a b); [lia|exact A|exact B].
    + apply Forall_forall. intros x X. apply In_nth_error in X. destruct X as [j J]. apply (H 0 (S j) k x); [lia|reflexivity|exact J].
  - induction 1 as [|k ks S IH F]; intros i j a b L A B; [destruct i; discriminate|].
    destruct i as [|i]; [|destruct j as [|j]; [lia|]; apply (IH i j); [lia|exact A|exact B]].
    inversion A; subst. destruct j as [|j]; [lia|]. rewrite Forall_forall in F. apply F. eapply nth_error_In. exact B.
Qed.

Lemma find_below m key : sorted m -> Forall (klt key) (map fst m) -> map_find m key = None.
Proof.
  intros _ F. induction m as [|[k x] m IH]; [reflexivity|]. inversion F; subst. cbn.
  rewrite (proj2 (str_cmp_neq key k H1)). apply IH. assumption.
Qed.

Lemma find_set m key x key' : sorted m ->
  map_find (map_set m key x) key' = if str_eqb key key' then Some x else map_find m key'.
Proof.
  induction m as [|[k y] m IH]; intros S; cbn [map_set map_find]; [destruct (str_eqb key key'); reflexivity|].
  inversion S as [|? ? S' F]; subst. destruct (str_cmp key k) eqn:C; cbn [map_find].
  - apply str_cmp_eq in C. subst. destruct (str_eqb k key'); reflexivity.
  - destruct (str_eqb key key'); reflexivity.
  - rewrite IH by exact S'. destruct (str_eqb k key') eqn:E; [|reflexivity]. apply str_eqb_eq in E. subst.
    rewrite str_cmp_opp in C. destruct (str_cmp key' key) eqn:D; try discriminate. rewrite (proj2 (str_cmp_neq _ _ D)). reflexivity.
Qed.
Lemma set_keys m key x k : In k (map fst (map_set m key x)) -> k = key \/ In k (map fst m).
Proof.
  induction m as [|[j y] m IH]; cbn [map_set]; [intros [H|[]]; auto|].
  destruct (str_cmp key j); cbn; [intros [H|H]; auto|intros [H|[H|H]]; auto|intros [H|H]; [auto|]].
  destruct (IH H); auto.
Qed.
Lemma set_sorted m key x : sorted m -> sorted (map_set m key x).
Proof.
  induction m as [|[k y] m IH]; intros S; cbn [map_set]; [repeat constructor|].
  inversion S as [|? ? S' F]; subst. destruct (str_cmp key k) eqn:C.
  - apply str_cmp_eq in C. subst. exact S.
  - constructor; [exact S|]. constructor; [exact C|]. cbn. rewrite Forall_forall in *. intros z Z. eapply str_cmp_trans; [exact C|]. apply F. exact Z.
  - constructor; [apply IH; exact S'|]. rewrite Forall_forall in *. intros z Z. apply set_keys in Z. destruct Z as [->|Z]; [|apply F; exact Z].
    unfold klt. cbn [fst]. rewrite str_cmp_opp, C. reflexivity.
Qed.
Lemma set_len m key x : sorted m ->
  List.length (map_set m key x) = match map_find m key with Some _ => List.length m | None => S (List.length m) end.
Proof.
  induction m as [|[k y] m IH]; intros S; [reflexivity|]. cbn [map_set map_find]. inversion S as [|? ? S' F]; subst.
  destruct (str_cmp key k) eqn:C.
  - apply str_cmp_eq in C. subst. rewrite str_eqb_refl. reflexivity.
  - rewrite (proj2 (str_cmp_neq _ _ C)). rewrite find_below; [reflexivity|exact S'|]. cbn in F. rewrite Forall_forall in *.
    intros z Z. eapply str_cmp_trans; [exact C|]. apply F. exact Z.
  - assert (D : str_cmp k key = Lt) by (rewrite str_cmp_opp, C; reflexivity). rewrite (proj1 (str_cmp_neq _ _ D)).
    cbn [List.length]. rewrite IH by exact S'. destruct (map_find m key); reflexivity.
Qed.
Lemma set_in m key x k y : In (k, y) (map_set m key x) -> (k = key /\ y = x) \/ In (k, y) m.
Proof.
  induction m as [|[j z] m IH]; cbn [map_set]; [intros [H|[]]; inversion H; auto|].
  destruct (str_cmp key j); cbn.
  - intros [H|H]; [inversion H; auto|auto].
  - intros [H|[H|H]]; [inversion H; auto|auto|auto].
  - intros [H|H]; [auto|]. destruct (IH H) as [H'|H']; auto.
Qed.
Lemma find_in m k x : map_find m k = Some x -> In (k, x) m.
Proof.
  induction m as [|[j y] m IH]; [discriminate|]. cbn. destruct (str_eqb j k) eqn:E; [|intros H; right; apply IH; exact H].
  apply str_eqb_eq in E. subst. intros H. inversion H. left. reflexivity.
Qed.
Lemma find_some m k : In k (map fst m) -> exists x, map_find m k = Some x.
Proof.
  induction m as [|[j y] m IH]; [intros []|]. cbn. destruct (str_eqb j k) eqn:E; [eauto|].
  intros [H|H]; [subst; rewrite str_eqb_refl in E; discriminate|apply IH; exact H].
Qed.
Lemma find_none m k : map_find m k = None -> ~ In k (map fst m).
Proof. intros H I. destruct (find_some m k I) as [x X]. congruence. Qed.

(* ---------- the entries of a sequence ---------- *)

Definition numbered (m : list (nat * node)) : Prop := map fst m = seq 0 (List.length m).

Lemma seq_find_from s m i x : map fst m = seq s (List.length m) -> nth_error m i = Some x -> seq_find m (s + i) = Some (snd x).
Proof.
  revert s i. induction m as [|[k y] m IH]; intros s i H N; [destruct i; discriminate|]. cbn in H. inversion H; subst.
  destruct i as [|i]; cbn [seq_find].
  - inversion N; subst. rewrite Nat.add_0_r, Nat.eqb_refl. reflexivity.
  - replace (Nat.eqb s (s + S i)) with false by (symmetry; apply Nat.eqb_neq; lia).
    replace (s + S i) with (S s + i) by lia. apply IH; assumption.
Qed.
Lemma seq_find_num m i x : numbered m -> nth_error m i = Some x -> seq_find m i = Some (snd x).
Proof. intros H N. apply (seq_find_from 0 m i x H N). Qed.
Lemma next_num m : numbered m -> next_index m = List.length m.
Proof.
  unfold numbered, next_index. intros H. destruct (rev m) as [|[k x] r] eqn:E.
  - rewrite <- (rev_involutive m), E. reflexivity.
  - assert (M : m = rev r ++ [(k, x)]) by (rewrite <- (rev_involutive m), E; reflexivity).
    rewrite M in *. rewrite map_app, app_length in H. cbn in H. replace (List.length (rev r) + 1) with (S (List.length (rev r))) in H by lia.
    rewrite seq_S in H. apply app_inj_tail in H. destruct H as [_ H]. rewrite app_length. cbn in *. lia.
Qed.
Lemma push_num m x : numbered m -> numbered (m ++ [(next_index m, x)]).
Proof.
  intros H. unfold numbered. rewrite map_app, app_length, (next_num m H). cbn. rewrite Nat.add_1_r, seq_S, H. reflexivity.
Qed.

(* ---------- a parsed document is found in the tree ---------- *)

Lemma eval_seq_fold es m : numbered m ->
  exists m', fold_left (fun n (e : place * doc) => let (_, c) := e in push_back n (eval c NNone)) es (NSeq m) = NSeq m' /\
    numbered m' /\ List.length m' = List.length m + List.length es /\
    (forall i x, nth_error m i = Some x -> nth_error m' i = Some x) /\
    (forall i p c, nth_error es i = Some (p, c) -> exists j, nth_error m' (List.length m + i) = Some (j, eval c NNone)).
Proof.
  revert m. induction es as [|[p c] es IH]; intros m N.
  - exists m. cbn. repeat split; [exact N|lia|auto|intros [|i]; discriminate].
  - cbn [fold_left]. change (push_back (NSeq m) (eval c NNone)) with (NSeq (m ++ [(next_index m, eval c NNone)])).
    destruct (IH _ (push_num m (eval c NNone) N)) as (m' & E & N' & L & K & G). rewrite app_length in L, G. cbn in L, G.
    exists m'. split; [exact E|]. split; [exact N'|]. split; [cbn; lia|]. split.
    + intros i x I. apply K. rewrite nth_error_app1; [exact I|]. apply nth_error_Some. congruence.
    + intros [|i] q d I.
      * inversion I; subst. exists (next_index m). rewrite Nat.add_0_r. apply K. rewrite nth_error_app2, Nat.sub_diag by lia. reflexivity.
      * destruct (G i q d I) as [j J]. exists j. replace (List.length m + S i) with (List.length m + 1 + i) by lia. exact J.
Qed.

Lemma eval_map_fold es n : sorted (map_of n) -> NoDup (keys_of es) -> (forall k, In k (keys_of es) -> ~ In k (map fst (map_of n))) ->
  let n' := fold_left (fun n (e : dkey * place * doc) => let '(k, _, c) := e in set_key n (k_text k) (eval c (get_key n (k_text k)))) es n in
  sorted (map_of n') /\ List.length (map_of n') = List.length (map_of n) + List.length es /\
  (forall k, ~ In k (keys_of es) -> map_find (map_of n') k = map_find (map_of n) k) /\
  (forall k p c, In (k, p, c) es -> map_find (map_of n') (k_text k) = Some (eval c NNone)) /\
  (es <> [] -> n' = NMap (map_of n')).
Proof.
  revert n. induction es as [|[[k p] c] es IH]; intros n S ND D; cbn zeta.
  - cbn. repeat split; [exact S|lia|intros k p c []|intros H; contradiction].
  - cbn [fold_left keys_of] in *. inversion ND as [|? ? NI ND']; subst.
    assert (NF : map_find (map_of n) (k_text k) = None).
    { destruct (map_find (map_of n) (k_text k)) eqn:F; [|reflexivity]. exfalso. apply (D (k_text k)); [left; reflexivity|].
      apply (in_map fst) in F || (apply find_in in F; apply (in_map fst) in F; exact F). }
    assert (GK : get_key n (k_text k) = NNone) by (unfold get_key; rewrite NF; reflexivity). rewrite GK.
    set (n1 := set_key n (k_text k) (eval c NNone)).
    assert (M1 : map_of n1 = map_set (map_of n) (k_text k) (eval c NNone)) by reflexivity.
    assert (S1 : sorted (map_of n1)) by (rewrite M1; apply set_sorted; exact S).
    assert (D1 : forall j, In j (keys_of es) -> ~ In j (map fst (map_of n1))).
    { intros j J I. rewrite M1 in I. apply set_keys in I. destruct I as [->|I]; [exact (NI J)|]. apply (D j); [right; exact J|exact I]. }
    destruct (IH n1 S1 ND' D1) as (Q1 & Q2 & Q3 & Q4 & Q5). split; [exact Q1|]. split.
    { rewrite Q2, M1, set_len by exact S. rewrite NF. cbn. lia. }
    split; [|split].
    + intros j J. rewrite Q3 by (intros I; apply J; right; exact I). rewrite M1, find_set by exact S.
      rewrite str_eqb_neq; [reflexivity|]. intros E. apply J. left. exact E.
    + intros j q d [I|I]; [|exact (Q4 _ _ _ I)]. inversion I; subst. rewrite Q3 by exact NI. rewrite M1, find_set by exact S.
      rewrite str_eqb_refl. reflexivity.
    + intros _. destruct es as [|e es]; [reflexivity|]. apply Q5. discriminate.
Qed.

Lemma sorted_nil : sorted []. Proof. constructor. Qed.

Lemma eval_holds b d : doc_ok b d -> no_dup_keys d -> holds (eval d NNone) d.
Proof.
  revert b. induction d as [q v t|es IH|es IH] using doc_ind'; intros b D ND.
  - constructor; reflexivity.
  - destruct (ok_seq_inv _ _ D) as (NE & HC & _). inversion ND as [|? HN|]; subst.
    cbn [eval]. destruct es as [|[p0 c0] es]; [contradiction|]. cbn [fold_left].
    change (push_back NNone (eval c0 NNone)) with (NSeq [(0, eval c0 NNone)]).
    destruct (eval_seq_fold es [(0, eval c0 NNone)] ltac:(reflexivity)) as (m' & E & N' & L & K & G). rewrite E.
    constructor; [reflexivity|cbn in *; lia|]. intros i p c I.
    assert (J : exists j, nth_error m' i = Some (j, eval c NNone)).
    { destruct i as [|i]; [inversion I; subst; exists 0; apply K; reflexivity|]. destruct (G i p c I) as [j J]. exists j. exact J. }
    destruct J as [j J]. unfold get_index. cbn [seq_of]. rewrite (seq_find_num m' i _ N' J). cbn [snd].
    apply nth_error_In in I. eapply IH; eauto.
  - destruct (ok_map_inv _ _ D) as (NE & _ & HC & _). inversion ND as [| |? NK HN]; subst.
    cbn [eval]. destruct (eval_map_fold es NNone sorted_nil NK) as (Q1 & Q2 & Q3 & Q4 & Q5); [intros k _ []|].
    specialize (Q5 NE). cbn zeta in *. set (n' := fold_left _ es NNone) in *. clearbody n'. rewrite Q5 in *. cbn [map_of] in *.
    constructor; [reflexivity|cbn in *; exact Q2|]. intros k p c I. unfold get_key. cbn [map_of]. rewrite (Q4 _ _ _ I). eapply IH; eauto.
Qed.

(* ---------- every parsed tree is regular ---------- *)

Lemma regular_seq n : regular n -> numbered (seq_of n) /\ forall i x, In (i, x) (seq_of n) -> regular x.
Proof. intros H. inversion H; subst; cbn; (split; [try reflexivity; assumption|try (intros i x []); assumption]). Qed.
Lemma regular_map n : regular n -> sorted (map_of n) /\ forall k x, In (k, x) (map_of n) -> regular x.
Proof.
  intros H. inversion H; subst; cbn; (split; [try apply sorted_nil|try (intros k x []); try assumption]).
  apply increasing_sorted. assumption.
Qed.
Lemma regular_push n c : regular n -> regular c -> regular (push_back n c).
Proof.
  intros N C. destruct (regular_seq n N) as [A B]. constructor; [apply push_num; exact A|].
  intros i x I. apply in_app_or in I. destruct I as [I|[I|[]]]; [eapply B; exact I|inversion I; subst; exact C].
Qed.
Lemma regular_set n k c : regular n -> regular c -> regular (set_key n k c).
Proof.
  intros N C. destruct (regular_map n N) as [A B]. constructor; [apply increasing_sorted; apply set_sorted; exact A|].
  intros j x I. apply set_in in I. destruct I as [[_ ->]|I]; [exact C|eapply B; exact I].
Qed.
Lemma regular_get n k : regular n -> regular (get_key n k).
Proof.
  intros N. destruct (regular_map n N) as [_ B]. unfold get_key. destruct (map_find (map_of n) k) eqn:E; [|constructor].
  eapply B. apply find_in. exact E.
Qed.

Lemma parse_scalar_regular prev ls nd n p todo : parse_scalar prev ls nd = Ok (n, p, todo) -> regular nd -> regular n.
Proof.
  unfold parse_scalar. intros H R. destruct ls as [|l r]; [inversion H; subst; exact R|].
  destruct (block_scalar (l_data l)) as [b|]; [|discriminate]. cbn [rbind] in H. destruct b as [[k nl]|].
  - destruct r as [|l2 r]; [inversion H; subst; exact R|]. destruct (l_type l2); try (inversion H; subst; exact R).
    destruct (l_off l2 <=? _); [discriminate|]. destruct (block_text _ _ _ _ _ _ _) as [[[d o] t]|]; [|discriminate].
    inversion H; subst. constructor.
  - destruct (plain_scalar _ _ _) as [[[d o] t]|]; [|discriminate]. cbn [rbind] in H. destruct (validate_quote d); [|discriminate].
    inversion H; subst. constructor.
Qed.

Lemma parse_node_regular f prev ls nd n p todo : parse_node f prev ls nd = Ok (n, p, todo) -> regular nd -> regular n.
Proof.
  revert prev ls nd n p todo. induction f as [|f IH]; intros prev ls nd n p todo H R; [discriminate|].
  destruct ls as [|l r]; [inversion H; subst; exact R|]. cbn [parse_node] in H. destruct (l_type l).
  - inversion H; subst; exact R.
  - destruct r as [|l2 r]; [discriminate|].
    destruct (parse_node f (Some (l_off l)) (l2 :: r) NNone) as [[[c p'] t]|] eqn:E; [|discriminate]. cbn [rbind] in H.
    assert (RC : regular c) by (eapply IH; [exact E|constructor]). assert (R' := regular_push nd c R RC).
    destruct t as [|nx t]; [inversion H; subst; exact R'|].
    destruct (l_off nx <? l_off l); [inversion H; subst; exact R'|]. destruct (l_off l <? l_off nx); [discriminate|].
    destruct (l_type nx); try discriminate. eapply IH; [exact H|exact R'].
  - destruct r as [|l2 r]; [discriminate|].
    destruct (parse_node f (Some (l_off l)) (l2 :: r) (get_key nd (l_data l))) as [[[c p'] t]|] eqn:E; [|discriminate]. cbn [rbind] in H.
    assert (RC : regular c) by (eapply IH; [exact E|apply regular_get; exact R]). assert (R' := regular_set nd (l_data l) c R RC).
    destruct t as [|nx t]; [inversion H; subst; exact R'|].
    destruct (l_off nx <? l_off l); [inversion H; subst; exact R'|]. destruct (l_off l <? l_off nx); [discriminate|].
    destruct (l_type nx); try discriminate. eapply IH; [exact H|exact R'].
  - eapply parse_scalar_regular; eassumption.
Qed.

Lemma parse_regular text n : parse text = Ok n -> regular n.
Proof.
  unfold parse. destruct (read_lines _ _ _ _) as [ls|]; [|discriminate]. cbn [rbind]. destruct (post_process ls) as [out|]; [|discriminate].
  cbn [rbind]. unfold parse_root. destruct out as [|l out]; [intros H; inversion H; constructor|].
  destruct (parse_node _ None (l :: out) NNone) as [[[nd p] todo]|] eqn:E; [|discriminate]. cbn [rbind].
  destruct todo; [|discriminate]. intros H. inversion H; subst. eapply parse_node_regular; [exact E|constructor].
Qed.

(* ---------- the recursion bounds are never hit ---------- *)

Lemma read_lines_fuel ls ds ff acc : read_lines ls ds ff acc <> Err NoFuel.
Proof.
  revert ds ff acc. induction ls as [|l ls IH]; intros ds ff acc; cbn [read_lines]; [discriminate|].
  cbv zeta. destruct (negb ds && _); [apply IH|]. destruct (str_eqb _ _); [discriminate|]. destruct (str_eqb _ _); [discriminate|].
  unfold read_line. cbv zeta. destruct (forallb _ _); [|discriminate].
  destruct (find_if not_ws _) as [k|].
  - destruct (find_if (Ascii.eqb c_tab) _) as [t|]; [destruct (t <? k); [discriminate|]|];
    cbn [rbind]; (destruct (negb ff && _); apply IH).
  - cbn [rbind]. destruct (negb ff && _); apply IH.
Qed.

Lemma rbind_fuel {A B} (x : res A) (g : A -> res B) : x <> Err NoFuel -> (forall a, x = Ok a -> g a <> Err NoFuel) -> rbind x g <> Err NoFuel.
Proof. destruct x as [a|e]; cbn; intros H G; [apply G; reflexivity|congruence]. Qed.

Lemma pp_scalar_fuel go prev l rest : (forall p ls, List.length ls <= List.length rest -> go p ls <> Err NoFuel) ->
  pp_scalar go prev l rest <> Err NoFuel.
Proof.
  intros H. unfold pp_scalar. cbv zeta. pose proof (continuation_len (match prev with Some o => o | None => l_off l end) rest [] []) as L.
  destruct (continuation _ rest [] []) as [kept todo]. cbn in L. apply rbind_fuel; [apply H; exact L|discriminate].
Qed.
Lemma block_scalar_fuel d : block_scalar d <> Err NoFuel.
Proof.
  unfold block_scalar. destruct d as [|c r]; [discriminate|]. cbv zeta.
  destruct (if Ascii.eqb c "|" then Some Literal else if Ascii.eqb c ">" then Some Folded else None); [|discriminate].
  destruct r as [|c2 r]; [discriminate|]. destruct (_ || _); discriminate.
Qed.
Lemma pp_mapping_fuel go prev l rest : (forall p ls, List.length ls <= List.length rest -> go p ls <> Err NoFuel) ->
  pp_mapping go prev l rest <> Err NoFuel.
Proof.
  intros H. unfold pp_mapping. destruct (find_not_cited (l_data l) ":") as [[token|] qs]; [|apply pp_scalar_fuel; exact H].
  destruct (1 <? qs); [discriminate|]. apply rbind_fuel.
  { unfold map_key. destruct (find_last _ _); [|discriminate]. cbv zeta. destruct (Nat.eqb qs 1); [|discriminate].
    destruct (firstn _ _); [discriminate|]. destruct (_ && _); discriminate. }
  intros key _. cbv zeta. destruct (is_seq_start _); [discriminate|]. pose proof (clear_empty_len rest) as L.
  assert (G : forall p x, pp_scalar go p x (clear_empty rest) <> Err NoFuel).
  { intros p x. apply pp_scalar_fuel. intros q ls Q. apply H. lia. }
  destruct (find_at not_ws (l_data l) (token + 1)) as [v|].
  - apply rbind_fuel; [apply block_scalar_fuel|]. intros b _. apply rbind_fuel; [apply G|discriminate].
  - destruct (clear_empty rest) as [|nx r] eqn:E; [apply rbind_fuel; [apply G|discriminate]|].
    destruct (l_off l <? l_off nx); [apply rbind_fuel; [apply H; exact L|discriminate]|apply rbind_fuel; [apply G|discriminate]].
Qed.
Lemma pp_no_fuel f prev ls : List.length ls <= f -> pp f prev ls <> Err NoFuel.
Proof.
  revert prev ls. induction f as [|f IH]; intros prev ls L; [destruct ls; [discriminate|cbn in L; lia]|].
  destruct ls as [|l rest]; [discriminate|]. cbn [List.length] in L. cbn [pp]. pose proof (clear_empty_len rest) as CL.
  assert (M : forall p x r, List.length r <= List.length rest -> pp_mapping (pp f) p x r <> Err NoFuel).
  { intros p x r Lr. apply pp_mapping_fuel. intros q ls Lq. apply IH. lia. }
  destruct (is_seq_start (l_data l)); [|apply M; lia]. cbv zeta.
  destruct (find_at not_ws (l_data l) 1); apply rbind_fuel; try discriminate; [apply M; exact CL|apply IH; lia].
Qed.

Lemma plain_scalar_ok parent ls data : (forall d o t, plain_scalar parent ls data = Ok (d, o, t) -> List.length t <= List.length ls) /\
  plain_scalar parent ls data <> Err NoFuel.
Proof.
  revert data. induction ls as [|l r IH]; intros data; cbn [plain_scalar].
  - split; [intros d o t H; inversion H; cbn; lia|discriminate].
  - destruct (negb (Nat.eqb parent 0) && _); [split; [discriminate|discriminate]|]. cbv zeta.
    destruct (is_scalar_next r).
    + destruct (IH ((data ++ match find_last not_ws (l_data l) with Some e => firstn (S e) (l_data l) | None => [c_nl] end) ++ [c_sp])) as [A B].
      split; [|exact B]. intros d o t H. specialize (A d o t H). cbn. lia.
    + split; [|discriminate]. intros d o t H. inversion H; subst. cbn. lia.
Qed.
Lemma block_text_ok k nl boff ls data added prev :
  (forall d o t, block_text k nl boff ls data added prev = Ok (d, o, t) -> List.length t <= List.length ls) /\
  block_text k nl boff ls data added prev <> Err NoFuel.
Proof.
  revert data added prev. induction ls as [|l r IH]; intros data added prev; cbn [block_text].
  - split; [intros d o t H; inversion H; cbn; lia|discriminate].
  - assert (G : forall data added prev, (forall d o t, block_text k nl boff r data added prev = Ok (d, o, t) -> List.length t <= List.length (l :: r)) /\
      block_text k nl boff r data added prev <> Err NoFuel).
    { intros da ad pr. destruct (IH da ad pr) as [A B]. split; [|exact B]. intros d o t H. specialize (A d o t H). cbn. lia. }
    assert (W : (forall d o t, @Ok (str * nat * list rline) (data, prev, l :: r) = Ok (d, o, t) -> List.length t <= List.length (l :: r)) /\
      @Ok (str * nat * list rline) (data, prev, l :: r) <> Err NoFuel).
    { split; [|discriminate]. intros d o t H. inversion H; subst. lia. }
    destruct (l_type l); try exact W. destruct (find_last not_ws (l_data l)); [|apply G].
    destruct (l_off l <? boff); [split; discriminate|]. cbv zeta. destruct (is_scalar_next r).
    + destruct k; apply G.
    + split; [|discriminate]. intros d o t H. inversion H; subst. cbn. lia.
Qed.
Lemma parse_scalar_ok prev ls nd : (forall n p t, parse_scalar prev ls nd = Ok (n, p, t) -> List.length t <= List.length ls) /\
  parse_scalar prev ls nd <> Err NoFuel.
Proof.
  unfold parse_scalar. destruct ls as [|l r]; [split; [intros n p t H; inversion H; lia|discriminate]|].
  destruct (block_scalar (l_data l)) as [b|e] eqn:E; [|cbn [rbind]; split; [discriminate|]; pose proof (block_scalar_fuel (l_data l)); congruence].
  cbn [rbind]. destruct b as [[k nl]|].
  - destruct r as [|l2 r]; [split; [intros n p t H; inversion H; cbn; lia|discriminate]|].
    assert (W : (forall n p t, @Ok (node * option nat * list rline) (nd, Some (l_off l), l2 :: r) = Ok (n, p, t) -> List.length t <= List.length (l :: l2 :: r)) /\
      @Ok (node * option nat * list rline) (nd, Some (l_off l), l2 :: r) <> Err NoFuel).
    { split; [|discriminate]. intros n p t H. inversion H; subst. cbn. lia. }
    destruct (l_type l2); try exact W. destruct (l_off l2 <=? _); [split; discriminate|].
    destruct (block_text_ok k nl (l_off l2) (l2 :: r) [] false (l_off l)) as [A B].
    destruct (block_text k nl (l_off l2) (l2 :: r) [] false (l_off l)) as [[[d o] t]|e]; cbn [rbind].
    + split; [|discriminate]. intros n p t' H. inversion H; subst. specialize (A _ _ _ eq_refl). cbn in *. lia.
    + split; [discriminate|congruence].
  - destruct (plain_scalar_ok (match prev with Some o => o | None => 0 end) (l :: r) []) as [A B].
    destruct (plain_scalar _ (l :: r) []) as [[[d o] t]|e]; cbn [rbind].
    + destruct (validate_quote d); [|split; discriminate]. split; [|discriminate]. intros n p t' H. inversion H; subst. exact (A _ _ _ eq_refl).
    + split; [discriminate|congruence].
Qed.
Lemma parse_node_ok f prev ls nd : List.length ls < f ->
  (forall n p t, parse_node f prev ls nd = Ok (n, p, t) -> List.length t <= List.length ls) /\
  parse_node f prev ls nd <> Err NoFuel.
Proof.
  revert prev ls nd. induction f as [|f IH]; intros prev ls nd L; [lia|].
  destruct ls as [|l r]; [split; [intros n p t H; inversion H; cbn; lia|discriminate]|]. cbn [List.length] in L. cbn [parse_node].
  assert (D : forall a nd', r <> [] -> (forall c p' t, parse_node f (Some (l_off l)) r a = Ok (c, p', t) -> True) ->
     forall ty, let res := rbind (parse_node f (Some (l_off l)) r a) (fun '(child, p', todo) =>
        match todo with
        | [] => Ok (nd' child, p', todo)
        | nx :: _ => if l_off nx <? l_off l then Ok (nd' child, p', todo)
                     else if l_off l <? l_off nx then Err IncorrectOffset
                     else match l_type nx, ty with
                          | LSeq, LSeq => parse_node f p' todo (nd' child)
                          | LMap, LMap => parse_node f p' todo (nd' child)
                          | _, _ => Err DiffEntryNotAllowed end end) in
     (forall n p t, res = Ok (n, p, t) -> List.length t <= List.length (l :: r)) /\ res <> Err NoFuel).
  { intros a nd' NE _ ty. cbn zeta. destruct (IH (Some (l_off l)) r a ltac:(lia)) as [A B].
    destruct (parse_node f (Some (l_off l)) r a) as [[[c p'] t]|e]; cbn [rbind]; [|split; [discriminate|congruence]].
    specialize (A _ _ _ eq_refl).
    assert (W : forall z, List.length z <= List.length r -> (forall n p t, @Ok (node * option nat * list rline) (nd' c, p', z) = Ok (n, p, t) -> List.length t <= List.length (l :: r)) /\
      @Ok (node * option nat * list rline) (nd' c, p', z) <> Err NoFuel).
    { intros z Z. split; [|discriminate]. intros n p u H. inversion H; subst. cbn. lia. }
    destruct t as [|nx t]; [apply W; exact A|]. destruct (l_off nx <? l_off l); [apply W; exact A|].
    destruct (l_off l <? l_off nx); [split; discriminate|].
    destruct (IH p' (nx :: t) (nd' c) ltac:(lia)) as [A' B'].
    assert (W2 : (forall n p u, parse_node f p' (nx :: t) (nd' c) = Ok (n, p, u) -> List.length u <= List.length (l :: r)) /\
      parse_node f p' (nx :: t) (nd' c) <> Err NoFuel).
    { split; [|exact B']. intros n p u H. specialize (A' _ _ _ H). cbn in *. lia. }
    destruct (l_type nx), ty; try (split; discriminate); exact W2. }
  destruct (l_type l).
  - split; [|discriminate]. intros n p t H. inversion H; subst. cbn. lia.
  - destruct r as [|l2 r]; [split; discriminate|].
    pose proof (D NNone (push_back nd) ltac:(discriminate) ltac:(auto) LSeq) as E. cbn zeta in E.
    destruct (parse_node f (Some (l_off l)) (l2 :: r) NNone) as [[[c p'] t]|e]; exact E || (cbn [rbind] in *; destruct t as [|nx t]; [exact E|]; destruct (l_off nx <? l_off l); [exact E|]; destruct (l_off l <? l_off nx); [exact E|]; destruct (l_type nx); exact E).
  - destruct r as [|l2 r]; [split; discriminate|].
    pose proof (D (get_key nd (l_data l)) (set_key nd (l_data l)) ltac:(discriminate) ltac:(auto) LMap) as E. cbn zeta in E.
    destruct (parse_node f (Some (l_off l)) (l2 :: r) (get_key nd (l_data l))) as [[[c p'] t]|e]; exact E || (cbn [rbind] in *; destruct t as [|nx t]; [exact E|]; destruct (l_off nx <? l_off l); [exact E|]; destruct (l_off l <? l_off nx); [exact E|]; destruct (l_type nx); exact E).
  - apply parse_scalar_ok.
Qed.

Lemma parse_no_fuel text : parse text <> Err NoFuel.
Proof.
  unfold parse. apply rbind_fuel; [apply read_lines_fuel|]. intros ls _. apply rbind_fuel.
  - unfold post_process. apply rbind_fuel; [apply pp_no_fuel; lia|]. intros out _. destruct (rev out) as [|l r]; [discriminate|]. destruct (l_type l); discriminate.
  - intros out _. unfold parse_root. destruct out as [|l out]; [discriminate|].
    destruct (parse_node_ok (S (List.length (l :: out))) None (l :: out) NNone ltac:(lia)) as [_ B].
    apply rbind_fuel; [exact B|]. intros [[nd p] todo] _. destruct todo; discriminate.
Qed.
