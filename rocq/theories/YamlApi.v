(* The operations on nodes, and writing a tree as text. *)
From Coq Require Import List Ascii String Arith Bool Lia Sorting.Sorted.
From Verif Require Import YamlModel YamlSpec YamlProofs YamlPost YamlDoc YamlTree YamlLaws.
Import ListNotations.
Local Open Scope nat_scope.

(* ---------- keys ---------- *)

Lemma get_set_same n k x : regular n -> get_key (set_key n k x) k = x.
Proof.
  intros R. destruct (regular_map n R) as [S _]. unfold get_key, set_key. cbn [map_of]. rewrite find_set by exact S.
  rewrite str_eqb_refl. reflexivity.
Qed.
Lemma get_set_other n k x k' : regular n -> k <> k' -> get_key (set_key n k x) k' = get_key n k'.
Proof.
  intros R D. destruct (regular_map n R) as [S _]. unfold get_key, set_key. cbn [map_of]. rewrite find_set by exact S.
  rewrite str_eqb_neq by exact D. reflexivity.
Qed.
Lemma get_touch n k k' : regular n -> get_key (touch_key n k) k' = get_key n k'.
Proof.
  intros R. destruct (str_eqb k k') eqn:E.
  - apply str_eqb_eq in E. subst. apply get_set_same. exact R.
  - apply get_set_other; [exact R|]. intros ->. rewrite str_eqb_refl in E. discriminate.
Qed.
Lemma regular_touch n k : regular n -> regular (touch_key n k).
Proof. intros R. apply regular_set; [exact R|apply regular_get; exact R]. Qed.

Definition has_key (n : node) (k : str) : Prop := In k (map fst (map_of n)).

Lemma size_set n k x : regular n -> is_map n = true ->
  (has_key n k -> node_size (set_key n k x) = node_size n) /\
  (~ has_key n k -> node_size (set_key n k x) = S (node_size n)).
Proof.
  intros R M. destruct n as [| |m|]; try discriminate. destruct (regular_map _ R) as [S _]. cbn [map_of] in S. unfold has_key, set_key. cbn [node_size map_of].
  rewrite set_len by exact S. split; intros H.
  - destruct (find_some m k H) as [y ->]. reflexivity.
  - destruct (map_find m k) as [y|] eqn:E; [|reflexivity]. exfalso. apply H. apply find_in in E. apply (in_map fst) in E. exact E.
Qed.

Lemma filter_find p m k : map_find (filter (fun e : str * node => negb (str_eqb (fst e) p)) m) k = if str_eqb p k then None else map_find m k.
Proof.
  induction m as [|[j x] m IH]; cbn [filter map_find]; [destruct (str_eqb p k); reflexivity|].
  cbn [fst]. destruct (str_eqb j p) eqn:E; cbn [negb].
  - rewrite IH. apply str_eqb_eq in E. subst. destruct (str_eqb p k); reflexivity.
  - cbn [map_find]. rewrite IH. destruct (str_eqb j k) eqn:F; [|reflexivity]. apply str_eqb_eq in F. subst.
    rewrite str_eqb_neq; [reflexivity|]. intros ->. rewrite str_eqb_refl in E. discriminate.
Qed.
Lemma get_erase n k k' : is_map n = true -> get_key (erase_key n k) k' = if str_eqb k k' then NNone else get_key n k'.
Proof.
  destruct n as [| |m|]; try discriminate. intros _. unfold get_key, erase_key. cbn [map_of]. rewrite filter_find. destruct (str_eqb k k'); reflexivity.
Qed.
Lemma filter_sub (p : str * node -> bool) m : sorted m -> sorted (filter p m).
Proof.
  unfold sorted. induction m as [|[k x] m IH]; intros S; [constructor|]. cbn [map] in S. inversion S as [|? ? S' F]; subst. cbn [filter].
  destruct (p (k, x)); [|apply IH; exact S']. cbn. constructor; [apply IH; exact S'|]. rewrite Forall_forall in *. intros y Y. apply F.
  apply in_map_iff in Y. destruct Y as (z & <- & Z). apply filter_In in Z. apply in_map. exact (proj1 Z).
Qed.
Lemma regular_erase_key n k : regular n -> regular (erase_key n k).
Proof.
  intros R. destruct n as [| |m|]; try exact R. destruct (regular_map _ R) as [S H]. cbn [map_of] in *. cbn. constructor.
  - apply increasing_sorted. apply filter_sub. exact S.
  - intros j x I. apply filter_In in I. eapply H. exact (proj1 I).
Qed.

(* ---------- indices ---------- *)

Lemma seq_find_none m i : numbered m -> List.length m <= i -> seq_find m i = None.
Proof.
  unfold numbered. intros N L. assert (H : ~ In i (map fst m)) by (rewrite N, in_seq; lia). clear N L.
  induction m as [|[k x] m IH]; [reflexivity|]. cbn in *. replace (Nat.eqb k i) with false; [apply IH; tauto|].
  symmetry. apply Nat.eqb_neq. tauto.
Qed.
Lemma seq_find_app m1 m2 i : seq_find (m1 ++ m2) i = match seq_find m1 i with Some x => Some x | None => seq_find m2 i end.
Proof. induction m1 as [|[k x] m IH]; [reflexivity|]. cbn. destruct (Nat.eqb k i); [reflexivity|exact IH]. Qed.

Lemma get_push n c i : regular n -> get_index (push_back n c) i = if Nat.eqb (node_size (NSeq (seq_of n))) i then c else get_index n i.
Proof.
  intros R. destruct (regular_seq n R) as [N _]. unfold get_index, push_back. cbn [seq_of node_size]. rewrite seq_find_app, (next_num _ N).
  destruct (Nat.eqb (List.length (seq_of n)) i) eqn:E.
  - apply Nat.eqb_eq in E. subst. rewrite seq_find_none; [|exact N|lia]. cbn. rewrite Nat.eqb_refl. reflexivity.
  - destruct (seq_find (seq_of n) i); [reflexivity|]. cbn. rewrite E. reflexivity.
Qed.

Lemma seq_find_in m i x : seq_find m i = Some x -> In (i, x) m.
Proof.
  induction m as [|[k y] m IH]; [discriminate|]. cbn. destruct (Nat.eqb k i) eqn:E; [|intros H; right; apply IH; exact H].
  apply Nat.eqb_eq in E. subst. intros H. inversion H. left. reflexivity.
Qed.

(* overwriting or appending in a numbered sequence *)
Lemma seq_set_from s m k x : map fst m = seq s (List.length m) -> s <= k -> k <= s + List.length m ->
  map fst (seq_set m k x) = seq s (List.length (seq_set m k x)) /\
  List.length (seq_set m k x) = (if Nat.eqb k (s + List.length m) then S (List.length m) else List.length m).
Proof.
  revert s. induction m as [|[j y] m IH]; intros s H A B; cbn [seq_set].
  - cbn in *. replace k with s by lia. rewrite Nat.add_0_r, Nat.eqb_refl. split; reflexivity.
  - cbn in H. inversion H; subst. clear H. destruct (Nat.compare k s) eqn:C.
    + apply Nat.compare_eq in C. subst. cbn [List.length]. replace (Nat.eqb s (s + S (List.length m))) with false by (symmetry; apply Nat.eqb_neq; lia).
      split; [cbn; f_equal; assumption|reflexivity].
    + apply Nat.compare_lt_iff in C. lia.
    + apply Nat.compare_gt_iff in C. cbn [List.length] in B. destruct (IH (S s)) as [I1 I2]; [assumption|lia|lia|].
      cbn [map fst List.length seq]. rewrite I1 at 1. split; [reflexivity|]. rewrite I2. replace (S s + List.length m) with (s + S (List.length m)) by lia.
      destruct (Nat.eqb k (s + S (List.length m))); reflexivity.
Qed.
Lemma next_key_from s m k : map fst m = seq s (List.length m) -> s <= S k -> S k < s + List.length m -> next_key m k = Some (S k).
Proof.
  revert s. induction m as [|[j y] m IH]; intros s H A B; [cbn in B; lia|]. cbn in H. inversion H; subst. cbn [next_key].
  destruct (k <? s) eqn:E; [apply Nat.ltb_lt in E; f_equal; lia|]. apply Nat.ltb_ge in E. apply (IH (S s)); [assumption|lia|cbn in B; lia].
Qed.
Lemma numbered_find m k : numbered m -> k < List.length m -> exists x, seq_find m k = Some x.
Proof.
  intros N L. destruct (nth_error m k) as [x|] eqn:E; [|apply nth_error_None in E; lia]. exists (snd x). apply seq_find_num; assumption.
Qed.

Lemma push_front_runs f m k : numbered m -> k < List.length m -> push_front_loop f m (Some k) = None.
Proof.
  revert m k. induction f as [|f IH]; intros m k N L; [reflexivity|]. cbn [push_front_loop].
  destruct (numbered_find m k N L) as [x ->]. cbv zeta.
  destruct (seq_set_from 0 m (k + 1) x N ltac:(lia) ltac:(lia)) as [A B]. cbn in B.
  assert (LL : S k < List.length (seq_set m (k + 1) x)).
  { rewrite B. destruct (Nat.eqb (k + 1) (List.length m)) eqn:E; [lia|]. apply Nat.eqb_neq in E. lia. }
  rewrite (next_key_from 0 _ k A) by lia. apply IH; [exact A|exact LL].
Qed.
Lemma insert_runs f m k i : k <> i -> insert_loop f m k i = None.
Proof.
  intros D. revert m. induction f as [|f IH]; intros m; [reflexivity|]. cbn [insert_loop]. cbv zeta.
  replace (Nat.eqb k i) with false by (symmetry; apply Nat.eqb_neq; exact D). apply IH.
Qed.
Lemma seq_set_find m k x i : numbered m -> k <= List.length m ->
  seq_find (seq_set m k x) i = if Nat.eqb k i then Some x else seq_find m i.
Proof.
  unfold numbered. intros N L. assert (G : forall s, map fst m = seq s (List.length m) -> s <= k -> k <= s + List.length m ->
    seq_find (seq_set m k x) i = if Nat.eqb k i then Some x else seq_find m i).
  { clear N L. induction m as [|[j y] m IH]; intros s H A B; cbn [seq_set]; [cbn; destruct (Nat.eqb k i); reflexivity|].
    cbn in H. inversion H; subst. destruct (Nat.compare k s) eqn:C; cbn [seq_find].
    - apply Nat.compare_eq in C. subst. destruct (Nat.eqb s i); reflexivity.
    - destruct (Nat.eqb k i); reflexivity.
    - apply Nat.compare_gt_iff in C. rewrite (IH (S s)); [|assumption|lia|cbn in B; lia].
      destruct (Nat.eqb s i) eqn:E; [|reflexivity]. apply Nat.eqb_eq in E. subst.
      replace (Nat.eqb k i) with false; [reflexivity|]. symmetry. apply Nat.eqb_neq. lia. }
  apply (G 0); [exact N|lia|lia].
Qed.

(* ---------- copies ---------- *)

Lemma node_ind' (P : node -> Prop) :
  P NNone -> (forall v, P (NScalar v)) ->
  (forall m, (forall i x, In (i, x) m -> P x) -> P (NSeq m)) ->
  (forall m, (forall k x, In (k, x) m -> P x) -> P (NMap m)) ->
  forall n, P n.
Proof.
  intros HN HV HS HM. fix F 1. intros [|m|m|v].
  - exact HN.
  - apply HS. induction m as [|[i x] m IH]; intros j y I; [destruct I|]. destruct I as [I|I]; [|exact (IH j y I)].
    pose proof (F x) as G. assert (E : x = y) by congruence. rewrite <- E. exact G.
  - apply HM. induction m as [|[i x] m IH]; intros j y I; [destruct I|]. destruct I as [I|I]; [|exact (IH j y I)].
    pose proof (F x) as G. assert (E : x = y) by congruence. rewrite <- E. exact G.
  - apply HV.
Qed.

Fixpoint copy_seq (l : list (nat * node)) (to : node) : node :=
  match l with [] => to | (_, x) :: r => copy_seq r (push_back to (copy_node x)) end.
Fixpoint copy_map (l : list (str * node)) (to : node) : node :=
  match l with [] => to | (k, x) :: r => copy_map r (set_key to k (copy_node x)) end.
Lemma copy_seq_eq m : copy_node (NSeq m) = copy_seq m NNone.
Proof. cbn [copy_node]. generalize NNone. induction m as [|[i x] m IH]; intros to; [reflexivity|]. cbn [copy_seq]. apply IH. Qed.
Lemma copy_map_eq m : copy_node (NMap m) = copy_map m NNone.
Proof. cbn [copy_node]. generalize NNone. induction m as [|[i x] m IH]; intros to; [reflexivity|]. cbn [copy_map]. apply IH. Qed.

Lemma map_set_end m k x : Forall (fun j => klt j k) (map fst m) -> map_set m k x = m ++ [(k, x)].
Proof.
  induction m as [|[j y] m IH]; intros F; [reflexivity|]. inversion F; subst. cbn [map_set app].
  rewrite str_cmp_opp, H1. cbn. rewrite IH by assumption. reflexivity.
Qed.

Lemma copy_solid n : regular n -> solid n -> copy_node n = n.
Proof.
  induction n as [|v|m IH|m IH] using node_ind'; intros R S; try reflexivity.
  - rewrite copy_seq_eq. inversion S as [| |? NE HS|]; subst. destruct (regular_seq _ R) as [N HR]. cbn [seq_of] in *.
    assert (G : forall l done, numbered (done ++ l) -> (forall i x, In (i, x) l -> copy_node x = x) ->
      forall to, seq_of to = done -> (done = [] -> l <> []) -> (done <> [] -> to = NSeq done) -> copy_seq l to = NSeq (done ++ l)).
    { induction l as [|[i x] l IHl]; intros done Nd Hl to T D0 D1.
      - rewrite app_nil_r. cbn. destruct done; [destruct (D0 eq_refl eq_refl)|]. apply D1. discriminate.
      - cbn [copy_seq]. rewrite (Hl i x) by (left; reflexivity).
        assert (ND : numbered done).
        { unfold numbered in *. rewrite map_app, app_length, seq_app in Nd. apply (f_equal (firstn (List.length done))) in Nd.
          rewrite !firstn_app in Nd. rewrite map_length, seq_length, Nat.sub_diag in Nd. cbn in Nd. rewrite !app_nil_r in Nd.
          rewrite firstn_all2 in Nd by (rewrite map_length; lia). rewrite firstn_all2 in Nd by (rewrite seq_length; lia). exact Nd. }
        assert (NI : i = List.length done).
        { unfold numbered in Nd. rewrite map_app, app_length, seq_app, ND in Nd. apply app_inv_head in Nd. cbn in Nd. inversion Nd. reflexivity. }
        rewrite (IHl (done ++ [(i, x)])).
        + rewrite <- app_assoc. reflexivity.
        + rewrite <- app_assoc. exact Nd.
        + intros j y I. apply (Hl j y). right. exact I.
        + unfold push_back. cbn [seq_of]. rewrite T, (next_num _ ND), NI. reflexivity.
        + intros E. apply app_eq_nil in E. destruct E as [_ E]. discriminate E.
        + intros _. unfold push_back. rewrite T, (next_num _ ND), NI. reflexivity. }
    apply (G m [] N); [|reflexivity|intros _; exact NE|intros K; contradiction].
    intros i x I. eapply IH; [exact I|eapply HR; exact I|eapply HS; exact I].
  - rewrite copy_map_eq. inversion S as [| | |? NE HS]; subst. destruct (regular_map _ R) as [N HR]. cbn [map_of] in *.
    assert (G : forall l done, sorted (done ++ l) -> (forall i x, In (i, x) l -> copy_node x = x) ->
      forall to, map_of to = done -> (done = [] -> l <> []) -> (done <> [] -> to = NMap done) -> copy_map l to = NMap (done ++ l)).
    { induction l as [|[i x] l IHl]; intros done Nd Hl to T D0 D1.
      - rewrite app_nil_r. cbn. destruct done; [destruct (D0 eq_refl eq_refl)|]. apply D1. discriminate.
      - cbn [copy_map]. rewrite (Hl i x) by (left; reflexivity).
        assert (FL : Forall (fun j => klt j i) (map fst done)).
        { clear -Nd. unfold sorted in Nd. induction done as [|[j y] done IHd]; [constructor|]. cbn in Nd. inversion Nd as [|? ? S F]; subst.
          constructor; [|apply IHd; exact S]. rewrite Forall_forall in F. apply F. rewrite map_app. apply in_or_app. right. left. reflexivity. }
        rewrite (IHl (done ++ [(i, x)])).
        + rewrite <- app_assoc. reflexivity.
        + rewrite <- app_assoc. exact Nd.
        + intros j y I. apply (Hl j y). right. exact I.
        + unfold set_key. cbn [map_of]. rewrite T. apply map_set_end. exact FL.
        + intros E. apply app_eq_nil in E. destruct E as [_ E]. discriminate E.
        + intros _. unfold set_key. rewrite T, map_set_end by exact FL. reflexivity. }
    apply (G m [] N); [|reflexivity|intros _; exact NE|intros K; contradiction].
    intros i x I. eapply IH; [exact I|eapply HR; exact I|eapply HS; exact I].
Qed.

Lemma copy_regular n : regular (copy_node n).
Proof.
  induction n as [|v|m IH|m IH] using node_ind'; try constructor.
  - rewrite copy_seq_eq. assert (G : forall l, (forall i x, In (i, x) l -> regular (copy_node x)) -> forall to, regular to -> regular (copy_seq l to)).
    { induction l as [|[i x] l IHl]; intros H to T; [exact T|]. cbn [copy_seq]. apply IHl; [intros j y J; apply (H j y); right; exact J|].
      apply regular_push; [exact T|apply (H i x); left; reflexivity]. }
    apply G; [exact IH|constructor].
  - rewrite copy_map_eq. assert (G : forall l, (forall i x, In (i, x) l -> regular (copy_node x)) -> forall to, regular to -> regular (copy_map l to)).
    { induction l as [|[i x] l IHl]; intros H to T; [exact T|]. cbn [copy_map]. apply IHl; [intros j y J; apply (H j y); right; exact J|].
      apply regular_set; [exact T|apply (H i x); left; reflexivity]. }
    apply G; [exact IH|constructor].
Qed.
