(** Proofs about the 3D staggered-grid solver. *)
From Coq Require Import Permutation.
From Verif Require Import BaseReal BaseArr GeomModel GeomSpec GeomProofs SghModel SghSpec.
Local Open Scope R_scope.

(** ** Corner connectivity *)

Lemma elem_corners_in ne nn e l : In (e, l) (elem_corners ne nn) <-> (e < ne /\ l < nn)%nat.
Proof.
  unfold elem_corners. rewrite in_flat_map. split.
  - intros (e' & He & H). apply in_map_iff in H. destruct H as (l' & E & Hl). inversion E; subst.
    apply in_seq in He, Hl. lia.
  - intros [He Hl]. exists e. split; [apply in_seq; lia|]. apply in_map_iff. exists l. split; [easy|apply in_seq; lia].
Qed.

Lemma NoDup_flat_map_pairs {B} (ls : list nat) (f : nat -> list B) :
  NoDup ls -> (forall e, NoDup (f e)) -> NoDup (flat_map (fun e => map (fun l => (e, l)) (f e)) ls).
Proof.
  induction 1 as [|e ls Hn Hd IH]; intros Hf; simpl; [constructor|].
  assert (G : forall l1 l2 : list (nat * B), NoDup l1 -> NoDup l2 -> (forall x, In x l1 -> In x l2 -> False) -> NoDup (l1 ++ l2)).
  { induction 1 as [|x l1 Hx Hl1 IH1]; intros H2 Hdis; simpl; [assumption|]. constructor.
    - rewrite in_app_iff. intros [H|H]; [tauto|]. apply (Hdis x); [left; easy|easy].
    - apply IH1; [assumption|]. intros y Hy. apply Hdis. right; easy. }
  apply G.
  - apply FinFun.Injective_map_NoDup; [|apply Hf]. intros a b E. inversion E. easy.
  - apply IH, Hf.
  - intros [e' l'] H1 H2. apply in_map_iff in H1. destruct H1 as (l1 & E1 & _). inversion E1; subst.
    apply in_flat_map in H2. destruct H2 as (e2 & He2 & H2). apply in_map_iff in H2. destruct H2 as (l2 & E2 & _).
    inversion E2; subst. tauto.
Qed.

Lemma elem_corners_nodup ne nn : NoDup (elem_corners ne nn).
Proof. apply (NoDup_flat_map_pairs (seq 0 ne) (fun _ => seq 0 nn)); [|intros _]; apply seq_NoDup. Qed.

Section Build.
Variables (nnodes ne nn : nat) (nodes : nat -> nat -> nat).
Let key (p : nat * nat) : nat := nodes (fst p) (snd p).
Let gid (p : nat * nat) : nat := (snd p + fst p * nn)%nat.
Let at_node (n : nat) (l : list (nat * nat)) := filter (fun p => Nat.eqb (key p) n) l.

Lemma count_loop l done cnt :
  (forall n, cnt n = length (at_node n done)) ->
  (forall p, In p l -> (key p < nnodes)%nat) ->
  exists cnt', for_each l (fun '(e, l) cnt => if Nat.ltb (nodes e l) nnodes
                 then Some (fupd cnt (nodes e l) (cnt (nodes e l) + 1)%nat) else None) cnt = Some cnt' /\
  forall n, cnt' n = length (at_node n (done ++ l)).
Proof.
  revert done cnt. induction l as [|[e k] l IH]; intros done cnt Hc Hr; cbn [for_each].
  - exists cnt. split; [easy|]. intros n. rewrite app_nil_r. apply Hc.
  - assert (Hk := Hr (e, k) (or_introl eq_refl)). unfold key in Hk. cbn [fst snd] in Hk.
    apply Nat.ltb_lt in Hk. rewrite Hk. cbn [obind].
    destruct (IH (done ++ [(e, k)]) (fupd cnt (nodes e k) (cnt (nodes e k) + 1)%nat)) as (c' & E & H').
    + intros n. unfold at_node. rewrite filter_app, app_length. cbn [filter]. unfold key at 2. cbn [fst snd].
      unfold fupd. rewrite (Nat.eqb_sym n). destruct (Nat.eqb_spec (nodes e k) n) as [->|Hn]; cbn [length];
      rewrite Hc; unfold at_node; lia.
    + intros p Hp. apply Hr. right; easy.
    + exists c'. split; [exact E|]. intros n. rewrite H', <- app_assoc. easy.
Qed.

Lemma fill_loop stride l done cin saved cie :
  (forall n, saved n = length (at_node n done)) ->
  (forall n, map (cin n) (seq 0 (saved n)) = map gid (at_node n done)) ->
  (forall e k, In (e, k) done -> cie e k = gid (e, k)) ->
  (forall p, In p l -> (key p < nnodes)%nat) ->
  (forall n, stride n = length (at_node n (done ++ l))) ->
  exists cin' saved' cie', for_each l (fun '(e, l) '(cin, saved, cie) =>
       let n := nodes e l in
       let j := saved n in
       if Nat.ltb n nnodes && Nat.ltb j (stride n) then
         let corner_gid := (l + e * nn)%nat in
         Some (fupd2 cin n j corner_gid, fupd saved n (saved n + 1)%nat, fupd2 cie e l corner_gid)
       else None) (cin, saved, cie) = Some (cin', saved', cie') /\
  (forall n, saved' n = length (at_node n (done ++ l))) /\
  (forall n, map (cin' n) (seq 0 (saved' n)) = map gid (at_node n (done ++ l))) /\
  (forall e k, In (e, k) (done ++ l) -> cie' e k = gid (e, k)).
Proof.
  revert done cin saved cie. induction l as [|[e k] l IH]; intros done cin saved cie Hs Hc He Hr Hst; cbn [for_each].
  - exists cin, saved, cie. rewrite app_nil_r. repeat split; auto.
  - assert (Hk := Hr (e, k) (or_introl eq_refl)). unfold key in Hk. cbn [fst snd] in Hk.
    assert (Hj : (saved (nodes e k) < stride (nodes e k))%nat).
    { rewrite Hs, Hst. unfold at_node. rewrite filter_app, app_length. cbn [filter]. unfold key at 3. cbn [fst snd].
      rewrite Nat.eqb_refl. cbn [length]. lia. }
    cbv zeta. rewrite (proj2 (Nat.ltb_lt _ _) Hk), (proj2 (Nat.ltb_lt _ _) Hj). cbn [andb obind].
    destruct (IH (done ++ [(e, k)]) (fupd2 cin (nodes e k) (saved (nodes e k)) (k + e * nn)%nat)
                 (fupd saved (nodes e k) (saved (nodes e k) + 1)%nat) (fupd2 cie e k (k + e * nn)%nat))
      as (c' & s' & e' & E & H1 & H2 & H3).
    + intros n. unfold at_node. rewrite filter_app, app_length. cbn [filter]. unfold key at 2. cbn [fst snd].
      unfold fupd. rewrite (Nat.eqb_sym n). destruct (Nat.eqb_spec (nodes e k) n) as [->|Hn]; cbn [length];
      rewrite Hs; unfold at_node; lia.
    + intros n. unfold at_node. rewrite filter_app, map_app. cbn [filter]. unfold key at 2. cbn [fst snd].
      unfold fupd. rewrite (Nat.eqb_sym n). destruct (Nat.eqb_spec (nodes e k) n) as [->|Hn].
      * rewrite seq_app, map_app. cbn [seq map Nat.add]. f_equal.
        -- transitivity (map (cin n) (seq 0 (saved n))); [|apply Hc]. apply map_ext_in. intros j Hj'. apply in_seq in Hj'. unfold fupd2.
           replace (Nat.eqb j (saved n)) with false by (symmetry; apply Nat.eqb_neq; lia). now rewrite andb_false_r.
        -- unfold fupd2. now rewrite !Nat.eqb_refl.
      * rewrite app_nil_r. transitivity (map (cin n) (seq 0 (saved n))); [|apply Hc]. apply map_ext_in. intros j _. unfold fupd2.
        now rewrite (proj2 (Nat.eqb_neq n (nodes e k))) by auto.
    + intros e0 k0 Hin. unfold fupd2. destruct (Nat.eqb_spec e0 e) as [->|]; [destruct (Nat.eqb_spec k0 k) as [->|]|];
      cbn [andb]; [easy| |]; apply in_app_or in Hin; destruct Hin as [Hin|[Hin|[]]]; try (now apply He); inversion Hin; congruence.
    + intros p Hp. apply Hr. right; easy.
    + intros n. rewrite Hst, <- app_assoc. easy.
    + exists c', s', e'. rewrite <- app_assoc in H1, H2, H3. split; [exact E|]. auto.
Qed.

Lemma build_corners_some : table_in_range nnodes ne nn nodes ->
  exists m, build_corners nnodes ne nn nodes = Some m /\ num_nodes m = nnodes /\ num_elems m = ne /\ nodes_in m = nodes /\
    (forall e k, (e < ne)%nat -> (k < nn)%nat -> corners_in_elem m e k = (k + e * nn)%nat) /\
    (forall n, corners_in_node m n = map gid (at_node n (elem_corners ne nn))).
Proof.
  intros Hr.
  assert (Hr' : forall p, In p (elem_corners ne nn) -> (key p < nnodes)%nat).
  { intros [e l] Hp. apply elem_corners_in in Hp. apply Hr; tauto. }
  destruct (count_loop (elem_corners ne nn) [] (fun _ => O)) as (stride & E1 & Hst); [easy|exact Hr'|].
  destruct (fill_loop stride (elem_corners ne nn) [] (fun _ _ => O) (fun _ => O) (fun _ _ => O))
    as (cin & saved & cie & E2 & H1 & H2 & H3); try easy.
  change (count_corners nnodes ne nn nodes = Some stride) in E1.
  change (fill_corners nnodes ne nn nodes stride = Some (cin, saved, cie)) in E2.
  unfold build_corners. rewrite E1. cbn [obind]. rewrite E2. cbn [obind].
  eexists. split; [reflexivity|]. cbn [num_nodes num_elems nodes_in corners_in_elem corners_in_node].
  repeat split.
  - intros e k He Hk. rewrite (H3 e k); [easy|]. apply elem_corners_in. easy.
  - intros n. rewrite <- H2. f_equal. rewrite Hst, H1. easy.
Qed.
End Build.

Lemma build_corners_spec nnodes ne nn nodes : table_in_range nnodes ne nn nodes ->
  exists m, build_corners nnodes ne nn nodes = Some m /\ corners_ok nn m /\
    num_nodes m = nnodes /\ num_elems m = ne /\ nodes_in m = nodes /\
    (forall e k, (e < ne)%nat -> (k < nn)%nat -> corners_in_elem m e k = (e * nn + k)%nat).
Proof.
  intros Hr. destruct (build_corners_some nnodes ne nn nodes Hr) as (m & E & E1 & E2 & E3 & E4 & E5).
  { exists m. split; [exact E|]. rewrite <- and_assoc. split; [|repeat split; auto; intros; rewrite E4; auto; lia].
      split; [|auto].
      assert (Hg : forall e l e' l', (l < nn)%nat -> (l' < nn)%nat -> (l + e * nn = l' + e' * nn)%nat -> e = e' /\ l = l').
      { clear. intros. assert (e = e') by nia. subst. lia. }
      constructor.
      - rewrite E1, E2, E3. exact Hr.
      - intros e l e' l' He Hl He' Hl'. rewrite E2 in *. rewrite !E4 by auto. apply Hg; auto.
      - intros n. rewrite E5.
        assert (G : NoDup (filter (fun p => (nodes (fst p) (snd p) =? n)%nat) (elem_corners ne nn)))
          by (apply NoDup_filter, elem_corners_nodup).
        assert (H : forall p, In p (filter (fun p => (nodes (fst p) (snd p) =? n)%nat) (elem_corners ne nn)) -> (snd p < nn)%nat).
        { intros [e l] H. apply filter_In in H. destruct H as [H _]. apply elem_corners_in in H. simpl. tauto. }
        revert G H. generalize (filter (fun p => (nodes (fst p) (snd p) =? n)%nat) (elem_corners ne nn)). clear - Hg.
        induction 1 as [|p l Hp Hl IH]; intros H; simpl; constructor.
        + rewrite in_map_iff. intros ([e' l'] & E & Hin). destruct p as [e k]. simpl in E.
          assert (A := H _ (or_introl eq_refl)). assert (B := H _ (or_intror Hin)). simpl in A, B.
          destruct (Hg e' l' e k B A) as [-> ->]; [lia|]. tauto.
        + apply IH. intros q Hq. apply H. right; easy.
      - intros n c. rewrite E5, in_map_iff. split.
        + intros ([e l] & <- & H). apply filter_In in H. destruct H as [H Hn]. apply elem_corners_in in H.
          exists e, l. rewrite E2, E3. apply Nat.eqb_eq in Hn. simpl in *. rewrite E4 by tauto. tauto.
        + intros (e & l & He & Hl & -> & Hn). rewrite E2 in He. exists (e, l). simpl. rewrite E4 by auto. split; [easy|].
          apply filter_In. split; [apply elem_corners_in; auto|]. rewrite E3 in Hn. apply Nat.eqb_eq. exact Hn. }
Qed.

(** ** Sums over corners *)

Lemma suml_filter {A} (h : A -> R) b l : suml h (filter b l) = suml (fun p => if b p then h p else 0) l.
Proof.
  induction l as [|a l IH]; [reflexivity|]. cbn [filter]. rewrite suml_cons. destruct (b a); rewrite ?suml_cons, IH; ring.
Qed.

Lemma suml_flat_map {A B} (h : B -> R) (f : A -> list B) l : suml h (flat_map f l) = suml (fun x => suml h (f x)) l.
Proof. induction l as [|a l IH]; [reflexivity|]. cbn [flat_map]. now rewrite suml_app, suml_cons, IH. Qed.

Lemma suml_by_key {A} (h : A -> R) (key : A -> nat) N l : (forall p, In p l -> (key p < N)%nat) ->
  sumn N (fun n => suml h (filter (fun p => Nat.eqb (key p) n) l)) = suml h l.
Proof.
  intros H. rewrite <- suml_seq.
  rewrite (suml_ext _ (fun n => suml (fun p => if Nat.eqb (key p) n then h p else 0) l)) by (intros; apply suml_filter).
  rewrite suml_exchange. apply suml_ext. intros p Hp. rewrite suml_seq.
  rewrite (sumn_ext _ _ (fun i => if Nat.eqb i (key p) then h p else 0)) by (intros; now rewrite Nat.eqb_sym).
  apply sumn_delta. auto.
Qed.

Lemma suml_elem_corners ne nn h : suml h (elem_corners ne nn) = sumn ne (fun e => sumn nn (fun l => h (e, l))).
Proof.
  unfold elem_corners. rewrite suml_flat_map, suml_seq. apply sumn_ext. intros e _. now rewrite suml_map, suml_seq.
Qed.

Lemma corners_perm nn m n : corners_ok nn m ->
  Permutation (corners_in_node m n)
    (map (fun p => corners_in_elem m (fst p) (snd p))
       (filter (fun p => Nat.eqb (nodes_in m (fst p) (snd p)) n) (elem_corners (num_elems m) nn))).
Proof.
  intros [Hr Hd Ho Hn]. apply NoDup_Permutation.
  - apply Ho.
  - assert (G : NoDup (filter (fun p => Nat.eqb (nodes_in m (fst p) (snd p)) n) (elem_corners (num_elems m) nn)))
      by (apply NoDup_filter, elem_corners_nodup).
    assert (H : forall p, In p (filter (fun p => Nat.eqb (nodes_in m (fst p) (snd p)) n) (elem_corners (num_elems m) nn))
                -> (fst p < num_elems m /\ snd p < nn)%nat).
    { intros [e l] H. apply filter_In in H. destruct H as [H _]. now apply elem_corners_in in H. }
    revert G H. generalize (filter (fun p => Nat.eqb (nodes_in m (fst p) (snd p)) n) (elem_corners (num_elems m) nn)).
    clear - Hd. induction 1 as [|p l Hp Hl IH]; intros H; simpl; constructor.
    + rewrite in_map_iff. intros ([e' l'] & E & Hin). destruct p as [e k]. simpl in E.
      destruct (H _ (or_introl eq_refl)) as [A1 A2]. destruct (H _ (or_intror Hin)) as [B1 B2]. simpl in *.
      destruct (Hd e' l' e k B1 B2 A1 A2 E) as [-> ->]. tauto.
    + apply IH. intros q Hq. apply H. right; easy.
  - intros c. rewrite Hn, in_map_iff. split.
    + intros (e & l & He & Hl & -> & E). exists (e, l). split; [easy|]. apply filter_In.
      split; [now apply elem_corners_in|]. now apply Nat.eqb_eq.
    + intros ([e l] & <- & H). apply filter_In in H. destruct H as [H E]. apply elem_corners_in in H.
      apply Nat.eqb_eq in E. exists e, l. simpl in *. tauto.
Qed.

Lemma node_corner_sum nn m (g : nat -> nat -> R) : corners_ok nn m ->
  sumn (num_nodes m) (fun n => suml (g n) (corners_in_node m n)) =
  sumn (num_elems m) (fun e => sumn nn (fun l => g (nodes_in m e l) (corners_in_elem m e l))).
Proof.
  intros Hok.
  transitivity (suml (fun p => g (nodes_in m (fst p) (snd p)) (corners_in_elem m (fst p) (snd p))) (elem_corners (num_elems m) nn));
    [|apply suml_elem_corners].
  rewrite <- (suml_by_key _ (fun p => nodes_in m (fst p) (snd p)) (num_nodes m)).
  - apply sumn_ext. intros n _. rewrite (suml_perm _ _ _ (corners_perm nn m n Hok)), suml_map.
    apply suml_ext. intros p Hp. apply filter_In in Hp. destruct Hp as [_ E]. apply Nat.eqb_eq in E. now rewrite E.
  - intros [e l] H. apply elem_corners_in in H. apply (ok_range _ _ Hok); tauto.
Qed.

(** sums over material points *)
Lemma suml_points L (h : nat * nat -> R) :
  suml h (points L) = sumn (num_mats L) (fun mat => sumn (num_mat_elems L mat) (fun sid => h (mat, sid))).
Proof.
  unfold points. rewrite suml_flat_map, suml_seq. apply sumn_ext. intros k _. now rewrite suml_map, suml_seq.
Qed.

Lemma points_in L mat sid : In (mat, sid) (points L) <-> (mat < num_mats L /\ sid < num_mat_elems L mat)%nat.
Proof.
  unfold points. rewrite in_flat_map. split.
  - intros (k & Hk & H). apply in_map_iff in H. destruct H as (l & E & Hl). inversion E; subst.
    apply in_seq in Hk, Hl. lia.
  - intros [Hk Hl]. exists mat. split; [apply in_seq; lia|]. apply in_map_iff. exists sid. split; [easy|apply in_seq; lia].
Qed.

Lemma points_nodup L : NoDup (points L).
Proof. apply (NoDup_flat_map_pairs (seq 0 (num_mats L)) (fun mat => seq 0 (num_mat_elems L mat))); [|intros]; apply seq_NoDup. Qed.

(** ** Masses *)

Lemma fold_left_flat_map {A B S} (F : S -> B -> S) (f : A -> list B) l s :
  fold_left F (flat_map f l) s = fold_left (fun s x => fold_left F (f x) s) l s.
Proof. revert s. induction l as [|a l IH]; intros s; [reflexivity|]. cbn [flat_map]. now rewrite fold_left_app, IH. Qed.

Lemma fold_left_map {A B S} (F : S -> B -> S) (f : A -> B) l s :
  fold_left F (map f l) s = fold_left (fun s x => F s (f x)) l s.
Proof. revert s. induction l as [|a l IH]; intros s; [reflexivity|]. cbn [map fold_left]. apply IH. Qed.

Lemma fold_left_ext {A S} (F G : S -> A -> S) l s : (forall s x, In x l -> F s x = G s x) -> fold_left F l s = fold_left G l s.
Proof.
  revert s. induction l as [|a l IH]; intros s H; [reflexivity|]. cbn [fold_left]. rewrite H by (left; easy).
  apply IH. intros; apply H; right; easy.
Qed.

Lemma setup_mass_list m L mass :
  setup_corner_mass m L mass =
  fold_left (fun cm p => fold_left (fun cm l =>
      fupd cm (corners_in_elem m (point_elem L p) l) (cm (corners_in_elem m (point_elem L p) l) + 1 / 8 * mass (fst p) (snd p)))
      (seq 0 8) cm) (points L) (fun _ => 0).
Proof.
  unfold setup_corner_mass, points, calc_corner_mass. rewrite fold_left_flat_map. apply fold_left_ext. intros cm mat _.
  now rewrite fold_left_map.
Qed.

Definition corner_total (m : mesh3) (cm : nat -> R) : R :=
  sumn (num_elems m) (fun e => sumn 8 (fun l => cm (corners_in_elem m e l))).

Lemma corner_total_fupd m cm e l v : corners_ok 8 m -> (e < num_elems m)%nat -> (l < 8)%nat ->
  corner_total m (fupd cm (corners_in_elem m e l) (cm (corners_in_elem m e l) + v)) = corner_total m cm + v.
Proof.
  intros Hok He Hl. unfold corner_total.
  rewrite (sumn_ext _ _ (fun e' => sumn 8 (fun l' => cm (corners_in_elem m e' l')) + (if Nat.eqb e' e then v else 0))).
  - rewrite sumn_plus, sumn_delta by auto. reflexivity.
  - intros e' He'. destruct (Nat.eqb_spec e' e) as [->|Hne].
    + rewrite (sumn_ext _ _ (fun l' => cm (corners_in_elem m e l') + (if Nat.eqb l' l then v else 0))).
      * rewrite sumn_plus, sumn_delta by auto. reflexivity.
      * intros l' Hl'. unfold fupd. destruct (Nat.eqb_spec l' l) as [->|Hn].
        -- now rewrite Nat.eqb_refl.
        -- rewrite (proj2 (Nat.eqb_neq _ _)); [ring|]. intros E. apply Hn. apply (ok_distinct _ _ Hok e l' e l); auto.
    + rewrite Rplus_0_r. apply sumn_ext. intros l' Hl'. unfold fupd. rewrite (proj2 (Nat.eqb_neq _ _)); [easy|].
      intros E. apply Hne. apply (ok_distinct _ _ Hok e' l' e l); auto.
Qed.

Lemma setup_mass_total m L mass : corners_ok 8 m -> layout_ok (num_elems m) L ->
  corner_total m (setup_corner_mass m L mass) = suml (fun p => mass (fst p) (snd p)) (points L).
Proof.
  intros Hok HL. rewrite setup_mass_list.
  assert (G : forall ps cm, (forall p, In p ps -> In p (points L)) ->
    corner_total m (fold_left (fun cm p => fold_left (fun cm l =>
      fupd cm (corners_in_elem m (point_elem L p) l) (cm (corners_in_elem m (point_elem L p) l) + 1 / 8 * mass (fst p) (snd p)))
      (seq 0 8) cm) ps cm) = corner_total m cm + suml (fun p => mass (fst p) (snd p)) ps).
  { induction ps as [|p ps IH]; intros cm Hin; [cbn [fold_left]; change (suml _ []) with 0; ring|]. cbn [fold_left]. rewrite IH by (intros; apply Hin; right; easy).
    rewrite suml_cons. assert (He : (point_elem L p < num_elems m)%nat) by (apply HL, Hin; left; easy).
    cbn [seq fold_left]. rewrite !corner_total_fupd by (auto; lia). lra. }
  rewrite G by auto. unfold corner_total. rewrite (sumn_ext _ _ (fun _ => 0)), sumn_0 by (intros; apply sumn_0). ring.
Qed.

Lemma node_mass_sum m cm : corners_ok 8 m -> sumn (num_nodes m) (calc_node_mass m cm) = corner_total m cm.
Proof.
  intros Hok. unfold corner_total. rewrite <- (node_corner_sum 8 m (fun _ c => cm c) Hok).
  apply sumn_ext. intros n _. unfold calc_node_mass. rewrite fold_left_suml. apply Rplus_0_l.
Qed.

Lemma setup_mass_ge m L mass : (forall p, In p (points L) -> 0 <= mass (fst p) (snd p)) ->
  forall c, 0 <= setup_corner_mass m L mass c.
Proof.
  intros Hm. rewrite setup_mass_list.
  assert (G : forall ps cm, (forall p, In p ps -> 0 <= mass (fst p) (snd p)) -> (forall c, 0 <= cm c) -> forall c,
    0 <= fold_left (fun cm p => fold_left (fun cm l =>
      fupd cm (corners_in_elem m (point_elem L p) l) (cm (corners_in_elem m (point_elem L p) l) + 1 / 8 * mass (fst p) (snd p)))
      (seq 0 8) cm) ps cm c).
  { induction ps as [|p ps IH]; intros cm Hp Hc; [exact Hc|]. cbn [fold_left]. apply IH; [intros; apply Hp; right; easy|].
    assert (Hp0 := Hp p (or_introl eq_refl)).
    assert (K : forall ls cm, (forall c, 0 <= cm c) -> forall c, 0 <= fold_left (fun cm l =>
      fupd cm (corners_in_elem m (point_elem L p) l) (cm (corners_in_elem m (point_elem L p) l) + 1 / 8 * mass (fst p) (snd p))) ls cm c).
    { induction ls as [|l ls IHl]; intros cm0 H0; [exact H0|]. cbn [fold_left]. apply IHl. intros c. unfold fupd.
      destruct (Nat.eqb c _); [|apply H0]. specialize (H0 (corners_in_elem m (point_elem L p) l)). lra. }
    apply K, Hc. }
  apply G; [auto|]. intros; lra.
Qed.

(** the mass at one corner is an eighth of all material mass in the element *)
Lemma setup_mass_corner m L mass e l : corners_ok 8 m -> layout_ok (num_elems m) L -> (e < num_elems m)%nat -> (l < 8)%nat ->
  setup_corner_mass m L mass (corners_in_elem m e l) =
  suml (fun p => if Nat.eqb (point_elem L p) e then 1 / 8 * mass (fst p) (snd p) else 0) (points L).
Proof.
  intros Hok HL He Hl. rewrite setup_mass_list.
  assert (G : forall ps cm, (forall p, In p ps -> In p (points L)) ->
    fold_left (fun cm p => fold_left (fun cm l =>
      fupd cm (corners_in_elem m (point_elem L p) l) (cm (corners_in_elem m (point_elem L p) l) + 1 / 8 * mass (fst p) (snd p)))
      (seq 0 8) cm) ps cm (corners_in_elem m e l) = cm (corners_in_elem m e l) +
      suml (fun p => if Nat.eqb (point_elem L p) e then 1 / 8 * mass (fst p) (snd p) else 0) ps).
  { induction ps as [|p ps IH]; intros cm Hin; [cbn [fold_left]; change (suml _ []) with 0; ring|]. cbn [fold_left]. rewrite IH by (intros; apply Hin; right; easy).
    rewrite suml_cons, <- Rplus_assoc. f_equal.
    assert (Hp : (point_elem L p < num_elems m)%nat) by (apply HL, Hin; left; easy).
    assert (K : forall ls cm, NoDup ls -> (forall k, In k ls -> (k < 8)%nat) -> fold_left (fun cm l =>
      fupd cm (corners_in_elem m (point_elem L p) l) (cm (corners_in_elem m (point_elem L p) l) + 1 / 8 * mass (fst p) (snd p))) ls cm
        (corners_in_elem m e l) = cm (corners_in_elem m e l) +
        (if Nat.eqb (point_elem L p) e && existsb (Nat.eqb l) ls then 1 / 8 * mass (fst p) (snd p) else 0)).
    { induction ls as [|k ls IHl]; intros cm0 Hnd Hk.
      { cbn [fold_left existsb]. rewrite andb_false_r. ring. }
      cbn [fold_left]. inversion Hnd as [|? ? Hk1 Hk2]; subst.
      rewrite IHl by (auto; intros; apply Hk; right; easy). cbn [existsb].
      assert (Hk0 : (k < 8)%nat) by (apply Hk; left; easy).
      destruct (Nat.eqb_spec (point_elem L p) e) as [E|E]; cbn [andb].
      - destruct (Nat.eqb_spec l k) as [->|Hlk]; cbn [orb].
        + rewrite E. unfold fupd. rewrite Nat.eqb_refl.
          replace (existsb (Nat.eqb k) ls) with false; [ring|]. symmetry. apply not_true_is_false. intros H.
          apply existsb_exists in H. destruct H as (y & Hy & E'). apply Nat.eqb_eq in E'. now subst.
        + f_equal. unfold fupd. rewrite (proj2 (Nat.eqb_neq _ _)); [easy|]. intros E'. apply Hlk.
          apply (ok_distinct _ _ Hok e l (point_elem L p) k); auto.
      - f_equal. unfold fupd. rewrite (proj2 (Nat.eqb_neq _ _)); [easy|]. intros E'. apply E.
        symmetry. apply (ok_distinct _ _ Hok e l (point_elem L p) k); auto. }
    rewrite K; [|apply seq_NoDup|intros k Hk; apply in_seq in Hk; lia].
    replace (existsb (Nat.eqb l) (seq 0 8)) with true; [now rewrite andb_true_r|]. symmetry. apply existsb_exists.
    exists l. split; [apply in_seq; lia|apply Nat.eqb_refl]. }
  rewrite G by auto. ring.
Qed.

Lemma node_mass_pos m L mass n : corners_ok 8 m -> layout_ok (num_elems m) L ->
  (forall p, In p (points L) -> 0 <= mass (fst p) (snd p)) ->
  (exists p l, In p (points L) /\ (l < 8)%nat /\ nodes_in m (point_elem L p) l = n /\ 0 < mass (fst p) (snd p)) ->
  0 < calc_node_mass m (setup_corner_mass m L mass) n.
Proof.
  intros Hok HL Hm (p & l & Hp & Hl & Hn & Hpos). unfold calc_node_mass. rewrite fold_left_suml, Rplus_0_l.
  assert (Hc : In (corners_in_elem m (point_elem L p) l) (corners_in_node m n)).
  { apply (ok_node _ _ Hok). exists (point_elem L p), l. repeat split; auto. }
  assert (G : forall ls, In (corners_in_elem m (point_elem L p) l) ls ->
     setup_corner_mass m L mass (corners_in_elem m (point_elem L p) l) <= suml (setup_corner_mass m L mass) ls).
  { induction ls as [|c ls IH]; [easy|]. intros [->|H]; rewrite suml_cons.
    - assert (0 <= suml (setup_corner_mass m L mass) ls); [|lra]. apply suml_nonneg. intros; now apply setup_mass_ge.
    - specialize (IH H). assert (0 <= setup_corner_mass m L mass c) by now apply setup_mass_ge. lra. }
  eapply Rlt_le_trans; [|apply G, Hc]. rewrite setup_mass_corner by auto.
  assert (K : forall ps, In p ps -> (forall q, In q ps -> 0 <= mass (fst q) (snd q)) ->
    1 / 8 * mass (fst p) (snd p) <= suml (fun q => if Nat.eqb (point_elem L q) (point_elem L p) then 1 / 8 * mass (fst q) (snd q) else 0) ps).
  { induction ps as [|q ps IH]; [easy|]. intros Hin H0. rewrite suml_cons.
    assert (B : 0 <= (if Nat.eqb (point_elem L q) (point_elem L p) then 1 / 8 * mass (fst q) (snd q) else 0)).
    { destruct (Nat.eqb _ _); [|lra]. assert (H1 := H0 q (or_introl eq_refl)). lra. }
    destruct Hin as [->|Hin].
    - rewrite Nat.eqb_refl. enough (0 <= suml (fun q => if Nat.eqb (point_elem L q) (point_elem L p) then 1 / 8 * mass (fst q) (snd q) else 0) ps) by lra.
      apply suml_nonneg. intros q Hq. cbv beta. destruct (Nat.eqb (point_elem L q) (point_elem L p)); [|apply Rle_refl]. assert (H1 := H0 q (or_intror Hq)). lra.
    - assert (H1 := IH Hin (fun q Hq => H0 q (or_intror Hq))).
      eapply Rle_trans; [exact H1|]. rewrite <- (Rplus_0_l (suml _ _)) at 1. apply Rplus_le_compat_r. exact B. }
  specialize (K (points L) Hp Hm). lra.
Qed.

(** ** Forces *)

Section FoldUpd.
Context {K : Type} (kc kd : K -> nat) (g : K -> R -> R).
Let F (f : nat -> nat -> R) (k : K) := fupd2 f (kc k) (kd k) (g k (f (kc k) (kd k))).

Lemma fold_upd_out keys f c d : (forall k, In k keys -> ~ (kc k = c /\ kd k = d)) -> fold_left F keys f c d = f c d.
Proof.
  revert f. induction keys as [|k keys IH]; intros f H; [reflexivity|]. cbn [fold_left].
  rewrite IH by (intros; apply H; right; easy). unfold F, fupd2.
  assert (Hk := H k (or_introl eq_refl)). destruct (Nat.eqb_spec c (kc k)), (Nat.eqb_spec d (kd k)); cbn [andb]; try easy.
  exfalso. apply Hk. split; congruence.
Qed.

Lemma fold_upd_in keys f k : NoDup keys -> In k keys ->
  (forall a b, In a keys -> In b keys -> kc a = kc b -> kd a = kd b -> a = b) ->
  fold_left F keys f (kc k) (kd k) = g k (f (kc k) (kd k)).
Proof.
  intros Hnd. revert f. induction Hnd as [|a keys Ha Hnd IH]; intros f Hin Hinj; [easy|]. cbn [fold_left].
  destruct Hin as [->|Hin].
  - rewrite fold_upd_out.
    + unfold F, fupd2. now rewrite !Nat.eqb_refl.
    + intros b Hb [E1 E2]. apply Ha. rewrite (Hinj k b); auto; [left; easy|right; easy].
  - rewrite IH; [|auto|intros; apply Hinj; auto; right; easy]. f_equal. unfold F, fupd2.
    destruct (Nat.eqb_spec (kc k) (kc a)), (Nat.eqb_spec (kd k) (kd a)); cbn [andb]; try easy.
    exfalso. apply Ha. rewrite <- (Hinj k a); auto; [right; easy|left; easy].
Qed.
End FoldUpd.

Lemma fold_left_pair {A S T} (F : S -> A -> S) (G : T -> A -> T) l s t :
  fold_left (fun st a => (F (fst st) a, G (snd st) a)) l (s, t) = (fold_left F l s, fold_left G l t).
Proof. revert s t. induction l as [|a l IH]; intros s t; [reflexivity|]. cbn [fold_left fst snd]. apply IH. Qed.

Section Force.
Variables (m : mesh3) (L : layout) (M : models).
Hypothesis Hok : corners_ok 8 m.

Definition cfF (s : sgh) mat sid (cf : nat -> nat -> R) (q : nat * nat) :=
  fupd2 cf (corners_in_elem m (elem_in_mat L mat sid) (fst q)) (snd q)
    (if s_eroded s mat sid then 0
     else cf (corners_in_elem m (elem_in_mat L mat sid) (fst q)) (snd q) + mat_corner_value m L M s mat sid (fst q) (snd q)).
Definition mcfF (s : sgh) mat sid (mcf : nat -> nat -> nat -> R) (q : nat * nat) :=
  fupd mcf mat (fupd2 (mcf mat) (corner_in_mat sid (fst q)) (snd q) (mat_corner_value m L M s mat sid (fst q) (snd q))).

Lemma elem_force_eq s mat sid cf mcf :
  elem_force m L M s mat sid (cf, mcf) =
  (fold_left (cfF s mat sid) (elem_corners 8 3) cf, fold_left (mcfF s mat sid) (elem_corners 8 3) mcf).
Proof.
  rewrite <- fold_left_pair. unfold elem_force, elem_corners. rewrite fold_left_flat_map. apply fold_left_ext.
  intros st l _. rewrite fold_left_map. apply fold_left_ext. intros [cf' mcf'] d _. unfold corner_write, cfF, mcfF. cbn [fst snd].
  destruct (s_eroded s mat sid); reflexivity.
Qed.

Lemma elem_force_cf_in s mat sid st l d : (elem_in_mat L mat sid < num_elems m)%nat -> (l < 8)%nat -> (d < 3)%nat ->
  fst (elem_force m L M s mat sid st) (corners_in_elem m (elem_in_mat L mat sid) l) d =
  if s_eroded s mat sid then 0 else fst st (corners_in_elem m (elem_in_mat L mat sid) l) d + mat_corner_value m L M s mat sid l d.
Proof.
  intros He Hl Hd. destruct st as [cf mcf]. rewrite elem_force_eq. cbn [fst]. unfold cfF.
  apply (fold_upd_in (fun q : nat * nat => corners_in_elem m (elem_in_mat L mat sid) (fst q)) snd
    (fun q x => if s_eroded s mat sid then 0 else x + mat_corner_value m L M s mat sid (fst q) (snd q))
    (elem_corners 8 3) cf (l, d)).
  - apply elem_corners_nodup.
  - now apply elem_corners_in.
  - intros [a1 a2] [b1 b2] Ha Hb E1 E2. apply elem_corners_in in Ha, Hb. cbn [fst snd] in *.
    destruct (ok_distinct _ _ Hok _ _ _ _ He (proj1 Ha) He (proj1 Hb) E1). congruence.
Qed.

Lemma elem_force_cf_out s mat sid st e l d : (elem_in_mat L mat sid < num_elems m)%nat -> (e < num_elems m)%nat ->
  e <> elem_in_mat L mat sid -> (l < 8)%nat ->
  fst (elem_force m L M s mat sid st) (corners_in_elem m e l) d = fst st (corners_in_elem m e l) d.
Proof.
  intros Hp He Hne Hl. destruct st as [cf mcf]. rewrite elem_force_eq. cbn [fst]. unfold cfF.
  apply (fold_upd_out (fun q : nat * nat => corners_in_elem m (elem_in_mat L mat sid) (fst q)) snd
    (fun q x => if s_eroded s mat sid then 0 else x + mat_corner_value m L M s mat sid (fst q) (snd q))).
  intros [a1 a2] Ha [E1 E2]. apply elem_corners_in in Ha. cbn [fst] in E1. apply Hne. symmetry.
  apply (ok_distinct _ _ Hok (elem_in_mat L mat sid) a1 e l); tauto.
Qed.

Lemma mcf_fold s mat sid qs mcf :
  fold_left (mcfF s mat sid) qs mcf mat =
    fold_left (fun f q => fupd2 f (corner_in_mat sid (fst q)) (snd q) (mat_corner_value m L M s mat sid (fst q) (snd q))) qs (mcf mat)
  /\ forall mat', mat' <> mat -> fold_left (mcfF s mat sid) qs mcf mat' = mcf mat'.
Proof.
  revert mcf. induction qs as [|q qs IH]; intros mcf; [split; [reflexivity|auto]|]. cbn [fold_left].
  destruct (IH (mcfF s mat sid mcf q)) as [H1 H2]. split.
  - rewrite H1. unfold mcfF at 1, fupd at 1. now rewrite Nat.eqb_refl.
  - intros mat' Hn. rewrite H2 by auto. unfold mcfF, fupd. now rewrite (proj2 (Nat.eqb_neq _ _)).
Qed.

Lemma elem_force_mcf_in s mat sid st l d : (l < 8)%nat -> (d < 3)%nat ->
  snd (elem_force m L M s mat sid st) mat (corner_in_mat sid l) d = mat_corner_value m L M s mat sid l d.
Proof.
  intros Hl Hd. destruct st as [cf mcf]. rewrite elem_force_eq. cbn [snd]. rewrite (proj1 (mcf_fold s mat sid _ mcf)).
  apply (fold_upd_in (fun q : nat * nat => corner_in_mat sid (fst q)) snd
    (fun q x => mat_corner_value m L M s mat sid (fst q) (snd q)) (elem_corners 8 3) (mcf mat) (l, d)).
  - apply elem_corners_nodup.
  - now apply elem_corners_in.
  - intros [a1 a2] [b1 b2] Ha Hb E1 E2. cbn [fst snd] in *. unfold corner_in_mat in E1. f_equal; lia.
Qed.

Lemma elem_force_mcf_out s mat sid st mat' sid' l d : (l < 8)%nat -> (mat', sid') <> (mat, sid) ->
  snd (elem_force m L M s mat sid st) mat' (corner_in_mat sid' l) d = snd st mat' (corner_in_mat sid' l) d.
Proof.
  intros Hl Hne. destruct st as [cf mcf]. rewrite elem_force_eq. cbn [snd]. destruct (mcf_fold s mat sid (elem_corners 8 3) mcf) as [H1 H2].
  destruct (Nat.eq_dec mat' mat) as [->|Hm]; [|now rewrite H2].
  rewrite H1. apply (fold_upd_out (fun q : nat * nat => corner_in_mat sid (fst q)) snd
    (fun q x => mat_corner_value m L M s mat sid (fst q) (snd q))).
  intros [a1 a2] Ha [E1 E2]. apply elem_corners_in in Ha. cbn [fst] in E1. unfold corner_in_mat in E1.
  apply Hne. f_equal. lia.
Qed.

Lemma tau_cauchy s mat sid i j : tau M s mat sid i j = cauchy M s (mat, sid) i j.
Proof. unfold tau, cauchy. cbn [fst snd]. destruct (decoupled M mat), (Nat.eqb i j); cbn [andb]; ring. Qed.

Lemma value_contribution s mat sid l d : mat_corner_value m L M s mat sid l d = contribution m L M s (mat, sid) l d.
Proof.
  unfold mat_corner_value, contribution, force_component. cbn [fst snd]. destruct (s_eroded s mat sid); [reflexivity|].
  rewrite !tau_cauchy. cbn [sumn]. unfold point_elem. cbn [fst snd]. ring.
Qed.

Lemma contribution_sum s p d : dissipation_balanced M -> sumn 8 (fun l => contribution m L M s p l d) = 0.
Proof.
  intros HM. unfold contribution. destruct (s_eroded s (fst p) (snd p)); [apply sumn_0|].
  rewrite sumn_scal, sumn_minus, HM.
  rewrite (sumn_exchange 8 3 (fun l k => elem_bmat m (s_x s) (point_elem L p) l k * cauchy M s p k d)).
  rewrite (sumn_ext 3 _ (fun _ => 0)); [rewrite sumn_0; ring|].
  intros k _. rewrite sumn_scal_r. unfold elem_bmat. rewrite bmat_closure. ring.
Qed.

(** the loop over materials, seen as one loop over material points *)
Lemma forces_ind (P : list (nat * nat) -> (nat -> nat -> R) * (nat -> nat -> nat -> R) -> Prop) s :
  P [] (fun _ _ => 0, s_mcforce s) ->
  (forall done mat sid rest st t f, points L = done ++ (mat, sid) :: rest -> t mat = s_stress s mat -> P done st ->
     P (done ++ [(mat, sid)]) (elem_force m L M (set_stress t (set_cforce f s)) mat sid st)) ->
  exists t f, forces_and_stress m L M s = set_stress t (set_cforce f s) /\ P (points L) f.
Proof.
  intros H0 HS. unfold forces_and_stress.
  set (body := fun s mat => update_stress L M mat (set_cforce (get_force m L M s mat (s_cforce s, s_mcforce s)) s)).
  assert (G : forall k, (k <= num_mats L)%nat -> exists t f,
    fold_left body (seq 0 k) (set_cforce (fun _ _ => 0, s_mcforce s) s) = set_stress t (set_cforce f s) /\
    (forall mat, (k <= mat)%nat -> t mat = s_stress s mat) /\
    P (flat_map (fun mat => map (fun sid => (mat, sid)) (seq 0 (num_mat_elems L mat))) (seq 0 k)) f).
  { induction k as [|k IH]; intros Hk.
    - exists (s_stress s), (fun _ _ => 0, s_mcforce s). cbn [seq fold_left flat_map]. repeat split; auto.
    - destruct (IH ltac:(lia)) as (t & f & E & Ht & HP).
      rewrite seq_S, fold_left_app, E. cbn [Nat.add fold_left].
      rewrite flat_map_app. cbn [flat_map]. rewrite app_nil_r.
      set (s1 := set_stress t (set_cforce f s)).
      set (pre := flat_map (fun mat => map (fun sid => (mat, sid)) (seq 0 (num_mat_elems L mat))) (seq 0 k)) in *.
      assert (GS : forall j, (j <= num_mat_elems L k)%nat ->
        P (pre ++ map (fun sid => (k, sid)) (seq 0 j))
          (fold_left (fun st sid => elem_force m L M s1 k sid st) (seq 0 j) (s_cforce s1, s_mcforce s1))).
      { induction j as [|j IHj]; intros Hj.
        - cbn [seq map fold_left]. rewrite app_nil_r. subst s1. cbn [s_cforce s_mcforce set_stress set_cforce].
          destruct f; exact HP.
        - rewrite seq_S, fold_left_app, map_app, app_assoc. cbn [Nat.add fold_left map].
          apply (HS _ k j (map (fun sid => (k, sid)) (seq (S j) (num_mat_elems L k - S j)) ++
                  flat_map (fun mat => map (fun sid => (mat, sid)) (seq 0 (num_mat_elems L mat))) (seq (S k) (num_mats L - S k)))).
          + unfold points. replace (num_mats L) with (k + S (num_mats L - S k))%nat at 1 by lia.
            rewrite seq_app, flat_map_app. cbn [Nat.add seq flat_map]. fold pre. rewrite <- app_assoc. f_equal.
            replace (num_mat_elems L k) with (j + S (num_mat_elems L k - S j))%nat at 1 by lia.
            rewrite seq_app, map_app. cbn [Nat.add seq map]. rewrite <- !app_assoc. reflexivity.
          + apply Ht. lia.
          + apply IHj. lia. }
      specialize (GS (num_mat_elems L k) (le_n _)).
      fold (get_force m L M s1 k (s_cforce s1, s_mcforce s1)) in GS.
      unfold body. unfold update_stress. destruct (increment_based M k).
      + exists (for_mat k (num_mat_elems L k) t (calc_stress M (set_cforce (get_force m L M s1 k (s_cforce s1, s_mcforce s1)) s1))),
          (get_force m L M s1 k (s_cforce s1, s_mcforce s1)).
        split; [reflexivity|]. split; [|exact GS]. intros mat Hmat. rewrite <- (Ht mat) by lia.
        unfold for_mat. replace (Nat.eqb mat k) with false; [reflexivity|]. symmetry. apply Nat.eqb_neq. lia.
      + exists t, (get_force m L M s1 k (s_cforce s1, s_mcforce s1)).
        split; [reflexivity|]. split; [|exact GS]. intros mat Hmat. apply Ht. lia. }
  destruct (G (num_mats L) (le_n _)) as (t & f & E & _ & HP). exists t, f. split; [exact E|exact HP].
Qed.
End Force.

(** *** order of the material points *)
From Coq Require Import Sorted.

Lemma ss_app {A} (Rl : A -> A -> Prop) l1 l2 : StronglySorted Rl l1 -> StronglySorted Rl l2 ->
  (forall x y, In x l1 -> In y l2 -> Rl x y) -> StronglySorted Rl (l1 ++ l2).
Proof.
  induction 1 as [|a l1 H1 IH Ha]; intros H2 H; [exact H2|]. simpl. constructor.
  - apply IH; auto. intros; apply H; auto. right; easy.
  - apply Forall_app. split; [exact Ha|]. apply Forall_forall. intros y Hy. apply H; [left|]; easy.
Qed.

Lemma ss_split {A} (Rl : A -> A -> Prop) l1 x l2 y : StronglySorted Rl (l1 ++ x :: l2) -> In y l1 -> Rl y x.
Proof.
  induction l1 as [|a l1 IH]; [easy|]. simpl. intros H. inversion H as [|? ? H1 H2]; subst. intros [->|Hy].
  - rewrite Forall_forall in H2. apply H2, in_or_app. right; left; easy.
  - now apply IH.
Qed.

Lemma ss_seq a n : StronglySorted lt (seq a n).
Proof.
  revert a. induction n as [|n IH]; intros a; cbn [seq]; constructor; auto.
  apply Forall_forall. intros x Hx. apply in_seq in Hx. lia.
Qed.

Lemma points_sorted L : StronglySorted before (points L).
Proof.
  unfold points. generalize (seq 0 (num_mats L)) (ss_seq 0 (num_mats L)).
  induction 1 as [|k ks Hs IH Hk]; [constructor|]. simpl. apply ss_app; [|exact IH|].
  - generalize (seq 0 (num_mat_elems L k)) (ss_seq 0 (num_mat_elems L k)). induction 1 as [|j js Hj IHj Hall]; simpl; constructor; auto.
    rewrite Forall_forall in *. intros p Hp. apply in_map_iff in Hp. destruct Hp as (i & <- & Hi). right. split; [easy|]. now apply Hall.
  - intros p q Hp Hq. apply in_map_iff in Hp. destruct Hp as (i & <- & Hi). apply in_flat_map in Hq.
    destruct Hq as (k' & Hk' & Hq). apply in_map_iff in Hq. destruct Hq as (i' & <- & _). left.
    rewrite Forall_forall in Hk. now apply Hk.
Qed.

Lemma points_split_before L done p rest q : points L = done ++ p :: rest -> In q done -> before q p.
Proof. intros E. apply (ss_split before done p rest q). rewrite <- E. apply points_sorted. Qed.

Section Force2.
Variables (m : mesh3) (L : layout) (M : models).
Hypothesis (Hok : corners_ok 8 m) (HL : layout_ok (num_elems m) L).

Lemma split_in (done rest : list (nat * nat)) p : points L = done ++ p :: rest -> In p (points L).
Proof. intros ->. apply in_or_app. right; left; easy. Qed.

Lemma split_notin (done rest : list (nat * nat)) p q : points L = done ++ p :: rest -> In q done -> q <> p.
Proof.
  intros E Hq ->. assert (H := points_nodup L). rewrite E in H. apply NoDup_remove_2 in H. apply H, in_or_app. left; easy.
Qed.

Lemma forces_balanced s e d : dissipation_balanced M -> (e < num_elems m)%nat -> (d < 3)%nat ->
  sumn 8 (fun l => s_cforce (forces_and_stress m L M s) (corners_in_elem m e l) d) = 0.
Proof.
  intros HM He Hd.
  destruct (forces_ind m L M (fun _ st => sumn 8 (fun l => fst st (corners_in_elem m e l) d) = 0) s) as (t & f & E & HP).
  - apply sumn_0.
  - intros done mat sid rest st t f E Ht IH. assert (Hp := HL _ (split_in _ _ _ E)). unfold point_elem in Hp. cbn [fst snd] in Hp.
    set (s' := set_stress t (set_cforce f s)). destruct (Nat.eq_dec e (elem_in_mat L mat sid)) as [->|Hne].
    + rewrite (sumn_ext 8 _ _ (fun l Hl => elem_force_cf_in m L M Hok s' mat sid st l d Hp Hl Hd)).
      destruct (s_eroded s' mat sid); [apply sumn_0|]. rewrite sumn_plus, IH.
      rewrite (sumn_ext 8 _ _ (fun l _ => value_contribution m L M s' mat sid l d)).
      rewrite contribution_sum by auto. ring.
    + rewrite <- IH. apply sumn_ext. intros l Hl. now apply elem_force_cf_out.
  - rewrite E. exact HP.
Qed.

Lemma forces_are_sums s e l d :
  (forall p q, In p (points L) -> In q (points L) -> before p q -> point_elem L p = point_elem L q -> s_eroded s (fst q) (snd q) = false) ->
  (e < num_elems m)%nat -> (l < 8)%nat -> (d < 3)%nat ->
  s_cforce (forces_and_stress m L M s) (corners_in_elem m e l) d =
  suml (fun p => if Nat.eqb (point_elem L p) e then s_mcforce (forces_and_stress m L M s) (fst p) (corner_in_mat (snd p) l) d else 0) (points L).
Proof.
  intros Hers He Hl Hd.
  destruct (forces_ind m L M (fun done st => fst st (corners_in_elem m e l) d =
    suml (fun p => if Nat.eqb (point_elem L p) e then snd st (fst p) (corner_in_mat (snd p) l) d else 0) done) s) as (t & f & E & HP).
  - reflexivity.
  - intros done mat sid rest st t f E Ht IH. assert (Hp := HL _ (split_in _ _ _ E)). unfold point_elem in Hp. cbn [fst snd] in Hp.
    set (s' := set_stress t (set_cforce f s)).
    rewrite suml_app, suml_cons. change (suml _ []) with 0.
    rewrite (suml_ext _ (fun p => if Nat.eqb (point_elem L p) e then snd st (fst p) (corner_in_mat (snd p) l) d else 0) done).
    2:{ intros [mat' sid'] Hq. destruct (Nat.eqb _ e); [|easy]. cbn [fst snd]. apply elem_force_mcf_out; auto.
        exact (split_notin _ _ _ _ E Hq). }
    unfold point_elem at 2. cbn [fst snd]. destruct (Nat.eqb_spec (elem_in_mat L mat sid) e) as [Ee|Hne].
    + subst e. rewrite elem_force_cf_in by auto. rewrite elem_force_mcf_in by auto.
      destruct (s_eroded s' mat sid) eqn:Eer.
      * assert (Ev : mat_corner_value m L M s' mat sid l d = 0) by (unfold mat_corner_value; now rewrite Eer).
        rewrite Ev, (suml_ext _ (fun _ => 0)), suml_0; [ring|].
        intros q Hq. destruct (Nat.eqb_spec (point_elem L q) (elem_in_mat L mat sid)) as [Eq|]; [|easy]. exfalso.
        assert (B := Hers q (mat, sid)). cbn [fst snd] in B. subst s'. cbn [s_eroded set_stress set_cforce] in Eer. rewrite Eer in B.
        assert (true = false); [|easy]. apply B; auto.
        -- rewrite E. apply in_or_app. left; easy.
        -- exact (split_in _ _ _ E).
        -- exact (points_split_before _ _ _ _ _ E Hq).
      * rewrite IH. ring.
    + rewrite elem_force_cf_out by auto. rewrite IH. ring.
  - rewrite E. exact HP.
Qed.

Lemma forces_contributions s p l d : dissipation_local M -> In p (points L) -> (l < 8)%nat -> (d < 3)%nat ->
  s_mcforce (forces_and_stress m L M s) (fst p) (corner_in_mat (snd p) l) d = contribution m L M s p l d.
Proof.
  intros HD Hp Hl Hd.
  destruct (forces_ind m L M (fun done st => In p done -> snd st (fst p) (corner_in_mat (snd p) l) d = contribution m L M s p l d) s) as (t & f & E & HP).
  - easy.
  - intros done mat sid rest st t f E Ht IH Hin. apply in_app_or in Hin. destruct Hin as [Hin|[<-|[]]].
    + assert (Hne := split_notin _ _ _ _ E Hin). destruct p as [mp sp]. cbn [fst snd] in *.
      rewrite elem_force_mcf_out by auto. auto.
    + cbn [fst snd]. rewrite elem_force_mcf_in, value_contribution by auto. unfold contribution. cbn [fst snd].
      cbn [s_eroded s_volfrac s_geo s_x set_stress set_cforce]. destruct (s_eroded s mat sid); [easy|].
      rewrite HD. do 2 f_equal. apply sumn_ext. intros k _. f_equal. unfold cauchy. cbn [fst snd s_stress s_pres set_stress set_cforce].
      rewrite Ht. reflexivity.
  - rewrite E. now apply HP.
Qed.
End Force2.

(** ** One stage *)

Definition before_forces (m : mesh3) (s : sgh) : sgh := set_velgrad (get_velgrad m (s_x s) (s_v s) (s_vol s)) s.

Ltac fields := cbn [s_x s_x0 s_v s_v0 s_nmass s_nforce s_cforce s_vol s_velgrad s_mcforce s_mass s_sie s_sie0 s_den s_pres
  s_sspd s_stress s_stress0 s_volfrac s_geo s_eroded set_velgrad set_cforce set_stress set_nforce set_v set_sie set_x set_vol
  set_den set_pres set_sspd set_eroded before_forces fst snd].

Definition end_fields (s t : sgh) : Prop :=
  s_x t = s_x s /\ s_x0 t = s_x0 s /\ s_v t = s_v s /\ s_v0 t = s_v0 s /\ s_nmass t = s_nmass s /\ s_nforce t = s_nforce s /\
  s_cforce t = s_cforce s /\ s_vol t = s_vol s /\ s_velgrad t = s_velgrad s /\ s_mcforce t = s_mcforce s /\ s_mass t = s_mass s /\
  s_sie t = s_sie s /\ s_sie0 t = s_sie0 s /\ s_stress0 t = s_stress0 s /\ s_volfrac t = s_volfrac s /\ s_geo t = s_geo s.

Lemma end_fields_trans s t u : end_fields s t -> end_fields t u -> end_fields s u.
Proof. unfold end_fields. intuition congruence. Qed.

Lemma update_state_fields L M mat s : end_fields s (update_state L M mat s).
Proof.
  unfold update_state.
  apply (end_fields_trans s (state_density L M mat s)); [repeat split|]. generalize (state_density L M mat s). clear s. intros s.
  apply (end_fields_trans s (state_pressure L M mat s)); [unfold state_pressure; destruct (decoupled M mat); repeat split|].
  generalize (state_pressure L M mat s). clear s. intros s.
  apply (end_fields_trans s (state_sspd L M mat s)); [unfold state_sspd; destruct (decoupled M mat); repeat split|].
  generalize (state_sspd L M mat s). clear s. intros s.
  apply (end_fields_trans s (state_stress L M mat s)); [unfold state_stress; destruct (state_based M mat); repeat split|].
  generalize (state_stress L M mat s). clear s. intros s.
  apply (end_fields_trans s (state_erode L M mat s)); [unfold state_erode; destruct (has_erosion M mat); repeat split|].
  generalize (state_erode L M mat s). clear s. intros s.
  unfold state_void; destruct (has_erosion M mat); repeat split.
Qed.

Lemma state_void_eroded L M mat s : s_eroded (state_void L M mat s) = s_eroded s.
Proof. unfold state_void. destruct (has_erosion M mat); reflexivity. Qed.
Lemma state_stress_eroded L M mat s : s_eroded (state_stress L M mat s) = s_eroded s.
Proof. unfold state_stress. destruct (state_based M mat); reflexivity. Qed.
Lemma state_sspd_eroded L M mat s : s_eroded (state_sspd L M mat s) = s_eroded s.
Proof. unfold state_sspd. destruct (decoupled M mat); reflexivity. Qed.
Lemma state_pressure_eroded L M mat s : s_eroded (state_pressure L M mat s) = s_eroded s.
Proof. unfold state_pressure. destruct (decoupled M mat); reflexivity. Qed.

Lemma update_states_fields L M mats s : end_fields s (fold_left (fun s mat => update_state L M mat s) mats s).
Proof.
  revert s. induction mats as [|k mats IH]; intros s; [repeat split|]. cbn [fold_left].
  assert (A := update_state_fields L M k s). assert (B := IH (update_state L M k s)).
  unfold end_fields in *. intuition congruence.
Qed.

Lemma update_states_eroded L M mats s mat sid : has_erosion M mat = false ->
  s_eroded (fold_left (fun s mat => update_state L M mat s) mats s) mat sid = s_eroded s mat sid.
Proof.
  intros H. revert s. induction mats as [|k mats IH]; intros s; [easy|]. cbn [fold_left]. rewrite IH.
  unfold update_state. rewrite state_void_eroded. unfold state_erode.
  destruct (has_erosion M k) eqn:Ek; [cbn [s_eroded set_eroded]; unfold for_mat at 1;
    (destruct (Nat.eqb_spec mat k) as [->|]; [congruence|cbn [andb]])|];
  rewrite state_stress_eroded, state_sspd_eroded, state_pressure_eroded; reflexivity.
Qed.

Lemma energies_spec m L alpha dt s : exists e, all_energies m L alpha dt s = set_sie e s /\
  forall p, In p (points L) -> e (fst p) (snd p) = update_energy m L alpha dt s (fst p) (snd p).
Proof.
  unfold all_energies.
  assert (G : forall k, exists e, fold_left (fun s mat => set_sie (for_mat mat (num_mat_elems L mat) (s_sie s) (update_energy m L alpha dt s)) s) (seq 0 k) s
     = set_sie e s /\ forall mat sid, (mat < k)%nat -> (sid < num_mat_elems L mat)%nat -> e mat sid = update_energy m L alpha dt s mat sid).
  { induction k as [|k (e & E & H)].
    - exists (s_sie s). split; [destruct s; reflexivity|]. intros; lia.
    - rewrite seq_S, fold_left_app, E. cbn [Nat.add fold_left].
      exists (for_mat k (num_mat_elems L k) e (update_energy m L alpha dt s)). split; [reflexivity|].
      intros mat sid Hm Hs. unfold for_mat. destruct (Nat.eqb_spec mat k) as [->|Hne]; cbn [andb].
      + now rewrite (proj2 (Nat.ltb_lt _ _) Hs).
      + apply H; [lia|auto]. }
  destruct (G (num_mats L)) as (e & E & H). exists e. split; [exact E|]. intros [mat sid] Hp. apply points_in in Hp. apply H; tauto.
Qed.

Lemma forces_form m L M s : exists t f, forces_and_stress m L M s = set_stress t (set_cforce f s).
Proof. destruct (forces_ind m L M (fun _ _ => True) s) as (t & f & E & _); auto. exists t, f. exact E. Qed.

Record stage_facts (m : mesh3) (L : layout) (M : models) (alpha dt : R) (s t : sgh) : Prop := mk_stage_facts {
  sf_const : s_x0 t = s_x0 s /\ s_v0 t = s_v0 s /\ s_nmass t = s_nmass s /\ s_mass t = s_mass s /\ s_sie0 t = s_sie0 s /\
             s_stress0 t = s_stress0 s /\ s_volfrac t = s_volfrac s /\ s_geo t = s_geo s;
  sf_cforce : s_cforce t = s_cforce (forces_and_stress m L M (before_forces m s));
  sf_mcforce : s_mcforce t = s_mcforce (forces_and_stress m L M (before_forces m s));
  sf_v : exists s4, s_v t = bdy_velocity M s4 /\ s_nmass s4 = s_nmass s /\
    exists s3, forall n d, s_v s4 n d = s_v0 s n d + alpha * dt * (external_force M s3 n d + internal_force m t n d) / s_nmass s n;
  sf_sie : forall p, In p (points L) -> s_sie t (fst p) (snd p) =
    s_sie0 s (fst p) (snd p) - alpha * dt / (s_mass s (fst p) (snd p) + 1e-20) *
      sumn 8 (fun l => sumn 3 (fun d => s_mcforce t (fst p) (corner_in_mat (snd p) l) d *
         (/ 2 * (s_v t (nodes_in m (point_elem L p) l) d + s_v0 s (nodes_in m (point_elem L p) l) d))));
  sf_x : forall n d, s_x t n d = s_x0 s n d + alpha * dt * (/ 2 * (s_v t n d + s_v0 s n d));
  sf_vol : forall e, s_vol t e = elem_vol m (s_x t) e;
  sf_velgrad : s_velgrad t = get_velgrad m (s_x s) (s_v s) (s_vol s);
  sf_eroded : forall mat sid, has_erosion M mat = false -> s_eroded t mat sid = s_eroded s mat sid;
  sf_free : exists s4, s_v t = bdy_velocity M s4 /\
    forall n d, s_v s4 n d = s_v0 s n d + alpha * dt * s_nforce t n d / s_nmass s n;
  sf_nforce : exists s3, s_x s3 = s_x s /\ s_v s3 = s_v s /\ forall n d, s_nforce t n d = external_force M s3 n d + internal_force m t n d
}.

Lemma stage_spec m L M alpha dt s : stage_facts m L M alpha dt s (rk_stage m L M alpha dt s).
Proof.
  unfold rk_stage. fold (before_forces m s).
  destruct (forces_form m L M (before_forces m s)) as (t & f & EF).
  set (sF := forces_and_stress m L M (before_forces m s)) in *.
  set (sN := set_nforce (node_force m M sF) sF).
  set (s4 := set_v (update_velocity alpha dt sN) sN).
  set (s5 := set_v (bdy_velocity M s4) s4).
  destruct (energies_spec m L alpha dt s5) as (e & Ee & He). rewrite Ee.
  set (s6 := set_sie e s5).
  set (s7 := set_x (update_position alpha dt s6) s6).
  set (s8 := set_vol (elem_vol m (s_x s7)) s7).
  cbv zeta.
  assert (Hend := update_states_fields L M (seq 0 (num_mats L)) s8).
  assert (Her := fun mat sid H => update_states_eroded L M (seq 0 (num_mats L)) s8 mat sid H).
  set (s9 := fold_left (fun s mat => update_state L M mat s) (seq 0 (num_mats L)) s8) in *.
  destruct Hend as (E1 & E2 & E3 & E4 & E5 & E6 & E7 & E8 & E9 & E10 & E11 & E12 & E13 & E14 & E15 & E16).
  constructor.
  - rewrite E2, E4, E5, E11, E13, E14, E15, E16. subst s8 s7 s6 s5 s4 sN. fields. rewrite EF. fields. repeat split.
  - rewrite E7. reflexivity.
  - rewrite E10. reflexivity.
  - exists s4. rewrite E3. split; [reflexivity|]. split; [subst s4 sN; cbn; rewrite EF; reflexivity|].
    exists sF. intros n d. unfold internal_force. rewrite E7. subst s4 sN. cbn [s_v s_cforce set_v set_nforce].
    unfold update_velocity. cbn [s_v0 s_nforce s_nmass set_nforce].
    assert (A : node_force m M sF n d = external_force M sF n d + suml (fun c => s_cforce sF c d) (corners_in_node m n)).
    { unfold node_force, external_force. rewrite fold_left_suml. destruct (doing_contact M); ring. }
    rewrite A. subst s8 s7 s6 s5. cbn [s_cforce set_v set_nforce set_sie set_x set_vol].
    rewrite EF. cbn [s_v0 s_nmass s_cforce set_stress set_cforce before_forces set_velgrad fst]. reflexivity.
  - intros p Hp. rewrite E12, E10, E3. subst s8 s7 s6. cbn [s_sie s_mcforce s_v set_vol set_x set_sie]. rewrite He by auto.
    unfold update_energy, mat_power. 
    assert (A : s_sie0 s5 = s_sie0 s /\ s_mass s5 = s_mass s /\ s_v0 s5 = s_v0 s).
    { subst s5 s4 sN. fields. rewrite EF. fields. repeat split. }
    destruct A as (A1 & A2 & A3). rewrite A1, A2, A3. do 2 f_equal.
    rewrite (fold_left_ext _ (fun acc l => acc + sumn 3 (fun d => s_mcforce s5 (fst p) (corner_in_mat (snd p) l) d *
         (/ 2 * (s_v s5 (nodes_in m (point_elem L p) l) d + s_v0 s (nodes_in m (point_elem L p) l) d))))).
    2:{ intros acc l _. rewrite fold_left_suml. rewrite suml_seq. f_equal. apply sumn_ext. intros d _.
        unfold point_elem. replace 0.5 with (/ 2) by lra. ring. }
    rewrite fold_left_suml, suml_seq. ring.
  - intros n d. rewrite E1, E3. subst s8 s7. cbn [s_x s_v set_vol set_x]. unfold update_position.
    assert (A : s_x0 s6 = s_x0 s /\ s_v0 s6 = s_v0 s).
    { subst s6 s5 s4 sN. fields. rewrite EF. fields. repeat split. }
    destruct A as (A1 & A2). rewrite A1, A2. replace 0.5 with (/ 2) by lra. ring.
  - intros e'. rewrite E8, E1. subst s8. cbn [s_vol s_x set_vol]. reflexivity.
  - rewrite E9. subst s8 s7 s6 s5 s4 sN. fields. rewrite EF. fields. reflexivity.
  - intros mat sid H. rewrite (Her mat sid H). subst s8 s7 s6 s5 s4 sN. fields. rewrite EF. fields. reflexivity.
  - exists s4. rewrite E3. split; [reflexivity|]. intros n d. rewrite E6. subst s8 s7 s6 s5 s4. fields.
    unfold update_velocity. subst sN. fields. rewrite EF. fields. reflexivity.
  - exists sF. split; [rewrite EF; reflexivity|]. split; [rewrite EF; reflexivity|].
    intros n d. unfold internal_force. rewrite E6, E7. subst s8 s7 s6 s5 s4 sN. fields.
    unfold node_force, external_force. rewrite fold_left_suml. destruct (doing_contact M); ring.
Qed.

(** ** One step *)

Lemma alpha_last N : (1 <= N)%nat -> rk_alpha N (N - 1) = 1.
Proof. intros H. unfold rk_alpha. rewrite minus_INR by auto. change (INR 1) with 1. field_simplify; [|lra]. lra. Qed.

Definition same_start (s s' : sgh) : Prop :=
  s_x0 s' = s_x s /\ s_v0 s' = s_v s /\ s_sie0 s' = s_sie s /\ s_stress0 s' = s_stress s /\
  s_nmass s' = s_nmass s /\ s_mass s' = s_mass s /\ s_volfrac s' = s_volfrac s /\ s_geo s' = s_geo s.

Lemma stages_start m L Ms N dt s k :
  same_start s (fold_left (fun s k => rk_stage m L (Ms k) (rk_alpha N k) dt s) (seq 0 k) (set_start s)).
Proof.
  induction k as [|k IH]; [repeat split|]. rewrite seq_S, fold_left_app. cbn [Nat.add fold_left].
  revert IH. generalize (fold_left (fun s k => rk_stage m L (Ms k) (rk_alpha N k) dt s) (seq 0 k) (set_start s)).
  intros s' IH. assert (H := sf_const _ _ _ _ _ _ _ (stage_spec m L (Ms k) (rk_alpha N k) dt s')).
  unfold same_start in *. intuition congruence.
Qed.

Lemma stages_eroded m L Ms N dt s k mat sid : (forall j, has_erosion (Ms j) mat = false) ->
  s_eroded (fold_left (fun s k => rk_stage m L (Ms k) (rk_alpha N k) dt s) (seq 0 k) (set_start s)) mat sid = s_eroded s mat sid.
Proof.
  intros H. induction k as [|k IH]; [reflexivity|]. rewrite seq_S, fold_left_app. cbn [Nat.add fold_left].
  rewrite (sf_eroded _ _ _ _ _ _ _ (stage_spec m L (Ms k) (rk_alpha N k) dt _)); auto.
Qed.

Lemma step_last m L Ms N dt s : (1 <= N)%nat -> exists s', same_start s s' /\
  rk_step m L Ms N dt s = rk_stage m L (Ms (N - 1)%nat) 1 dt s' /\
  forall mat sid, (forall j, has_erosion (Ms j) mat = false) -> s_eroded s' mat sid = s_eroded s mat sid.
Proof.
  intros HN. exists (fold_left (fun s k => rk_stage m L (Ms k) (rk_alpha N k) dt s) (seq 0 (N - 1)) (set_start s)).
  split; [apply stages_start|]. split.
  - unfold rk_step. assert (E : seq 0 N = seq 0 (N - 1) ++ [(N - 1)%nat]).
    { replace N with (S (N - 1)) at 1 by lia. apply seq_S. }
    rewrite E, fold_left_app. cbn [fold_left].
    rewrite alpha_last by auto. reflexivity.
  - intros; now apply stages_eroded.
Qed.

Lemma step_const m L Ms N dt s :
  s_nmass (rk_step m L Ms N dt s) = s_nmass s /\ s_mass (rk_step m L Ms N dt s) = s_mass s.
Proof. destruct (stages_start m L Ms N dt s N) as (_ & _ & _ & _ & A & B & _). exact (conj A B). Qed.

Lemma run_const m L N cycles s : s_nmass (run m L N cycles s) = s_nmass s /\ s_mass (run m L N cycles s) = s_mass s.
Proof.
  revert s. induction cycles as [|[dt Ms] cs IH]; intros s; [split; reflexivity|]. cbn [run fold_left].
  destruct (IH (rk_step m L Ms N dt s)) as [A B]. unfold run in A, B. destruct (step_const m L Ms N dt s) as [C D]. split; congruence.
Qed.

Lemma internal_force_sum m L M alpha dt s d : corners_ok 8 m -> layout_ok (num_elems m) L -> dissipation_balanced M -> (d < 3)%nat ->
  sumn (num_nodes m) (fun n => internal_force m (rk_stage m L M alpha dt s) n d) = 0.
Proof.
  intros Hok HL HM Hd. unfold internal_force.
  rewrite (node_corner_sum 8 m (fun _ c => s_cforce (rk_stage m L M alpha dt s) c d) Hok).
  rewrite (sumn_ext _ _ (fun _ => 0)), sumn_0; [easy|]. intros e He.
  rewrite (sf_cforce _ _ _ _ _ _ _ (stage_spec m L M alpha dt s)). now apply forces_balanced.
Qed.

Lemma step_momentum m L Ms N dt s d F : corners_ok 8 m -> layout_ok (num_elems m) L -> (1 <= N)%nat -> (d < 3)%nat ->
  nodes_have_mass m s -> dissipation_balanced (Ms (N - 1)%nat) ->
  (forall s' n, bdy_velocity (Ms (N - 1)%nat) s' n d = s_v s' n d) ->
  (forall s' n, external_force (Ms (N - 1)%nat) s' n d = F n) ->
  momentum m (rk_step m L Ms N dt s) d = momentum m s d + dt * sumn (num_nodes m) F.
Proof.
  intros Hok HL HN Hd Hm HD HB HF. destruct (step_last m L Ms N dt s HN) as (s' & Hs & E & _). rewrite E.
  assert (Hf := stage_spec m L (Ms (N - 1)%nat) 1 dt s').
  destruct (sf_v _ _ _ _ _ _ _ Hf) as (s4 & E4 & _ & s3 & E3). destruct (sf_const _ _ _ _ _ _ _ Hf) as (_ & _ & Em & _).
  destruct Hs as (_ & Ev & _ & _ & En & _). unfold momentum.
  rewrite (sumn_ext _ _ (fun n => s_nmass s n * s_v s n d + dt * (F n + internal_force m (rk_stage m L (Ms (N - 1)%nat) 1 dt s') n d))).
  - rewrite sumn_plus, sumn_scal, sumn_plus, internal_force_sum by auto. ring.
  - intros n Hn. rewrite E4, HB, E3, Em, HF, En, Ev. field. now apply Hm.
Qed.

Lemma run_momentum m L N cycles s d : corners_ok 8 m -> layout_ok (num_elems m) L -> (1 <= N)%nat -> (d < 3)%nat ->
  nodes_have_mass m s ->
  (forall dt Ms, In (dt, Ms) cycles -> dissipation_balanced (Ms (N - 1)%nat) /\
     (forall s' n, bdy_velocity (Ms (N - 1)%nat) s' n d = s_v s' n d) /\
     (forall s' n, external_force (Ms (N - 1)%nat) s' n d = 0)) ->
  momentum m (run m L N cycles s) d = momentum m s d.
Proof.
  intros Hok HL HN Hd. revert s. induction cycles as [|[dt Ms] cs IH]; intros s Hm H; [reflexivity|]. cbn [run fold_left].
  destruct (H dt Ms (or_introl eq_refl)) as (H1 & H2 & H3).
  change (momentum m (run m L N cs (rk_step m L Ms N dt s)) d = momentum m s d). rewrite IH.
  - rewrite (step_momentum m L Ms N dt s d (fun _ => 0)) by auto. rewrite sumn_0. ring.
  - unfold nodes_have_mass. rewrite (proj1 (step_const m L Ms N dt s)). exact Hm.
  - intros dt' Ms' Hin. exact (H dt' Ms' (or_intror Hin)).
Qed.

(** ** Energy *)

Lemma stage_work m L M dt s t : corners_ok 8 m -> layout_ok (num_elems m) L ->
  (forall p q, In p (points L) -> In q (points L) -> before p q -> point_elem L p = point_elem L q -> s_eroded s (fst q) (snd q) = false) ->
  (forall p, In p (points L) -> 0 <= s_mass s (fst p) (snd p)) ->
  t = rk_stage m L M 1 dt s ->
  suml (fun p => (s_mass s (fst p) (snd p) + 1e-20) * (s_sie t (fst p) (snd p) - s_sie0 s (fst p) (snd p))) (points L) =
  - dt * sumn (num_nodes m) (fun n => sumn 3 (fun d => internal_force m t n d * (/ 2 * (s_v t n d + s_v0 s n d)))).
Proof.
  intros Hok HL Hers Hmass Et. assert (Hf := stage_spec m L M 1 dt s). rewrite <- Et in Hf.
  set (hv := fun n d => / 2 * (s_v t n d + s_v0 s n d)).
  rewrite (suml_ext _ (fun p => - dt * sumn 8 (fun l => sumn 3 (fun d => s_mcforce t (fst p) (corner_in_mat (snd p) l) d * hv (nodes_in m (point_elem L p) l) d)))).
  2:{ intros p Hp. rewrite (sf_sie _ _ _ _ _ _ _ Hf p Hp). fold hv. assert (H0 := Hmass p Hp).
      unfold hv. field. lra. }
  rewrite suml_scal. f_equal.
  rewrite <- (suml_by_key _ (point_elem L) (num_elems m) (points L)) by (intros; now apply HL).
  assert (A : forall n, sumn 3 (fun d => internal_force m t n d * hv n d) =
              suml (fun c => sumn 3 (fun d => s_cforce t c d * hv n d)) (corners_in_node m n)).
  { intros n. unfold internal_force. cbn [sumn]. rewrite !suml_plus.
    rewrite (suml_ext (fun c => 0) (fun c => 0 * 0)) by (intros; ring).
    assert (B : forall d, suml (fun c => s_cforce t c d) (corners_in_node m n) * hv n d = suml (fun c => s_cforce t c d * hv n d) (corners_in_node m n)).
    { intros d. rewrite Rmult_comm, <- suml_scal. apply suml_ext. intros; ring. }
    rewrite !B, suml_scal. ring. }
  rewrite (sumn_ext (num_nodes m) (fun n => sumn 3 (fun d => internal_force m t n d * (/ 2 * (s_v t n d + s_v0 s n d)))) _ (fun n _ => A n)).
  rewrite (node_corner_sum 8 m (fun n c => sumn 3 (fun d => s_cforce t c d * hv n d)) Hok).
  apply sumn_ext. intros e He. rewrite suml_filter.
  rewrite (suml_ext _ (fun p => suml (fun l => if Nat.eqb (point_elem L p) e then sumn 3 (fun d => s_mcforce t (fst p) (corner_in_mat (snd p) l) d * hv (nodes_in m e l) d) else 0) (seq 0 8))).
  2:{ intros p _. rewrite suml_seq. destruct (Nat.eqb_spec (point_elem L p) e) as [->|]; [easy|]. now rewrite sumn_0. }
  rewrite suml_exchange, suml_seq. apply sumn_ext. intros l Hl.
  rewrite (suml_ext _ (fun p => suml (fun d => (if Nat.eqb (point_elem L p) e then s_mcforce t (fst p) (corner_in_mat (snd p) l) d else 0) * hv (nodes_in m e l) d) (seq 0 3))).
  2:{ intros p _. rewrite suml_seq. destruct (Nat.eqb_spec (point_elem L p) e) as [_|]; [easy|]. cbn [sumn]. ring. }
  rewrite suml_exchange, suml_seq. apply sumn_ext. intros d Hd.
  rewrite (suml_ext _ (fun p => hv (nodes_in m e l) d * (if Nat.eqb (point_elem L p) e then s_mcforce t (fst p) (corner_in_mat (snd p) l) d else 0))) by (intros; ring).
  rewrite suml_scal, Rmult_comm. f_equal.
  rewrite (sf_cforce _ _ _ _ _ _ _ Hf), (sf_mcforce _ _ _ _ _ _ _ Hf). symmetry. apply forces_are_sums; auto.
Qed.

Lemma kinetic_diff N (mass : nat -> R) (v v0 : nat -> nat -> R) :
  / 2 * sumn N (fun n => mass n * sumn 3 (fun d => v n d ^ 2)) - / 2 * sumn N (fun n => mass n * sumn 3 (fun d => v0 n d ^ 2)) =
  sumn N (fun n => sumn 3 (fun d => mass n * (v n d - v0 n d) * (/ 2 * (v n d + v0 n d)))).
Proof.
  rewrite <- !sumn_scal, <- sumn_minus. apply sumn_ext. intros n _. cbn [sumn]. field.
Qed.

Definition erosion_safe_step (L : layout) (Ms : nat -> models) (s : sgh) : Prop :=
  forall p q, In p (points L) -> In q (points L) -> before p q -> point_elem L p = point_elem L q ->
  s_eroded s (fst q) (snd q) = false /\ forall k, has_erosion (Ms k) (fst q) = false.

Lemma step_energy m L Ms N dt s : corners_ok 8 m -> layout_ok (num_elems m) L -> (1 <= N)%nat ->
  erosion_safe_step L Ms s -> (forall p, In p (points L) -> 0 <= s_mass s (fst p) (snd p)) ->
  let t := rk_step m L Ms N dt s in
  total_energy m L t - total_energy m L s =
  sumn (num_nodes m) (fun n => sumn 3 (fun d =>
     (s_nmass s n * (s_v t n d - s_v s n d) - dt * internal_force m t n d) * ((s_v t n d + s_v s n d) / 2)))
  - 1e-20 * (sum_sie L t - sum_sie L s).
Proof.
  intros Hok HL HN Hers Hmass t. destruct (step_last m L Ms N dt s HN) as (s' & Hs & E & Her). fold t in E.
  destruct Hs as (Ex & Ev & Es & _ & En & Em & _).
  assert (W := stage_work m L (Ms (N - 1)%nat) dt s' t Hok HL). rewrite Em, Ev, Es in W.
  specialize (fun H => W H Hmass E).
  assert (Hc : s_nmass t = s_nmass s /\ s_mass t = s_mass s) by apply step_const. destruct Hc as [Hc1 Hc2].
  unfold total_energy, sum_sie. rewrite Hc1, Hc2.
  assert (A : suml (fun p => (s_mass s (fst p) (snd p) + 1e-20) * (s_sie t (fst p) (snd p) - s_sie s (fst p) (snd p))) (points L) =
    suml (fun p => s_mass s (fst p) (snd p) * s_sie t (fst p) (snd p)) (points L)
    - suml (fun p => s_mass s (fst p) (snd p) * s_sie s (fst p) (snd p)) (points L)
    + 1e-20 * (suml (fun p => s_sie t (fst p) (snd p)) (points L) - suml (fun p => s_sie s (fst p) (snd p)) (points L))).
  { rewrite <- !suml_minus, <- suml_scal, <- suml_plus. apply suml_ext. intros; ring. }
  assert (HH : forall p q, In p (points L) -> In q (points L) -> before p q -> point_elem L p = point_elem L q -> s_eroded s' (fst q) (snd q) = false).
  { intros p q Hp Hq Hb He. destruct (Hers p q Hp Hq Hb He) as [H1 H2]. rewrite Her; auto. }
  specialize (W HH). rewrite A in W; clear A.
  assert (KD := kinetic_diff (num_nodes m) (s_nmass s) (s_v t) (s_v s)).
  rewrite (sumn_ext (num_nodes m) (fun n => sumn 3 (fun d =>
     (s_nmass s n * (s_v t n d - s_v s n d) - dt * internal_force m t n d) * ((s_v t n d + s_v s n d) / 2)))
    (fun n => sumn 3 (fun d => s_nmass s n * (s_v t n d - s_v s n d) * (/ 2 * (s_v t n d + s_v s n d)))
              + - dt * sumn 3 (fun d => internal_force m t n d * (/ 2 * (s_v t n d + s_v s n d))))).
  - rewrite sumn_plus, sumn_scal. lra.
  - intros n _. cbn [sumn]. field.
Qed.

(** velocities after a step *)
Lemma step_velocity m L Ms N dt s : (1 <= N)%nat -> exists s4 s3, forall n d,
  s_v (rk_step m L Ms N dt s) n d = bdy_velocity (Ms (N - 1)%nat) s4 n d /\
  s_v s4 n d = s_v s n d + dt * (external_force (Ms (N - 1)%nat) s3 n d + internal_force m (rk_step m L Ms N dt s) n d) / s_nmass s n.
Proof.
  intros HN. destruct (step_last m L Ms N dt s HN) as (s' & Hs & E & _). rewrite E.
  assert (Hf := stage_spec m L (Ms (N - 1)%nat) 1 dt s').
  destruct (sf_v _ _ _ _ _ _ _ Hf) as (s4 & E4 & _ & s3 & E3). exists s4, s3. intros n d. rewrite E4, E3.
  destruct Hs as (_ & Ev & _ & _ & En & _). rewrite Ev, En. split; [reflexivity|]. now rewrite Rmult_1_l.
Qed.

Lemma step_energy_external m L Ms N dt s F : corners_ok 8 m -> layout_ok (num_elems m) L -> (1 <= N)%nat ->
  nodes_have_mass m s -> erosion_safe_step L Ms s -> (forall p, In p (points L) -> 0 <= s_mass s (fst p) (snd p)) ->
  let t := rk_step m L Ms N dt s in
  (forall s' n d, external_force (Ms (N - 1)%nat) s' n d = F n d) ->
  (forall n d, (forall s', bdy_velocity (Ms (N - 1)%nat) s' n d = s_v s' n d) \/ s_v t n d + s_v s n d = 0) ->
  total_energy m L t - total_energy m L s =
  dt * sumn (num_nodes m) (fun n => sumn 3 (fun d => F n d * ((s_v t n d + s_v s n d) / 2)))
  - 1e-20 * (sum_sie L t - sum_sie L s).
Proof.
  intros Hok HL HN Hm Hers Hmass t HF HB. subst t. rewrite (step_energy m L Ms N dt s Hok HL HN Hers Hmass).
  set (t := rk_step m L Ms N dt s) in *. f_equal. rewrite <- sumn_scal. apply sumn_ext. intros n Hn. rewrite <- sumn_scal.
  apply sumn_ext. intros d _. destruct (HB n d) as [H|H].
  - destruct (step_velocity m L Ms N dt s HN) as (s4 & s3 & Hv). fold t in Hv. destruct (Hv n d) as [E1 E2].
    rewrite H, E2, HF in E1.
    assert (E3 : s_nmass s n * (s_v t n d - s_v s n d) - dt * internal_force m t n d = dt * F n d).
    { rewrite E1. field. now apply Hm. }
    rewrite E3. ring.
  - rewrite H. unfold Rdiv. rewrite Rmult_0_l. ring.
Qed.

Lemma erosion_safe_cons L dt Ms cs s : erosion_safe L ((dt, Ms) :: cs) s -> erosion_safe_step L Ms s.
Proof.
  intros H p q Hp Hq Hb He. destruct (H p q Hp Hq Hb He) as [H1 H2]. split; [exact H1|]. intros k. apply (H2 dt Ms k). left; easy.
Qed.

Lemma step_eroded_same m L Ms N dt s mat sid : (1 <= N)%nat -> (forall k, has_erosion (Ms k) mat = false) ->
  s_eroded (rk_step m L Ms N dt s) mat sid = s_eroded s mat sid.
Proof. intros HN H. unfold rk_step. now apply stages_eroded. Qed.

Lemma erosion_safe_next m L N dt Ms cs s : (1 <= N)%nat -> erosion_safe L ((dt, Ms) :: cs) s -> erosion_safe L cs (rk_step m L Ms N dt s).
Proof.
  intros HN H p q Hp Hq Hb He. destruct (H p q Hp Hq Hb He) as [H1 H2]. split.
  - rewrite step_eroded_same; [exact H1|exact HN|]. intros k. apply (H2 dt Ms k). left; easy.
  - intros dt' Ms' k Hin. apply (H2 dt' Ms' k). right; easy.
Qed.

Lemma run_energy m L N cycles s : corners_ok 8 m -> layout_ok (num_elems m) L -> (1 <= N)%nat ->
  nodes_have_mass m s -> erosion_safe L cycles s -> (forall p, In p (points L) -> 0 <= s_mass s (fst p) (snd p)) ->
  (forall dt Ms s' n d, In (dt, Ms) cycles -> external_force (Ms (N - 1)%nat) s' n d = 0) ->
  (forall n d, (forall dt Ms s', In (dt, Ms) cycles -> bdy_velocity (Ms (N - 1)%nat) s' n d = s_v s' n d) \/
     (s_v s n d = 0 /\ forall dt Ms s', In (dt, Ms) cycles -> bdy_velocity (Ms (N - 1)%nat) s' n d = 0)) ->
  total_energy m L (run m L N cycles s) - total_energy m L s = - 1e-20 * (sum_sie L (run m L N cycles s) - sum_sie L s).
Proof.
  intros Hok HL HN. revert s. induction cycles as [|[dt Ms] cs IH]; intros s Hm Hers Hmass HF HB; [cbn [run fold_left]; ring|].
  set (t := rk_step m L Ms N dt s).
  change (total_energy m L (run m L N cs t) - total_energy m L s = - 1e-20 * (sum_sie L (run m L N cs t) - sum_sie L s)).
  destruct (step_const m L Ms N dt s) as [C1 C2]. fold t in C1, C2.
  destruct (step_velocity m L Ms N dt s HN) as (s4 & s3 & Hv). fold t in Hv.
  assert (A : total_energy m L (run m L N cs t) - total_energy m L t = - 1e-20 * (sum_sie L (run m L N cs t) - sum_sie L t)).
  { apply IH.
    - unfold nodes_have_mass. rewrite C1. exact Hm.
    - now apply (erosion_safe_next m L N dt Ms cs s).
    - rewrite C2. exact Hmass.
    - intros; apply (HF dt0). right; easy.
    - intros n d. destruct (HB n d) as [H|[H0 H]]; [left|right].
      + intros dt' Ms' s' Hin. apply (H dt'). right; easy.
      + split; [rewrite (proj1 (Hv n d)); apply (H dt); left; easy|]. intros dt' Ms' s' Hin. apply (H dt'). right; easy. }
  assert (B := step_energy_external m L Ms N dt s (fun _ _ => 0) Hok HL HN Hm (erosion_safe_cons _ _ _ _ _ Hers) Hmass). cbv zeta in B. fold t in B.
  rewrite (sumn_ext _ _ (fun _ => 0)), sumn_0 in B by (intros; cbn [sumn]; ring).
  enough (total_energy m L t - total_energy m L s = dt * 0 - 1e-20 * (sum_sie L t - sum_sie L s)) by lra.
  apply B.
  - intros s' n d. apply (HF dt). left; easy.
  - intros n d. destruct (HB n d) as [H|[H0 H]]; [left|right].
    + intros s'. apply (H dt). left; easy.
    + rewrite (proj1 (Hv n d)), (H dt), H0 by (left; easy). ring.
Qed.

(** ** Velocity gradient *)

Lemma velgrad_sum m x v vol e i j :
  get_velgrad m x v vol e i j = sumn 8 (fun l => v (nodes_in m e l) i * elem_bmat m x e l j) / vol e.
Proof. unfold get_velgrad, gather. cbn [sumn]. unfold Rdiv. ring. Qed.

Lemma velgrad_linear m x v vol e (A : nat -> nat -> R) (c : nat -> R) i j : (i < 3)%nat -> (j < 3)%nat ->
  vol e = elem_vol m x e -> 1e-14 <= vol_hex_raw (gather m x e 0) (gather m x e 1) (gather m x e 2) ->
  (forall l, (l < 8)%nat -> v (nodes_in m e l) i = c i + sumn 3 (fun k => A i k * x (nodes_in m e l) k)) ->
  get_velgrad m x v vol e i j = A i j.
Proof.
  intros Hi Hj Hvol Hraw Hv. rewrite velgrad_sum.
  assert (EV : vol e = vol_hex_raw (gather m x e 0) (gather m x e 1) (gather m x e 2)).
  { rewrite Hvol. unfold elem_vol, vol_hex, fmax. apply Rmax_left. lra. }
  set (V := vol_hex_raw (gather m x e 0) (gather m x e 1) (gather m x e 2)) in *.
  rewrite (sumn_ext 8 _ (fun l => c i * elem_bmat m x e l j + sumn 3 (fun k => A i k * (x (nodes_in m e l) k * elem_bmat m x e l j)))).
  2:{ intros l Hl. rewrite (Hv l Hl). cbn [sumn]. ring. }
  rewrite sumn_plus, sumn_scal. unfold elem_bmat at 1. rewrite bmat_closure.
  rewrite (sumn_exchange 8 3 (fun l k => A i k * (x (nodes_in m e l) k * elem_bmat m x e l j))).
  rewrite (sumn_ext 3 _ (fun k => if Nat.eqb k j then A i j * V else 0)).
  - rewrite sumn_delta by auto. rewrite EV. field. lra.
  - intros k Hk. rewrite sumn_scal.
    assert (Hmom := bmat_moment (gather m x e 0) (gather m x e 1) (gather m x e 2) k j Hk Hj). fold V in Hmom.
    rewrite (sumn_ext 8 _ (fun l => coord (gather m x e 0) (gather m x e 1) (gather m x e 2) k l * bmat (gather m x e 0) (gather m x e 1) (gather m x e 2) l j)).
    + rewrite Hmom. destruct (Nat.eqb_spec k j) as [->|]; ring.
    + intros l _. unfold elem_bmat. destruct k as [|[|[|k]]]; [reflexivity..|lia].
Qed.

Lemma divergence_trace m x v vol e :
  get_divergence m x v vol e = get_velgrad m x v vol e 0 0 + get_velgrad m x v vol e 1 1 + get_velgrad m x v vol e 2 2.
Proof. unfold get_divergence, get_velgrad, gather. cbv zeta. ring. Qed.

(** ** State update *)

Lemma state_density_den L M mat s sid : (sid < num_mat_elems L mat)%nat -> s_den (state_density L M mat s) mat sid = new_density L M s mat sid.
Proof.
  intros H. unfold state_density. cbn [s_den set_den]. unfold for_mat. rewrite Nat.eqb_refl, (proj2 (Nat.ltb_lt _ _) H). reflexivity.
Qed.

Lemma update_state_other L M mat s mat' : mat' <> mat ->
  s_den (update_state L M mat s) mat' = s_den s mat' /\ s_pres (update_state L M mat s) mat' = s_pres s mat' /\
  s_sspd (update_state L M mat s) mat' = s_sspd s mat' /\ s_stress (update_state L M mat s) mat' = s_stress s mat' /\
  s_eroded (update_state L M mat s) mat' = s_eroded s mat'.
Proof.
  intros Hne. apply Nat.eqb_neq in Hne.
  assert (F : forall {A} n (o w : nat -> nat -> A), for_mat mat n o w mat' = o mat').
  { intros A n o w. unfold for_mat. rewrite Hne. reflexivity. }
  set (same := fun s t : sgh => s_den t mat' = s_den s mat' /\ s_pres t mat' = s_pres s mat' /\
     s_sspd t mat' = s_sspd s mat' /\ s_stress t mat' = s_stress s mat' /\ s_eroded t mat' = s_eroded s mat').
  assert (T : forall a b c, same a b -> same b c -> same a c) by (unfold same; intuition congruence).
  change (same s (update_state L M mat s)). unfold update_state.
  apply (T s (state_density L M mat s)); [unfold same, state_density; fields; rewrite F; auto|].
  generalize (state_density L M mat s). clear s. intros s.
  apply (T s (state_pressure L M mat s)); [unfold same, state_pressure; destruct (decoupled M mat); fields; rewrite ?F; auto|].
  generalize (state_pressure L M mat s). clear s. intros s.
  apply (T s (state_sspd L M mat s)); [unfold same, state_sspd; destruct (decoupled M mat); fields; rewrite ?F; auto|].
  generalize (state_sspd L M mat s). clear s. intros s.
  apply (T s (state_stress L M mat s)); [unfold same, state_stress; destruct (state_based M mat); fields; rewrite ?F; auto|].
  generalize (state_stress L M mat s). clear s. intros s.
  apply (T s (state_erode L M mat s)); [unfold same, state_erode; destruct (has_erosion M mat); fields; rewrite ?F; auto|].
  generalize (state_erode L M mat s). clear s. intros s.
  unfold same, state_void; destruct (has_erosion M mat); cbv zeta; fields; rewrite ?F; auto.
Qed.

(** what the last update of a material leaves in its own arrays *)
Lemma update_states_at L M s mat : (mat < num_mats L)%nat -> exists s',
  end_fields s s' /\ s_eroded s' mat = s_eroded s mat /\
  let t := fold_left (fun s mat => update_state L M mat s) (seq 0 (num_mats L)) s in
  let t' := update_state L M mat s' in
  s_den t mat = s_den t' mat /\ s_pres t mat = s_pres t' mat /\ s_sspd t mat = s_sspd t' mat /\
  s_stress t mat = s_stress t' mat /\ s_eroded t mat = s_eroded t' mat.
Proof.
  intros Hm. set (F := fun s mat => update_state L M mat s).
  exists (fold_left F (seq 0 mat) s). split; [apply update_states_fields|].
  assert (K : forall ks u, ~ In mat ks ->
     s_den (fold_left F ks u) mat = s_den u mat /\ s_pres (fold_left F ks u) mat = s_pres u mat /\
     s_sspd (fold_left F ks u) mat = s_sspd u mat /\ s_stress (fold_left F ks u) mat = s_stress u mat /\
     s_eroded (fold_left F ks u) mat = s_eroded u mat).
  { induction ks as [|k ks IH]; intros u Hn; [cbn [fold_left]; auto|]. cbn [fold_left].
    assert (Hk : mat <> k) by (intros ->; apply Hn; left; easy).
    assert (A := IH (F u k) (fun H => Hn (or_intror H))). assert (B := update_state_other L M k u mat Hk). fold (F u k) in B.
    intuition congruence. }
  split.
  - apply K. intros H. apply in_seq in H. lia.
  - cbv zeta. replace (num_mats L) with (mat + S (num_mats L - S mat))%nat by lia.
    rewrite seq_app, fold_left_app. cbn [Nat.add seq fold_left].
    apply (K (seq (S mat) (num_mats L - S mat)) (F (fold_left F (seq 0 mat) s) mat)). intros H. apply in_seq in H. lia.
Qed.

Lemma for_mat_at {A} mat n (o w : nat -> nat -> A) sid : (sid < n)%nat -> for_mat mat n o w mat sid = w mat sid.
Proof. intros H. unfold for_mat. rewrite Nat.eqb_refl, (proj2 (Nat.ltb_lt _ _) H). reflexivity. Qed.

Lemma den_keep L M mat s :
  s_den (state_erode L M mat (state_stress L M mat (state_sspd L M mat (state_pressure L M mat s)))) = s_den s.
Proof.
  unfold state_erode, state_stress, state_sspd, state_pressure.
  destruct (has_erosion M mat), (state_based M mat), (decoupled M mat); reflexivity.
Qed.

Lemma update_state_den L M mat s sid : (sid < num_mat_elems L mat)%nat ->
  s_den (update_state L M mat s) mat sid =
  if has_erosion M mat && s_eroded (update_state L M mat s) mat sid then 1e-32 else new_density L M s mat sid.
Proof.
  intros H. unfold update_state. rewrite state_void_eroded. unfold state_void.
  set (s1 := state_erode L M mat _). assert (E : s_den s1 mat sid = new_density L M s mat sid).
  { unfold s1. rewrite den_keep. now apply state_density_den. }
  destruct (has_erosion M mat); cbn [andb]; [|exact E]. cbv zeta. fields. rewrite for_mat_at by auto. unfold void_value. now rewrite E.
Qed.

Lemma update_state_void L M mat s sid : (sid < num_mat_elems L mat)%nat -> has_erosion M mat = true ->
  s_eroded (update_state L M mat s) mat sid = true ->
  s_pres (update_state L M mat s) mat sid = 0 /\ s_sspd (update_state L M mat s) mat sid = 1e-32 /\
  s_den (update_state L M mat s) mat sid = 1e-32 /\ forall i j, s_stress (update_state L M mat s) mat sid i j = 0.
Proof.
  intros H HE. unfold update_state. rewrite state_void_eroded. set (s1 := state_erode L M mat _). intros Her.
  unfold state_void. rewrite HE. cbv zeta. fields. rewrite !for_mat_at by auto. unfold void_value. rewrite Her. auto.
Qed.

Lemma update_state_eroded L M mat s sid T D peos : (sid < num_mat_elems L mat)%nat -> has_erosion M mat = true -> decoupled M mat = true ->
  (forall s', erode M s' mat sid = basic_erosion T D s' mat sid) ->
  (forall s', calc_pressure M s' mat sid = peos (s_den s' mat sid) (s_sie s' mat sid)) ->
  (s_eroded (update_state L M mat s) mat sid = true <->
   s_eroded s mat sid = true \/ peos (new_density L M s mat sid) (s_sie s mat sid) <= T \/ new_density L M s mat sid <= D).
Proof.
  intros H HE HD Her Hp. unfold update_state. rewrite state_void_eroded. unfold state_erode. rewrite HE. fields.
  rewrite for_mat_at, Her by auto. unfold basic_erosion.
  assert (E1 : s_den (state_stress L M mat (state_sspd L M mat (state_pressure L M mat (state_density L M mat s)))) mat sid = new_density L M s mat sid).
  { rewrite <- (state_density_den L M mat s sid H). unfold state_stress, state_sspd, state_pressure.
    destruct (state_based M mat), (decoupled M mat); reflexivity. }
  assert (E2 : s_pres (state_stress L M mat (state_sspd L M mat (state_pressure L M mat (state_density L M mat s)))) mat sid =
               peos (new_density L M s mat sid) (s_sie s mat sid)).
  { rewrite <- (state_density_den L M mat s sid H). transitivity (s_pres (state_pressure L M mat (state_density L M mat s)) mat sid).
    - unfold state_stress, state_sspd. destruct (state_based M mat), (decoupled M mat); reflexivity.
    - unfold state_pressure. rewrite HD. fields. rewrite for_mat_at, Hp by auto. reflexivity. }
  rewrite E1, E2, state_stress_eroded, state_sspd_eroded, state_pressure_eroded.
  change (s_eroded (state_density L M mat s)) with (s_eroded s).
  destruct (Rle_dec (peos _ _) T); [tauto|]. destruct (Rle_dec _ D); [tauto|]. intuition.
Qed.

Lemma update_state_stays L M mat s sid : (has_erosion M mat = true -> forall s', s_eroded s' mat sid = true -> erode M s' mat sid = true) ->
  s_eroded s mat sid = true -> s_eroded (update_state L M mat s) mat sid = true.
Proof.
  intros H He. unfold update_state. rewrite state_void_eroded. unfold state_erode.
  destruct (has_erosion M mat); fields; [unfold for_mat; destruct (Nat.eqb mat mat && Nat.ltb sid (num_mat_elems L mat))|];
  try (apply H; [easy|]); rewrite state_stress_eroded, state_sspd_eroded, state_pressure_eroded; exact He.
Qed.

(** the state at the end of a stage, as seen by the last update *)
Lemma stage_end m L M alpha dt s mat : (mat < num_mats L)%nat -> exists s',
  end_fields (rk_stage m L M alpha dt s) s' /\ s_eroded s' mat = s_eroded s mat /\
  let t := rk_stage m L M alpha dt s in let t' := update_state L M mat s' in
  s_den t mat = s_den t' mat /\ s_pres t mat = s_pres t' mat /\ s_sspd t mat = s_sspd t' mat /\
  s_stress t mat = s_stress t' mat /\ s_eroded t mat = s_eroded t' mat.
Proof.
  intros Hm. unfold rk_stage. fold (before_forces m s). destruct (forces_form m L M (before_forces m s)) as (t & f & EF).
  set (sF := forces_and_stress m L M (before_forces m s)) in *.
  set (sN := set_nforce (node_force m M sF) sF).
  set (s4 := set_v (update_velocity alpha dt sN) sN).
  set (s5 := set_v (bdy_velocity M s4) s4).
  destruct (energies_spec m L alpha dt s5) as (e & Ee & He). cbv zeta. rewrite Ee.
  set (s6 := set_sie e s5).
  set (s7 := set_x (update_position alpha dt s6) s6).
  set (s8 := set_vol (elem_vol m (s_x s7)) s7).
  destruct (update_states_at L M s8 mat Hm) as (s' & H1 & H2 & H3). exists s'. cbv zeta in H3. split; [|split; [|exact H3]].
  - assert (B := update_states_fields L M (seq 0 (num_mats L)) s8). unfold end_fields in *. intuition congruence.
  - rewrite H2. subst s8 s7 s6 s5 s4 sN. fields. rewrite EF. reflexivity.
Qed.

Lemma new_density_ext L M s s' mat sid : end_fields s s' -> new_density L M s' mat sid = new_density L M s mat sid.
Proof.
  intros (_ & _ & _ & _ & _ & _ & _ & E1 & _ & _ & E2 & _ & _ & _ & E3 & E4). unfold new_density. now rewrite E1, E2, E3, E4.
Qed.

(** ** Erosion and density over a run *)

Definition keeps_eroded (M : models) : Prop :=
  forall mat sid s', has_erosion M mat = true -> s_eroded s' mat sid = true -> erode M s' mat sid = true.

Lemma stage_stays m L M alpha dt s p : keeps_eroded M -> In p (points L) ->
  s_eroded s (fst p) (snd p) = true -> s_eroded (rk_stage m L M alpha dt s) (fst p) (snd p) = true.
Proof.
  intros HK Hp He. destruct p as [mat sid]. apply points_in in Hp. cbn [fst snd] in *.
  destruct (stage_end m L M alpha dt s mat (proj1 Hp)) as (s' & _ & E & _ & _ & _ & _ & H). rewrite H.
  apply update_state_stays; [intros; now apply HK|]. now rewrite E.
Qed.

Lemma stages_stay m L Ms N dt s p k : (forall j, keeps_eroded (Ms j)) -> In p (points L) -> s_eroded s (fst p) (snd p) = true ->
  s_eroded (fold_left (fun s k => rk_stage m L (Ms k) (rk_alpha N k) dt s) (seq 0 k) (set_start s)) (fst p) (snd p) = true.
Proof.
  intros HK Hp He. induction k as [|k IH]; [exact He|]. rewrite seq_S, fold_left_app. cbn [Nat.add fold_left]. now apply stage_stays.
Qed.

Lemma run_stays m L N cycles s p : (forall dt Ms j, In (dt, Ms) cycles -> keeps_eroded (Ms j)) -> In p (points L) ->
  s_eroded s (fst p) (snd p) = true -> s_eroded (run m L N cycles s) (fst p) (snd p) = true.
Proof.
  intros HK Hp. revert s. induction cycles as [|[dt Ms] cs IH]; intros s He; [exact He|]. cbn [run fold_left].
  apply IH; [intros dt' Ms' j Hin; apply (HK dt'); right; easy|]. apply stages_stay; auto.
  intros j. apply (HK dt). left; easy.
Qed.

Lemma forces_eroded m L M s p l d : In p (points L) -> s_eroded s (fst p) (snd p) = true -> (l < 8)%nat -> (d < 3)%nat ->
  s_mcforce (forces_and_stress m L M s) (fst p) (corner_in_mat (snd p) l) d = 0.
Proof.
  intros Hp He Hl Hd.
  destruct (forces_ind m L M (fun done st => In p done -> snd st (fst p) (corner_in_mat (snd p) l) d = 0) s) as (t & f & E & HP).
  - easy.
  - intros done mat sid rest st t f E Ht IH Hin. apply in_app_or in Hin. destruct Hin as [Hin|[<-|[]]].
    + assert (Hne := split_notin _ _ _ _ _ E Hin). destruct p as [mp sp]. cbn [fst snd] in *.
      rewrite elem_force_mcf_out by auto. auto.
    + cbn [fst snd] in *. rewrite elem_force_mcf_in by auto. unfold mat_corner_value. fields. now rewrite He.
  - rewrite E. now apply HP.
Qed.

Lemma step_eroded_inert m L Ms N dt s p : (1 <= N)%nat -> (forall j, keeps_eroded (Ms j)) -> In p (points L) ->
  s_eroded s (fst p) (snd p) = true ->
  (forall l d, (l < 8)%nat -> (d < 3)%nat -> s_mcforce (rk_step m L Ms N dt s) (fst p) (corner_in_mat (snd p) l) d = 0) /\
  s_sie (rk_step m L Ms N dt s) (fst p) (snd p) = s_sie s (fst p) (snd p).
Proof.
  intros HN HK Hp He.
  assert (He' := stages_stay m L Ms N dt s p (N - 1) HK Hp He).
  assert (Hs := stages_start m L Ms N dt s (N - 1)).
  assert (E : rk_step m L Ms N dt s = rk_stage m L (Ms (N - 1)%nat) (rk_alpha N (N - 1)) dt
             (fold_left (fun s k => rk_stage m L (Ms k) (rk_alpha N k) dt s) (seq 0 (N - 1)) (set_start s))).
  { unfold rk_step. assert (E : seq 0 N = seq 0 (N - 1) ++ [(N - 1)%nat]).
    { replace N with (S (N - 1)) at 1 by lia. apply seq_S. }
    rewrite E, fold_left_app. reflexivity. }
  rewrite E. revert He' Hs. generalize (fold_left (fun s k => rk_stage m L (Ms k) (rk_alpha N k) dt s) (seq 0 (N - 1)) (set_start s)).
  intros s' He' Hs. assert (Hf := stage_spec m L (Ms (N - 1)%nat) (rk_alpha N (N - 1)) dt s').
  assert (A : forall l d, (l < 8)%nat -> (d < 3)%nat ->
     s_mcforce (rk_stage m L (Ms (N - 1)%nat) (rk_alpha N (N - 1)) dt s') (fst p) (corner_in_mat (snd p) l) d = 0).
  { intros l d Hl Hd. rewrite (sf_mcforce _ _ _ _ _ _ _ Hf). now apply forces_eroded. }
  split; [exact A|].
  rewrite (sf_sie _ _ _ _ _ _ _ Hf p Hp). destruct Hs as (_ & _ & Es & _). rewrite Es.
  rewrite (sumn_ext 8 _ (fun _ => 0)); [rewrite sumn_0; ring|]. intros l Hl.
  rewrite (sumn_ext 3 _ (fun _ => 0)); [apply sumn_0|]. intros d Hd. rewrite A by auto. ring.
Qed.

Lemma run_eroded_sie m L N cycles s p : (1 <= N)%nat -> (forall dt Ms j, In (dt, Ms) cycles -> keeps_eroded (Ms j)) -> In p (points L) ->
  s_eroded s (fst p) (snd p) = true -> s_sie (run m L N cycles s) (fst p) (snd p) = s_sie s (fst p) (snd p).
Proof.
  intros HN HK Hp. revert s. induction cycles as [|[dt Ms] cs IH]; intros s He; [reflexivity|].
  assert (K0 : forall j, keeps_eroded (Ms j)) by (intros j; apply (HK dt); left; easy).
  change (s_sie (run m L N cs (rk_step m L Ms N dt s)) (fst p) (snd p) = s_sie s (fst p) (snd p)).
  rewrite IH; [|intros dt' Ms' j Hin; apply (HK dt'); right; easy|now apply stages_stay].
  now apply step_eroded_inert.
Qed.

(** a non-empty run ends with the last stage of the last cycle *)
Lemma run_last m L N cycles s : (1 <= N)%nat -> cycles <> [] -> exists dt Ms s', In (dt, Ms) cycles /\
  run m L N cycles s = rk_stage m L (Ms (N - 1)%nat) 1 dt s' /\ s_mass s' = s_mass s.
Proof.
  intros HN. revert s. induction cycles as [|[dt Ms] cs IH]; intros s Hne; [easy|].
  change (exists dt' Ms' s', In (dt', Ms') ((dt, Ms) :: cs) /\ run m L N cs (rk_step m L Ms N dt s) = rk_stage m L (Ms' (N - 1)%nat) 1 dt' s' /\ s_mass s' = s_mass s).
  destruct cs as [|c cs].
  - destruct (step_last m L Ms N dt s HN) as (s' & Hs & E & _). exists dt, Ms, s'. split; [left; easy|]. split; [exact E|].
    destruct Hs as (_ & _ & _ & _ & _ & Em & _). exact Em.
  - destruct (IH (rk_step m L Ms N dt s) ltac:(easy)) as (dt' & Ms' & s' & Hin & E & Em). exists dt', Ms', s'.
    split; [right; exact Hin|]. split; [exact E|]. rewrite Em. apply step_const.
Qed.

Lemma stage_void m L M alpha dt s p : let t := rk_stage m L M alpha dt s in In p (points L) -> has_erosion M (fst p) = true ->
  s_eroded t (fst p) (snd p) = true ->
  s_pres t (fst p) (snd p) = 0 /\ s_sspd t (fst p) (snd p) = 1e-32 /\ s_den t (fst p) (snd p) = 1e-32 /\
  forall i j, s_stress t (fst p) (snd p) i j = 0.
Proof.
  intros t Hp HE He. destruct p as [mat sid]. apply points_in in Hp. cbn [fst snd] in *. subst t.
  destruct (stage_end m L M alpha dt s mat (proj1 Hp)) as (s' & _ & E & H1 & H2 & H3 & H4 & H5).
  rewrite H1, H2, H3, H4. rewrite H5 in He. now apply update_state_void.
Qed.

Lemma stage_criterion m L M alpha dt s p T D peos : let t := rk_stage m L M alpha dt s in In p (points L) ->
  has_erosion M (fst p) = true -> decoupled M (fst p) = true ->
  (forall s', erode M s' (fst p) (snd p) = basic_erosion T D s' (fst p) (snd p)) ->
  (forall s', calc_pressure M s' (fst p) (snd p) = peos (s_den s' (fst p) (snd p)) (s_sie s' (fst p) (snd p))) ->
  let rho := s_mass t (fst p) (snd p) / (s_vol t (point_elem L p) * s_volfrac t (fst p) (snd p) * s_geo t (fst p) (snd p) + 1e-20) in
  (s_eroded t (fst p) (snd p) = true <->
   s_eroded s (fst p) (snd p) = true \/ peos rho (s_sie t (fst p) (snd p)) <= T \/ rho <= D).
Proof.
  intros t Hp HE HD Her Hpe rho. destruct p as [mat sid]. apply points_in in Hp. cbn [fst snd] in *.
  destruct (stage_end m L M alpha dt s mat (proj1 Hp)) as (s' & H0 & E & _ & _ & _ & _ & H5). fold t in H0, H5. rewrite H5.
  rewrite (update_state_eroded L M mat s' sid T D peos); auto; [|tauto]. rewrite E, (new_density_ext L M t s' mat sid H0).
  destruct H0 as (_ & _ & _ & _ & _ & _ & _ & _ & _ & _ & _ & Es & _). rewrite Es. unfold new_density. rewrite HD. tauto.
Qed.

Lemma elem_vol_pos m x e : 1e-14 <= elem_vol m x e.
Proof. unfold elem_vol, vol_hex, fmax. apply Rmax_r. Qed.

Lemma stage_density m L M alpha dt s p : let t := rk_stage m L M alpha dt s in In p (points L) ->
  (has_erosion M (fst p) = true -> s_eroded t (fst p) (snd p) = false) ->
  s_den t (fst p) (snd p) = if decoupled M (fst p)
   then s_mass t (fst p) (snd p) / (s_vol t (point_elem L p) * s_volfrac t (fst p) (snd p) * s_geo t (fst p) (snd p) + 1e-20)
   else s_mass t (fst p) (snd p) / (s_vol t (point_elem L p) + 1e-20).
Proof.
  intros t Hp Hn. destruct p as [mat sid]. apply points_in in Hp. cbn [fst snd] in *.
  destruct (stage_end m L M alpha dt s mat (proj1 Hp)) as (s' & H0 & E & H1 & _ & _ & _ & H5). fold t in H0, H1, H5.
  rewrite H1, update_state_den by tauto. rewrite <- H5.
  destruct (has_erosion M mat); cbn [andb]; [rewrite Hn by easy|]; apply (new_density_ext L M t s' mat sid H0).
Qed.

Lemma run_vol m L N cycles s e : (1 <= N)%nat -> cycles <> [] -> 
  s_vol (run m L N cycles s) e = elem_vol m (s_x (run m L N cycles s)) e.
Proof.
  intros HN Hc. destruct (run_last m L N cycles s HN Hc) as (dt & Ms & s' & _ & E & _). rewrite E.
  apply (sf_vol _ _ _ _ _ _ _ (stage_spec m L (Ms (N - 1)%nat) 1 dt s')).
Qed.

Lemma run_density m L N cycles s p : (1 <= N)%nat -> cycles <> [] -> In p (points L) ->
  let t := run m L N cycles s in
  (forall dt Ms k, In (dt, Ms) cycles -> decoupled (Ms k) (fst p) = true) ->
  s_eroded t (fst p) (snd p) = false -> 0 <= s_volfrac t (fst p) (snd p) -> 0 <= s_geo t (fst p) (snd p) ->
  s_den t (fst p) (snd p) * (s_vol t (point_elem L p) * s_volfrac t (fst p) (snd p) * s_geo t (fst p) (snd p) + 1e-20) = s_mass s (fst p) (snd p).
Proof.
  intros HN Hc Hp t HD He Hv Hg. destruct (run_last m L N cycles s HN Hc) as (dt & Ms & s' & Hin & E & Em). fold t in E.
  assert (A := stage_density m L (Ms (N - 1)%nat) 1 dt s' p). cbv zeta in A. rewrite <- E in A. rewrite A, (HD dt) by auto.
  assert (V : 0 < s_vol t (point_elem L p)).
  { unfold t. rewrite run_vol by auto. assert (H := elem_vol_pos m (s_x (run m L N cycles s)) (point_elem L p)). lra. }
  replace (s_mass t) with (s_mass s). 2:{ symmetry. apply run_const. }
  assert (0 <= s_vol t (point_elem L p) * s_volfrac t (fst p) (snd p) * s_geo t (fst p) (snd p)).
  { apply Rmult_le_pos; [apply Rmult_le_pos; lra|lra]. }
  field. lra.
Qed.

Lemma run_density_coupled m L N cycles s p : (1 <= N)%nat -> cycles <> [] -> In p (points L) ->
  let t := run m L N cycles s in
  (forall dt Ms k, In (dt, Ms) cycles -> decoupled (Ms k) (fst p) = false) ->
  s_eroded t (fst p) (snd p) = false ->
  s_den t (fst p) (snd p) * (s_vol t (point_elem L p) + 1e-20) = s_mass s (fst p) (snd p).
Proof.
  intros HN Hc Hp t HD He. destruct (run_last m L N cycles s HN Hc) as (dt & Ms & s' & Hin & E & Em). fold t in E.
  assert (A := stage_density m L (Ms (N - 1)%nat) 1 dt s' p). cbv zeta in A. rewrite <- E in A. rewrite A, (HD dt) by auto.
  assert (V : 0 < s_vol t (point_elem L p)).
  { unfold t. rewrite run_vol by auto. assert (H := elem_vol_pos m (s_x (run m L N cycles s)) (point_elem L p)). lra. }
  replace (s_mass t) with (s_mass s). 2:{ symmetry. apply run_const. }
  field. lra.
Qed.
