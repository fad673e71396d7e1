(** Lemmas about MeshIndexModel. *)
From Coq Require Import ZArith List Bool Lia Permutation.
From Verif Require Import BaseArr MeshIndexModel MeshIndexSpec.
Import ListNotations.
Local Open Scope Z_scope.

(** Position class of a coordinate: 0 first, 1 interior, 2 last. *)
Definition cls (x o : Z) : nat := if x =? 0 then 0%nat else if x =? o then 2%nat else 1%nat.

Definition sizes (a b c : Z) : list Z :=
  [1;1;1;1;1;1;1;1; a;b;a;b;a;b;a;b; c;c;c;c; b*c;b*c; c*a;c*a; a*b;a*b; a*b*c].
Definition cum (a b c : Z) (r : nat) : Z := fold_right Z.add 0 (firstn r (sizes a b c)).

Definition rank (ci cj ck : nat) : nat :=
  match ci, cj, ck with
  | 0, 0, 0 => 0 | 2, 0, 0 => 1 | 2, 2, 0 => 2 | 0, 2, 0 => 3
  | 0, 0, 2 => 4 | 2, 0, 2 => 5 | 2, 2, 2 => 6 | 0, 2, 2 => 7
  | 1, 0, 0 => 8 | 2, 1, 0 => 9 | 1, 2, 0 => 10 | 0, 1, 0 => 11
  | 1, 0, 2 => 12 | 2, 1, 2 => 13 | 1, 2, 2 => 14 | 0, 1, 2 => 15
  | 0, 0, 1 => 16 | 2, 0, 1 => 17 | 0, 2, 1 => 18 | 2, 2, 1 => 19
  | 0, 1, 1 => 20 | 2, 1, 1 => 21
  | 1, 0, 1 => 22 | 1, 2, 1 => 23
  | 1, 1, 0 => 24 | 1, 1, 2 => 25
  | _, _, _ => 26
  end%nat.

Lemma cls_cases x o : 1 <= o -> 0 <= x <= o ->
  (cls x o = 0%nat /\ x = 0) \/ (cls x o = 1%nat /\ 1 <= x <= o - 1) \/ (cls x o = 2%nat /\ x = o).
Proof.
  intros Ho Hx. unfold cls. destruct (Z.eqb_spec x 0); [left; lia|].
  destruct (Z.eqb_spec x o); [right; right; lia|right; left; lia].
Qed.

Lemma cls_le x o : (cls x o <= 2)%nat.
Proof. unfold cls. destruct (x =? 0); [lia|]. destruct (x =? o); lia. Qed.

Lemma rank_inj a b c a' b' c' :
  (a <= 2 -> b <= 2 -> c <= 2 -> a' <= 2 -> b' <= 2 -> c' <= 2 ->
  rank a b c = rank a' b' c' -> a = a' /\ b = b' /\ c = c')%nat.
Proof.
  assert (T : forall n, (n <= 2)%nat -> n = 0%nat \/ n = 1%nat \/ n = 2%nat) by (intros; lia).
  intros Ha Hb Hc Ha' Hb' Hc'.
  destruct (T a Ha) as [->|[->| ->]]; destruct (T b Hb) as [->|[->| ->]];
  destruct (T c Hc) as [->|[->| ->]]; destruct (T a' Ha') as [->|[->| ->]];
  destruct (T b' Hb') as [->|[->| ->]]; destruct (T c' Hc') as [->|[->| ->]];
  cbn [rank]; intros H; try discriminate H; auto.
Qed.

Lemma rank_lt a b c : (rank a b c < 27)%nat.
Proof.
  unfold rank. repeat match goal with |- context [match ?x with _ => _ end] => destruct x end; lia.
Qed.

(** Evaluate the boolean tests of PointIndexFromIJK from the class facts. *)
Ltac zb := repeat match goal with
  | |- context [?x =? ?y] =>
      first [ replace (x =? y) with true by (symmetry; apply Z.eqb_eq; lia)
            | replace (x =? y) with false by (symmetry; apply Z.eqb_neq; lia) ];
      cbn [orb negb]
  end.

Lemma PI_vertex i j k o0 o1 o2 :
  1 <= o0 -> 1 <= o1 -> 1 <= o2 -> (i = 0 \/ i = o0) -> (j = 0 \/ j = o1) -> (k = 0 \/ k = o2) ->
  PointIndexFromIJK i j k o0 o1 o2 =
  (if nz i then (if nz j then 2 else 1) else (if nz j then 3 else 0)) + (if nz k then 4 else 0).
Proof.
  intros Ho0 Ho1 Ho2 Hi Hj Hk. unfold PointIndexFromIJK.
  replace ((i =? 0) || (i =? o0)) with true by (symmetry; apply orb_true_iff; rewrite !Z.eqb_eq; lia).
  replace ((j =? 0) || (j =? o1)) with true by (symmetry; apply orb_true_iff; rewrite !Z.eqb_eq; lia).
  replace ((k =? 0) || (k =? o2)) with true by (symmetry; apply orb_true_iff; rewrite !Z.eqb_eq; lia).
  reflexivity.
Qed.

Lemma bdy_true x o : x = 0 \/ x = o -> (x =? 0) || (x =? o) = true.
Proof. intros H. apply orb_true_iff. rewrite !Z.eqb_eq. lia. Qed.
Lemma bdy_false x o : 1 <= x <= o - 1 -> (x =? 0) || (x =? o) = false.
Proof. intros H. apply orb_false_iff. rewrite !Z.eqb_neq. lia. Qed.
Lemma nz_0 : nz 0 = false. Proof. reflexivity. Qed.
Lemma nz_pos x : 1 <= x -> nz x = true.
Proof. intros H. unfold nz. apply negb_true_iff, Z.eqb_neq. lia. Qed.

Lemma local2 x y a b : 1 <= x <= a -> 1 <= y <= b -> 0 <= (x - 1) + a * (y - 1) < a * b.
Proof. nia. Qed.
Lemma local3 x y z a b c : 1 <= x <= a -> 1 <= y <= b -> 1 <= z <= c ->
  0 <= (x - 1) + a * ((y - 1) + b * (z - 1)) < a * b * c.
Proof.
  intros Hx Hy Hz. pose proof (local2 y z b c Hy Hz). rewrite <- Z.mul_assoc. nia.
Qed.

(** the block decomposition *)
Lemma PI_block i j k o0 o1 o2 :
  1 <= o0 -> 1 <= o1 -> 1 <= o2 -> 0 <= i <= o0 -> 0 <= j <= o1 -> 0 <= k <= o2 ->
  let r := rank (cls i o0) (cls j o1) (cls k o2) in
  let a := o0 - 1 in let b := o1 - 1 in let c := o2 - 1 in
  cum a b c r <= PointIndexFromIJK i j k o0 o1 o2 < cum a b c (S r).
Proof.
  intros Ho0 Ho1 Ho2 Hi Hj Hk.
  destruct (cls_cases i o0 Ho0 Hi) as [[-> Ei]|[[-> Ei]|[-> Ei]]];
  destruct (cls_cases j o1 Ho1 Hj) as [[-> Ej]|[[-> Ej]|[-> Ej]]];
  destruct (cls_cases k o2 Ho2 Hk) as [[-> Ek]|[[-> Ek]|[-> Ek]]];
  cbn [rank]; cbv zeta; unfold cum, sizes; cbn [firstn fold_right];
  unfold PointIndexFromIJK;
  repeat first
   [ rewrite (bdy_true i o0) by lia | rewrite (bdy_false i o0) by lia
   | rewrite (bdy_true j o1) by lia | rewrite (bdy_false j o1) by lia
   | rewrite (bdy_true k o2) by lia | rewrite (bdy_false k o2) by lia ];
  cbv zeta; cbv iota;
  repeat match goal with |- context [?x =? ?n] => let b := eval vm_compute in (x =? n) in change (x =? n) with b end;
  cbn [negb]; cbv iota;
  try (rewrite (nz_pos i) by lia); try (rewrite (nz_pos j) by lia); try (rewrite (nz_pos k) by lia);
  try (replace (nz i) with false by (rewrite Ei; reflexivity));
  try (replace (nz j) with false by (rewrite Ej; reflexivity));
  try (replace (nz k) with false by (rewrite Ek; reflexivity));
  try lia;
  try (pose proof (local2 j k (o1 - 1) (o2 - 1) ltac:(lia) ltac:(lia)); lia);
  try (pose proof (local2 i k (o0 - 1) (o2 - 1) ltac:(lia) ltac:(lia)); lia);
  try (pose proof (local2 i j (o0 - 1) (o1 - 1) ltac:(lia) ltac:(lia)); lia);
  try (pose proof (local3 i j k (o0 - 1) (o1 - 1) (o2 - 1) ltac:(lia) ltac:(lia) ltac:(lia)); lia).
Qed.

Lemma cum_mono a b c r r' : 0 <= a -> 0 <= b -> 0 <= c -> (r <= r')%nat -> cum a b c r <= cum a b c r'.
Proof.
  intros Ha Hb Hc Hr.
  assert (Hs : forall n, 0 <= nth n (sizes a b c) 0).
  { intros n. assert (0 <= b * c) by nia. assert (0 <= c * a) by nia. assert (0 <= a * b) by nia.
    assert (0 <= a * b * c) by nia.
    do 27 (destruct n as [|n]; [cbn; lia|]). destruct n; cbn; lia. }
  revert Hs Hr. unfold cum. generalize (sizes a b c). intros l Hs Hr.
  revert r r' Hs Hr. induction l as [|x l IH]; intros r r' Hs Hr.
  - rewrite !firstn_nil. lia.
  - destruct r as [|r]; [|destruct r' as [|r']; [lia|]].
    + cbn [firstn fold_right]. clear Hr IH. revert r'.
      assert (G : forall (l : list Z), (forall n, 0 <= nth n l 0) -> forall n, 0 <= fold_right Z.add 0 (firstn n l)).
      { clear. induction l as [|x l IH]; intros H n; [rewrite firstn_nil; cbn; lia|].
        destruct n; cbn; [lia|]. specialize (IH (fun m => H (S m)) n). specialize (H O). cbn in H. lia. }
      intros r'. apply G. exact Hs.
    + cbn [firstn fold_right]. apply Zplus_le_compat_l. apply IH; [intros n; exact (Hs (S n))|lia].
Qed.

Lemma cum_total o0 o1 o2 : cum (o0 - 1) (o1 - 1) (o2 - 1) 27 = (o0 + 1) * (o1 + 1) * (o2 + 1).
Proof. unfold cum, sizes. cbn [firstn fold_right]. ring. Qed.

Lemma PI_range i j k o0 o1 o2 :
  1 <= o0 -> 1 <= o1 -> 1 <= o2 -> 0 <= i <= o0 -> 0 <= j <= o1 -> 0 <= k <= o2 ->
  0 <= PointIndexFromIJK i j k o0 o1 o2 < (o0 + 1) * (o1 + 1) * (o2 + 1).
Proof.
  intros Ho0 Ho1 Ho2 Hi Hj Hk.
  pose proof (PI_block i j k o0 o1 o2 Ho0 Ho1 Ho2 Hi Hj Hk) as [H1 H2].
  pose proof (rank_lt (cls i o0) (cls j o1) (cls k o2)) as Hr.
  rewrite <- cum_total. split.
  - eapply Z.le_trans; [|exact H1]. apply (cum_mono _ _ _ 0); lia.
  - eapply Z.lt_le_trans; [exact H2|]. apply cum_mono; lia.
Qed.

Lemma mix2 x x' y y' a : 1 <= x <= a -> 1 <= x' <= a ->
  (x - 1) + a * (y - 1) = (x' - 1) + a * (y' - 1) -> x = x' /\ y = y'.
Proof. intros H1 H2 H. assert (y = y') by nia. subst. lia. Qed.

Lemma PI_inj i j k i' j' k' o0 o1 o2 :
  1 <= o0 -> 1 <= o1 -> 1 <= o2 ->
  0 <= i <= o0 -> 0 <= j <= o1 -> 0 <= k <= o2 ->
  0 <= i' <= o0 -> 0 <= j' <= o1 -> 0 <= k' <= o2 ->
  PointIndexFromIJK i j k o0 o1 o2 = PointIndexFromIJK i' j' k' o0 o1 o2 ->
  i = i' /\ j = j' /\ k = k'.
Proof.
  intros Ho0 Ho1 Ho2 Hi Hj Hk Hi' Hj' Hk' E.
  pose proof (PI_block i j k o0 o1 o2 Ho0 Ho1 Ho2 Hi Hj Hk) as [A1 A2].
  pose proof (PI_block i' j' k' o0 o1 o2 Ho0 Ho1 Ho2 Hi' Hj' Hk') as [B1 B2].
  set (r := rank (cls i o0) (cls j o1) (cls k o2)) in *.
  set (r' := rank (cls i' o0) (cls j' o1) (cls k' o2)) in *.
  cbv zeta in *.
  assert (R : r = r').
  { destruct (Nat.lt_trichotomy r r') as [L|[L|L]]; [|exact L|].
    - pose proof (cum_mono (o0 - 1) (o1 - 1) (o2 - 1) (S r) r' ltac:(lia) ltac:(lia) ltac:(lia) ltac:(lia)). lia.
    - pose proof (cum_mono (o0 - 1) (o1 - 1) (o2 - 1) (S r') r ltac:(lia) ltac:(lia) ltac:(lia) ltac:(lia)). lia. }
  apply rank_inj in R; try apply cls_le. destruct R as (R1 & R2 & R3).
  clear A1 A2 B1 B2 r r'.
  destruct (cls_cases i o0 Ho0 Hi) as [[C1 Ei]|[[C1 Ei]|[C1 Ei]]];
  destruct (cls_cases j o1 Ho1 Hj) as [[C2 Ej]|[[C2 Ej]|[C2 Ej]]];
  destruct (cls_cases k o2 Ho2 Hk) as [[C3 Ek]|[[C3 Ek]|[C3 Ek]]];
  rewrite C1 in R1; rewrite C2 in R2; rewrite C3 in R3;
  (destruct (cls_cases i' o0 Ho0 Hi') as [[D1 Ei']|[[D1 Ei']|[D1 Ei']]]; try congruence);
  (destruct (cls_cases j' o1 Ho1 Hj') as [[D2 Ej']|[[D2 Ej']|[D2 Ej']]]; try congruence);
  (destruct (cls_cases k' o2 Ho2 Hk') as [[D3 Ek']|[[D3 Ek']|[D3 Ek']]]; try congruence);
  clear R1 R2 R3 C1 C2 C3 D1 D2 D3; try lia;
  revert E; unfold PointIndexFromIJK;
  repeat first
   [ rewrite (bdy_true i o0) by lia | rewrite (bdy_false i o0) by lia
   | rewrite (bdy_true j o1) by lia | rewrite (bdy_false j o1) by lia
   | rewrite (bdy_true k o2) by lia | rewrite (bdy_false k o2) by lia
   | rewrite (bdy_true i' o0) by lia | rewrite (bdy_false i' o0) by lia
   | rewrite (bdy_true j' o1) by lia | rewrite (bdy_false j' o1) by lia
   | rewrite (bdy_true k' o2) by lia | rewrite (bdy_false k' o2) by lia ];
  cbv zeta; cbv iota;
  repeat match goal with |- context [?x =? ?n] => let b := eval vm_compute in (x =? n) in change (x =? n) with b end;
  cbn [negb]; cbv iota;
  try (rewrite (nz_pos i) by lia); try (rewrite (nz_pos j) by lia); try (rewrite (nz_pos k) by lia);
  try (rewrite (nz_pos i') by lia); try (rewrite (nz_pos j') by lia); try (rewrite (nz_pos k') by lia);
  try (replace (nz i) with false by (rewrite Ei; reflexivity));
  try (replace (nz j) with false by (rewrite Ej; reflexivity));
  try (replace (nz k) with false by (rewrite Ek; reflexivity));
  try (replace (nz i') with false by (rewrite Ei'; reflexivity));
  try (replace (nz j') with false by (rewrite Ej'; reflexivity));
  try (replace (nz k') with false by (rewrite Ek'; reflexivity));
  intros E; try lia;
  try (destruct (mix2 j j' k k' (o1 - 1) ltac:(lia) ltac:(lia) ltac:(lia)); lia);
  try (destruct (mix2 i i' k k' (o0 - 1) ltac:(lia) ltac:(lia) ltac:(lia)); lia);
  try (destruct (mix2 i i' j j' (o0 - 1) ltac:(lia) ltac:(lia) ltac:(lia)); lia).
  assert (E' : (i - 1) + (o0 - 1) * ((j - 1 + (o1 - 1) * (k - 1) + 1) - 1) =
               (i' - 1) + (o0 - 1) * ((j' - 1 + (o1 - 1) * (k' - 1) + 1) - 1)) by lia.
  apply mix2 in E' as [Hii E']; [|lia|lia].
  destruct (mix2 j j' k k' (o1 - 1) ltac:(lia) ltac:(lia) ltac:(lia)); lia.
Qed.

(** ** Lists *)

Lemma in_ijk_loop p i j k : In (i, j, k) (ijk_loop p) <-> (i <= p /\ j <= p /\ k <= p)%nat.
Proof.
  unfold ijk_loop. rewrite in_flat_map_seq. split.
  - intros (k0 & Hk & H). apply in_flat_map_seq in H as (j0 & Hj & H).
    apply in_map_iff in H as (i0 & E & H). apply in_seq in H. injection E as -> -> ->. lia.
  - intros (Hi & Hj & Hk). exists k. split; [lia|]. apply in_flat_map_seq. exists j. split; [lia|].
    apply in_map_iff. exists i. split; [reflexivity|]. apply in_seq. lia.
Qed.

Lemma NoDup_flat_map {A B} (f : A -> list B) l :
  NoDup l -> (forall x, In x l -> NoDup (f x)) ->
  (forall x y z, In x l -> In y l -> In z (f x) -> In z (f y) -> x = y) -> NoDup (flat_map f l).
Proof.
  induction l as [|x l IH]; intros H1 H2 H3; [constructor|]. cbn [flat_map].
  inversion H1; subst.
  assert (NoDup (flat_map f l)).
  { apply IH; [assumption|intros; apply H2; right; assumption|].
    intros a b c Ha Hb; apply H3; right; assumption. }
  assert (Hx : NoDup (f x)) by (apply H2; left; reflexivity).
  assert (Hd : forall z, In z (f x) -> ~ In z (flat_map f l)).
  { intros z Hz Hin. apply in_flat_map in Hin as (y & Hy & Hzy).
    assert (x = y) by (eapply H3; [left; reflexivity|right; exact Hy|exact Hz|exact Hzy]). subst. contradiction. }
  clear - Hx H Hd. induction (f x) as [|a fx IHx]; [assumption|].
  inversion Hx; subst. cbn. constructor.
  - rewrite in_app_iff. intros [Ha|Ha]; [contradiction|]. apply (Hd a); [left; reflexivity|assumption].
  - apply IHx; [assumption|]. intros z Hz. apply Hd. right; assumption.
Qed.

Lemma ijk_loop_nodup p : NoDup (ijk_loop p).
Proof.
  unfold ijk_loop. apply NoDup_flat_map; [apply seq_NoDup| |].
  - intros k _. apply NoDup_flat_map; [apply seq_NoDup| |].
    + intros j _. apply FinFun.Injective_map_NoDup; [|apply seq_NoDup]. intros a b E. congruence.
    + intros j1 j2 z _ _ H1 H2. apply in_map_iff in H1 as (i1 & <- & _). apply in_map_iff in H2 as (i2 & E & _). congruence.
  - intros k1 k2 z _ _ H1 H2. apply in_flat_map_seq in H1 as (j1 & _ & H1). apply in_flat_map_seq in H2 as (j2 & _ & H2).
    apply in_map_iff in H1 as (i1 & <- & _). apply in_map_iff in H2 as (i2 & E & _). congruence.
Qed.

Lemma flat_map_const_length {A B} (f : A -> list B) n l :
  (forall x, In x l -> length (f x) = n) -> length (flat_map f l) = (length l * n)%nat.
Proof.
  induction l as [|x l IH]; intros H; [reflexivity|]. cbn. rewrite app_length, IH, H; [reflexivity|left; reflexivity|].
  intros; apply H; right; assumption.
Qed.

Lemma ijk_loop_length p : length (ijk_loop p) = ((p + 1) * (p + 1) * (p + 1))%nat.
Proof.
  unfold ijk_loop. rewrite (flat_map_const_length _ ((p + 1) * (p + 1))%nat).
  - rewrite seq_length. lia.
  - intros k _. rewrite (flat_map_const_length _ (p + 1)%nat).
    + rewrite seq_length. reflexivity.
    + intros j _. now rewrite map_length, seq_length.
Qed.

Lemma vtk_lid_range p t : (1 <= p)%nat -> In t (ijk_loop p) ->
  0 <= vtk_lid p t < Z.of_nat ((p + 1) * (p + 1) * (p + 1)).
Proof.
  destruct t as [[i j] k]. intros Hp Hin. apply in_ijk_loop in Hin. unfold vtk_lid.
  pose proof (PI_range (Z.of_nat i) (Z.of_nat j) (Z.of_nat k) (Z.of_nat p) (Z.of_nat p) (Z.of_nat p)
    ltac:(lia) ltac:(lia) ltac:(lia) ltac:(lia) ltac:(lia) ltac:(lia)).
  rewrite !Nat2Z.inj_mul, !Nat2Z.inj_add. exact H.
Qed.

Lemma vtk_lid_inj p t t' : (1 <= p)%nat -> In t (ijk_loop p) -> In t' (ijk_loop p) ->
  vtk_lid p t = vtk_lid p t' -> t = t'.
Proof.
  destruct t as [[i j] k], t' as [[i' j'] k']. intros Hp H H' E.
  apply in_ijk_loop in H. apply in_ijk_loop in H'. unfold vtk_lid in E.
  apply PI_inj in E; [|lia..]. destruct E as (E1 & E2 & E3). f_equal; [f_equal|]; lia.
Qed.

(** local ids visited, as naturals *)
Definition lids (p : nat) : list nat := map (fun t => Z.to_nat (vtk_lid p t)) (ijk_loop p).

Lemma NoDup_map_in {A B} (f : A -> B) l :
  NoDup l -> (forall x y, In x l -> In y l -> f x = f y -> x = y) -> NoDup (map f l).
Proof.
  induction l as [|a l IH]; intros H1 H2; [constructor|]. cbn. inversion H1; subst. constructor.
  - intros Hin. apply in_map_iff in Hin as (b & E & Hb).
    assert (b = a) by (apply H2; [right; assumption|left; reflexivity|assumption]). subst; contradiction.
  - apply IH; [assumption|]. intros x y Hx Hy. apply H2; right; assumption.
Qed.

Lemma lids_nodup p : (1 <= p)%nat -> NoDup (lids p).
Proof.
  intros Hp. unfold lids. apply NoDup_map_in; [apply ijk_loop_nodup|].
  intros t t' Ht Ht' E. pose proof (vtk_lid_range p t Hp Ht). pose proof (vtk_lid_range p t' Hp Ht').
  eapply vtk_lid_inj; eauto. lia.
Qed.

Lemma lids_length p : length (lids p) = ((p + 1) * (p + 1) * (p + 1))%nat.
Proof. unfold lids. now rewrite map_length, ijk_loop_length. Qed.

Lemma lids_perm p : (1 <= p)%nat -> Permutation (lids p) (seq 0 ((p + 1) * (p + 1) * (p + 1))).
Proof.
  intros Hp. apply NoDup_Permutation_bis; [apply lids_nodup; assumption| |].
  - rewrite seq_length, lids_length. lia.
  - intros m Hm. unfold lids in Hm. apply in_map_iff in Hm as (t & <- & Ht).
    pose proof (vtk_lid_range p t Hp Ht). apply in_seq. lia.
Qed.

(** surjectivity, general orders *)
Definition box3 (o0 o1 o2 : nat) : list (nat * nat * nat) :=
  flat_map (fun k => flat_map (fun j => map (fun i => (i, j, k)) (seq 0 (o0 + 1))) (seq 0 (o1 + 1))) (seq 0 (o2 + 1)).

Lemma in_box3 o0 o1 o2 i j k : In (i, j, k) (box3 o0 o1 o2) <-> (i <= o0 /\ j <= o1 /\ k <= o2)%nat.
Proof.
  unfold box3. rewrite in_flat_map_seq. split.
  - intros (k0 & Hk & H). apply in_flat_map_seq in H as (j0 & Hj & H).
    apply in_map_iff in H as (i0 & E & H). apply in_seq in H. injection E as -> -> ->. lia.
  - intros (Hi & Hj & Hk). exists k. split; [lia|]. apply in_flat_map_seq. exists j. split; [lia|].
    apply in_map_iff. exists i. split; [reflexivity|]. apply in_seq. lia.
Qed.

Lemma box3_nodup o0 o1 o2 : NoDup (box3 o0 o1 o2).
Proof.
  unfold box3. apply NoDup_flat_map; [apply seq_NoDup| |].
  - intros k _. apply NoDup_flat_map; [apply seq_NoDup| |].
    + intros j _. apply FinFun.Injective_map_NoDup; [|apply seq_NoDup]. intros a b E. congruence.
    + intros j1 j2 z _ _ H1 H2. apply in_map_iff in H1 as (i1 & <- & _). apply in_map_iff in H2 as (i2 & E & _). congruence.
  - intros k1 k2 z _ _ H1 H2. apply in_flat_map_seq in H1 as (j1 & _ & H1). apply in_flat_map_seq in H2 as (j2 & _ & H2).
    apply in_map_iff in H1 as (i1 & <- & _). apply in_map_iff in H2 as (i2 & E & _). congruence.
Qed.

Lemma box3_length o0 o1 o2 : length (box3 o0 o1 o2) = ((o0 + 1) * (o1 + 1) * (o2 + 1))%nat.
Proof.
  unfold box3. rewrite (flat_map_const_length _ ((o1 + 1) * (o0 + 1))%nat).
  - rewrite seq_length. lia.
  - intros k _. rewrite (flat_map_const_length _ (o0 + 1)%nat).
    + rewrite seq_length. reflexivity.
    + intros j _. now rewrite map_length, seq_length.
Qed.

Lemma PI_surj o0 o1 o2 n : 1 <= o0 -> 1 <= o1 -> 1 <= o2 -> 0 <= n < (o0 + 1) * (o1 + 1) * (o2 + 1) ->
  exists i j k, 0 <= i <= o0 /\ 0 <= j <= o1 /\ 0 <= k <= o2 /\ PointIndexFromIJK i j k o0 o1 o2 = n.
Proof.
  intros H0 H1 H2 Hn.
  set (f := fun t : nat * nat * nat => let '(i, j, k) := t in
     Z.to_nat (PointIndexFromIJK (Z.of_nat i) (Z.of_nat j) (Z.of_nat k) o0 o1 o2)).
  set (l := box3 (Z.to_nat o0) (Z.to_nat o1) (Z.to_nat o2)).
  set (N := ((Z.to_nat o0 + 1) * (Z.to_nat o1 + 1) * (Z.to_nat o2 + 1))%nat).
  assert (HN : Z.of_nat N = (o0 + 1) * (o1 + 1) * (o2 + 1)).
  { unfold N. rewrite !Nat2Z.inj_mul, !Nat2Z.inj_add, !Z2Nat.id by lia. reflexivity. }
  assert (Hr : forall t, In t l -> (f t < N)%nat /\ forall t', In t' l -> f t = f t' -> t = t').
  { intros [[i j] k] Ht. unfold l in Ht. apply in_box3 in Ht.
    pose proof (PI_range (Z.of_nat i) (Z.of_nat j) (Z.of_nat k) o0 o1 o2 H0 H1 H2 ltac:(lia) ltac:(lia) ltac:(lia)) as R.
    split; [unfold f; lia|].
    intros [[i' j'] k'] Ht' E. unfold l in Ht'. apply in_box3 in Ht'.
    pose proof (PI_range (Z.of_nat i') (Z.of_nat j') (Z.of_nat k') o0 o1 o2 H0 H1 H2 ltac:(lia) ltac:(lia) ltac:(lia)) as R'.
    unfold f in E. apply Z2Nat.inj in E; [|lia|lia].
    apply PI_inj in E; [|lia..]. destruct E as (E1 & E2 & E3). f_equal; [f_equal|]; lia. }
  assert (P : Permutation (map f l) (seq 0 N)).
  { apply NoDup_Permutation_bis.
    - apply NoDup_map_in; [apply box3_nodup|]. intros x y Hx Hy. now apply Hr.
    - rewrite seq_length, map_length. unfold l. rewrite box3_length. fold N. lia.
    - intros m Hm. apply in_map_iff in Hm as (t & <- & Ht). apply in_seq. split; [lia|]. now apply Hr. }
  assert (Hin : In (Z.to_nat n) (map f l)).
  { eapply Permutation_in; [apply Permutation_sym; exact P|]. apply in_seq. lia. }
  apply in_map_iff in Hin as ([[i j] k] & E & Ht). unfold l in Ht. apply in_box3 in Ht.
  pose proof (PI_range (Z.of_nat i) (Z.of_nat j) (Z.of_nat k) o0 o1 o2 H0 H1 H2 ltac:(lia) ltac:(lia) ltac:(lia)) as R.
  exists (Z.of_nat i), (Z.of_nat j), (Z.of_nat k). unfold f in E. repeat split; try lia.
Qed.

(** ** omap, lset *)

Lemma omap_some {A B} (f : A -> option B) l r :
  omap f l = Some r <-> length r = length l /\ forall n x, nth_error l n = Some x -> exists y, f x = Some y /\ nth_error r n = Some y.
Proof.
  revert r. induction l as [|a l IH]; intros r; cbn [omap].
  - split.
    + intros E; injection E as <-. split; [reflexivity|]. intros n x H. destruct n; discriminate.
    + intros [H _]. destruct r; [reflexivity|discriminate].
  - split.
    + destruct (f a) as [b|] eqn:Ea; cbn [obind]; [|discriminate].
      destruct (omap f l) as [r'|] eqn:E; cbn [option_map]; [|discriminate].
      intros E'; injection E' as <-. destruct (proj1 (IH r') eq_refl) as [H1 H2].
      split; [cbn; now rewrite H1|]. intros [|n] x Hx; cbn in Hx.
      * injection Hx as <-. exists b. auto.
      * apply H2; assumption.
    + intros [H1 H2]. destruct r as [|b r]; [discriminate|].
      destruct (H2 O a eq_refl) as (y & E1 & E2). cbn in E2. injection E2 as <-. rewrite E1. cbn [obind].
      rewrite (proj2 (IH r)); [reflexivity|]. split; [cbn in H1; lia|].
      intros n x Hx. exact (H2 (S n) x Hx).
Qed.

Lemma lset_some {A} (l : list A) n v : (n < length l)%nat ->
  exists l', lset l n v = Some l' /\ length l' = length l /\
    forall m, nth_error l' m = if Nat.eqb m n then Some v else nth_error l m.
Proof.
  revert n. induction l as [|x l IH]; intros n H; [cbn in H; lia|].
  destruct n as [|n].
  - exists (v :: l). split; [reflexivity|]. split; [reflexivity|]. intros [|m]; reflexivity.
  - cbn in H. destruct (IH n ltac:(lia)) as (l' & E & H1 & H2).
    exists (x :: l'). cbn. rewrite E. split; [reflexivity|]. split; [now rewrite H1|].
    intros [|m]; [reflexivity|]. cbn. apply H2.
Qed.

(** Building the inverse table. *)
Lemma conv_loop {X} (g : X -> Z) (l : list X) : forall (tab : list (option nat)) n0,
  (forall t, In t l -> 0 <= g t < Z.of_nat (length tab)) ->
  NoDup (map (fun t => Z.to_nat (g t)) l) ->
  exists tab',
    for_each l (fun t '(tab, this_node) =>
          option_map (fun tab' => (tab', S this_node)) (zset tab (g t) (Some this_node))) (tab, n0)
    = Some (tab', (n0 + length l)%nat) /\
    length tab' = length tab /\
    (forall i t, nth_error l i = Some t -> nth_error tab' (Z.to_nat (g t)) = Some (Some (n0 + i)%nat)) /\
    (forall m, ~ In m (map (fun t => Z.to_nat (g t)) l) -> nth_error tab' m = nth_error tab m).
Proof.
  induction l as [|t l IH]; intros tab n0 Hr Hn.
  - exists tab. cbn. rewrite Nat.add_0_r. repeat split; auto. intros i t H; destruct i; discriminate.
  - cbn [for_each map] in *. inversion Hn as [|x l0 Hn1 Hn2]; subst.
    pose proof (Hr t (or_introl eq_refl)) as Rt.
    unfold zset at 1. destruct (Z.ltb_spec (g t) 0); [lia|].
    destruct (lset_some tab (Z.to_nat (g t)) (Some n0) ltac:(lia)) as (tab1 & E1 & L1 & N1).
    rewrite E1. cbn [option_map obind].
    destruct (IH tab1 (S n0)) as (tab' & E & L & N & M).
    { intros t' Ht'. rewrite L1. apply Hr; right; assumption. }
    { assumption. }
    exists tab'. split; [rewrite E; f_equal; f_equal; cbn; lia|]. split; [congruence|]. split.
    + intros [|i] t' Hi; cbn in Hi.
      * injection Hi as <-. rewrite M by assumption. rewrite N1, Nat.eqb_refl. do 2 f_equal. lia.
      * rewrite (N i t' Hi). do 2 f_equal. lia.
    + intros m Hm. rewrite M by (intros Hin; apply Hm; right; assumption). rewrite N1.
      destruct (Nat.eqb_spec m (Z.to_nat (g t))) as [->|]; [exfalso; apply Hm; left; reflexivity|reflexivity].
Qed.

Lemma convert_pn_some p : (1 <= p)%nat -> exists tab, convert_pn p = Some tab /\
  length tab = ((p + 1) * (p + 1) * (p + 1))%nat /\
  forall n t, nth_error (ijk_loop p) n = Some t -> nth_error tab (Z.to_nat (vtk_lid p t)) = Some (Some n).
Proof.
  intros Hp. unfold convert_pn.
  destruct (conv_loop (vtk_lid p) (ijk_loop p) (repeat None ((p + 1) * (p + 1) * (p + 1))) 0) as (tab & E & L & N & _).
  - intros t Ht. rewrite repeat_length. now apply vtk_lid_range.
  - apply lids_nodup; assumption.
  - match goal with |- context [option_map fst ?x] => change x with
      (for_each (ijk_loop p) (fun t '(tab, this_node) =>
          option_map (fun tab' => (tab', S this_node)) (zset tab (vtk_lid p t) (Some this_node)))
       (repeat None ((p + 1) * (p + 1) * (p + 1)), O)) end.
    rewrite E. cbn [option_map fst]. exists tab. split; [reflexivity|].
    split; [now rewrite L, repeat_length|]. intros n t H. exact (N n t H).
Qed.

Lemma lids_hit p m : (1 <= p)%nat -> (m < (p + 1) * (p + 1) * (p + 1))%nat ->
  exists n t, nth_error (ijk_loop p) n = Some t /\ vtk_lid p t = Z.of_nat m.
Proof.
  intros Hp Hm.
  assert (Hin : In m (lids p)).
  { eapply Permutation_in; [apply Permutation_sym, lids_perm; assumption|]. apply in_seq. lia. }
  unfold lids in Hin. apply in_map_iff in Hin as (t & E & Ht).
  pose proof (vtk_lid_range p t Hp Ht). apply In_nth_error in Ht as [n Hn]. exists n, t. split; [assumption|lia].
Qed.

Lemma write_pn_some p nodes : (1 <= p)%nat -> length nodes = ((p + 1) * (p + 1) * (p + 1))%nat ->
  exists conn, write_pn_elem p nodes = Some conn /\ length conn = length nodes /\
    forall n t, nth_error (ijk_loop p) n = Some t -> nth_error conn n = nth_error nodes (Z.to_nat (vtk_lid p t)).
Proof.
  intros Hp HL. unfold write_pn_elem.
  set (f := fun t => znth nodes (vtk_lid p t)).
  assert (Hf : forall t, In t (ijk_loop p) -> exists y, f t = Some y /\ nth_error nodes (Z.to_nat (vtk_lid p t)) = Some y).
  { intros t Ht. pose proof (vtk_lid_range p t Hp Ht). unfold f, znth. destruct (Z.ltb_spec (vtk_lid p t) 0); [lia|].
    destruct (nth_error nodes (Z.to_nat (vtk_lid p t))) as [y|] eqn:E; [exists y; auto|].
    apply nth_error_None in E. lia. }
  assert (G : forall l, (forall t, In t l -> exists y, f t = Some y) -> exists r, omap f l = Some r).
  { induction l as [|t l IH]; intros H; [exists []; reflexivity|]. cbn.
    destruct (H t (or_introl eq_refl)) as [y ->]. cbn.
    destruct IH as [r ->]; [intros; apply H; right; assumption|]. exists (y :: r). reflexivity. }
  destruct (G (ijk_loop p)) as [conn E]; [intros t Ht; destruct (Hf t Ht) as (y & Hy & _); exists y; exact Hy|].
  exists conn. split; [exact E|]. apply omap_some in E as [E1 E2].
  split; [rewrite E1, ijk_loop_length; congruence|].
  intros n t Hn. destruct (E2 n t Hn) as (y & Y1 & Y2). rewrite Y2.
  destruct (Hf t (nth_error_In _ _ Hn)) as (y' & Y3 & Y4). congruence.
Qed.

Lemma pn_roundtrip p nodes : (1 <= p)%nat -> length nodes = ((p + 1) * (p + 1) * (p + 1))%nat ->
  exists conn, write_pn_elem p nodes = Some conn /\ read_pn_elem p conn = Some nodes.
Proof.
  intros Hp HL. destruct (write_pn_some p nodes Hp HL) as (conn & E & L & N).
  exists conn. split; [exact E|]. unfold read_pn_elem.
  destruct (convert_pn_some p Hp) as (tab & -> & TL & TN). cbn [obind].
  apply omap_some. rewrite seq_length. split; [assumption|].
  intros m x Hx. assert (Hm : (m < (p + 1) * (p + 1) * (p + 1))%nat).
  { apply nth_error_Some_lt in Hx || (assert (nth_error (seq 0 ((p + 1) * (p + 1) * (p + 1))) m <> None) as Hne by congruence;
      apply nth_error_Some in Hne; rewrite seq_length in Hne; exact Hne). }
  assert (x = m).
  { apply (nth_error_nth _ _ O) in Hx. rewrite seq_nth in Hx by assumption. lia. }
  subst x. destruct (lids_hit p m Hp Hm) as (n & t & H1 & H2).
  pose proof (TN n t H1) as T. rewrite H2, Nat2Z.id in T. rewrite T. cbn [obind].
  pose proof (N n t H1) as C. rewrite H2, Nat2Z.id in C.
  destruct (nth_error nodes m) as [y|] eqn:Y; [exists y; auto|].
  apply nth_error_None in Y. lia.
Qed.

(** Position of a lattice point in the loops. *)
Lemma nth_error_flat_map {A B} (f : A -> list B) n l : forall q r x,
  (forall x, In x l -> length (f x) = n) -> nth_error l q = Some x -> (r < n)%nat ->
  nth_error (flat_map f l) (q * n + r) = nth_error (f x) r.
Proof.
  induction l as [|a l IH]; intros q r x H Hq Hr; [destruct q; discriminate|].
  cbn [flat_map]. pose proof (H a (or_introl eq_refl)) as Ha. destruct q as [|q].
  - cbn in Hq. injection Hq as ->. cbn. apply nth_error_app1. lia.
  - cbn in Hq. rewrite nth_error_app2 by (cbn; lia).
    replace (S q * n + r - length (f a))%nat with (q * n + r)%nat by (cbn; lia).
    apply IH; [intros; apply H; right; assumption|assumption|assumption].
Qed.

Lemma nth_error_seq0 n i : (i < n)%nat -> nth_error (seq 0 n) i = Some i.
Proof.
  intros H. rewrite (nth_error_nth' _ O) by (rewrite seq_length; exact H). now rewrite seq_nth.
Qed.

Lemma ijk_loop_nth p i j k : (i <= p)%nat -> (j <= p)%nat -> (k <= p)%nat ->
  nth_error (ijk_loop p) (k * ((p + 1) * (p + 1)) + (j * (p + 1) + i)) = Some (i, j, k).
Proof.
  intros Hi Hj Hk. unfold ijk_loop.
  rewrite (nth_error_flat_map _ ((p + 1) * (p + 1)) (seq 0 (p + 1)) k (j * (p + 1) + i) k).
  - rewrite (nth_error_flat_map _ (p + 1) (seq 0 (p + 1)) j i j).
    + rewrite nth_error_map, nth_error_seq0 by lia. reflexivity.
    + intros x _. now rewrite map_length, seq_length.
    + apply nth_error_seq0; lia.
    + lia.
  - intros x _. rewrite (flat_map_const_length _ (p + 1)%nat).
    + rewrite seq_length. reflexivity.
    + intros y _. now rewrite map_length, seq_length.
  - apply nth_error_seq0; lia.
  - nia.
Qed.

Lemma PI_vtx_pp0 p : 1 <= p -> PointIndexFromIJK p p 0 p p p = 2.
Proof.
  intros H. unfold PointIndexFromIJK. rewrite (bdy_true p p) by lia. rewrite (bdy_true 0 p) by lia.
  cbn [Z.add Z.eqb Pos.eqb Pos.add]. rewrite (nz_pos p) by lia. reflexivity.
Qed.

Lemma nth_error_ext {A} (l l' : list A) : (forall n, nth_error l n = nth_error l' n) -> l = l'.
Proof.
  revert l'. induction l as [|x l IH]; intros [|y l'] H.
  - reflexivity.
  - discriminate (H O).
  - discriminate (H O).
  - pose proof (H O) as H0. cbn in H0. injection H0 as ->. f_equal. apply IH. intros n. exact (H (S n)).
Qed.

Lemma PI_200 p : 3 <= p -> PointIndexFromIJK 2 0 0 p p p = 9.
Proof.
  intros H. unfold PointIndexFromIJK. rewrite (bdy_true 0 p) by lia. rewrite (bdy_false 2 p) by lia. reflexivity.
Qed.

Lemma pn_write_not_vtk p nodes conn : (2 <= p)%nat -> NoDup nodes ->
  length nodes = ((p + 1) * (p + 1) * (p + 1))%nat -> write_pn_elem p nodes = Some conn ->
  ~ vtk_conformant p nodes conn.
Proof.
  intros Hp Hnd HL E C.
  destruct (write_pn_some p nodes ltac:(lia) HL) as (conn' & E' & L & N). rewrite E in E'. injection E' as <-.
  pose proof (C p p O ltac:(lia) ltac:(lia) ltac:(lia)) as C2.
  unfold vtk_lid in C2. rewrite PI_vtx_pp0 in C2 by lia.
  change (Z.to_nat 2) with 2%nat in C2.
  assert (H2 : nth_error (ijk_loop p) 2 = Some (2%nat, O, O)).
  { change 2%nat with (0 * ((p + 1) * (p + 1)) + (0 * (p + 1) + 2))%nat. apply ijk_loop_nth; lia. }
  rewrite (N 2%nat _ H2) in C2.
  assert (Hi1 : (Z.to_nat (vtk_lid p (2%nat, O, O)) < length nodes)%nat).
  { pose proof (vtk_lid_range p (2%nat, O, O) ltac:(lia) (nth_error_In _ _ H2)). rewrite HL. lia. }
  apply (proj1 (NoDup_nth_error nodes) Hnd) in C2; [|exact Hi1].
  revert C2. unfold vtk_lid. change (Z.of_nat 0) with 0. change (Z.of_nat 2) with 2.
  destruct (Nat.eq_dec p 2) as [->|Hne].
  - vm_compute. discriminate.
  - rewrite (PI_200 (Z.of_nat p)) by lia. unfold ijk_pos. change (Z.to_nat 9) with 9%nat.
    intros E2. assert (3 <= p)%nat by lia. nia.
Qed.

Lemma pn_read_not_ijk p nodes conn : (2 <= p)%nat -> NoDup nodes ->
  length nodes = ((p + 1) * (p + 1) * (p + 1))%nat -> length conn = length nodes ->
  vtk_conformant p nodes conn -> read_pn_elem p conn <> Some nodes.
Proof.
  intros Hp Hnd HL HLc C E.
  destruct (write_pn_some p nodes ltac:(lia) HL) as (conn' & E' & L & N).
  assert (conn = conn'); [|subst; eapply pn_write_not_vtk; eauto].
  unfold read_pn_elem in E. destruct (convert_pn_some p ltac:(lia)) as (tab & Et & TL & TN). rewrite Et in E.
  cbn [obind] in E. apply omap_some in E as [_ E].
  apply nth_error_ext. intros n.
  destruct (Nat.lt_ge_cases n (length nodes)) as [Hn|Hn].
  2:{ rewrite (proj2 (nth_error_None conn n)) by lia. rewrite (proj2 (nth_error_None conn' n)) by lia. reflexivity. }
  destruct (nth_error (ijk_loop p) n) as [t|] eqn:Ht.
  2:{ apply nth_error_None in Ht. rewrite ijk_loop_length in Ht. lia. }
  pose proof (vtk_lid_range p t ltac:(lia) (nth_error_In _ _ Ht)) as Rt.
  rewrite (N n t Ht).
  destruct (E (Z.to_nat (vtk_lid p t)) (Z.to_nat (vtk_lid p t))) as (y & Y1 & Y2).
  { apply nth_error_seq0. lia. }
  rewrite (TN n t Ht) in Y1. cbn [obind] in Y1. congruence.
Qed.

Lemma reorder8 {A} (a b c d e f g h : A) :
  reorder_elem [a; b; c; d; e; f; g; h] = Some [a; b; d; c; e; f; h; g].
Proof. reflexivity. Qed.
Lemma reorder4 {A} (a b c d : A) : reorder_elem [a; b; c; d] = Some [a; b; d; c].
Proof. reflexivity. Qed.

Lemma reorder_twice {A} (l : list A) : (length l = 8 \/ length l = 4)%nat ->
  obind (reorder_elem l) (@reorder_elem A) = Some l.
Proof.
  intros [H|H].
  - do 8 (destruct l as [|? l]; [discriminate|]). destruct l; [|discriminate]. reflexivity.
  - do 4 (destruct l as [|? l]; [discriminate|]). destruct l; [|discriminate]. reflexivity.
Qed.
