(** Lemmas about MeshBuildModel. *)
From Coq Require Import Reals.
From Verif Require Import BaseReal BaseArr MeshBuildModel MeshBuildSpec.
Local Open Scope nat_scope.

(** ** Numbering *)
Lemma sid_lt ni nj nk i j k : i < ni -> j < nj -> k < nk -> sid ni nj i j k < ni * nj * nk.
Proof.
  intros. unfold sid. assert (j + nj * k + 1 <= nj * nk) by nia.
  assert (ni * (j + nj * k + 1) <= ni * (nj * nk)) by (apply Nat.mul_le_mono_l; assumption). lia.
Qed.

Lemma mix_inj n i j i' j' : i < n -> i' < n -> i + n * j = i' + n * j' -> i = i' /\ j = j'.
Proof. intros H1 H2 E. assert (j = j') by nia. subst. lia. Qed.

Lemma sid_inj ni nj i j k i' j' k' : i < ni -> j < nj -> i' < ni -> j' < nj ->
  sid ni nj i j k = sid ni nj i' j' k' -> i = i' /\ j = j' /\ k = k'.
Proof.
  intros H1 H2 H3 H4 E. unfold sid in E. apply mix_inj in E as [-> E]; try assumption.
  apply mix_inj in E as [-> ->]; auto.
Qed.

Lemma sid_surj ni nj nk n : n < ni * nj * nk -> exists i j k, i < ni /\ j < nj /\ k < nk /\ sid ni nj i j k = n.
Proof.
  intros H. assert (ni <> 0) by (intros ->; lia). assert (nj <> 0) by (intros ->; lia).
  exists (n mod ni), ((n / ni) mod nj), (n / ni / nj).
  repeat split; try (apply Nat.mod_upper_bound; assumption).
  - apply Nat.div_lt_upper_bound; [assumption|]. apply Nat.div_lt_upper_bound; [assumption|]. lia.
  - unfold sid. pose proof (Nat.div_mod n ni H0). pose proof (Nat.div_mod (n / ni) nj H1). lia.
Qed.

Lemma get_id_sid i j k ni nj : get_id i j k ni nj = sid ni nj i j k.
Proof. unfold get_id, sid. nia. Qed.

(** ** Nested loops as one loop *)
Lemma for_each_flat_map {A B S} (f : A -> list B) (body : B -> S -> option S) l : forall s,
  for_each l (fun x => for_each (f x) body) s = for_each (flat_map f l) body s.
Proof.
  induction l as [|x l IH]; intros s; [reflexivity|]. cbn [for_each flat_map]. rewrite for_each_app.
  destruct (for_each (f x) body s); [apply IH|reflexivity].
Qed.

Lemma for_each_map {A B S} (g : A -> B) (body : B -> S -> option S) l : forall s,
  for_each l (fun x => body (g x)) s = for_each (map g l) body s.
Proof. induction l as [|x l IH]; intros s; [reflexivity|]. cbn. destruct (body (g x) s); [apply IH|reflexivity]. Qed.

Definition box (k0 nk j0 nj i0 ni : nat) : list (nat * nat * nat) :=
  flat_map (fun k => flat_map (fun j => map (fun i => (i, j, k)) (seq i0 ni)) (seq j0 nj)) (seq k0 nk).

Lemma for3_box {S} (body : nat -> nat -> nat -> S -> option S) k0 nk j0 nj i0 ni s :
  for_up k0 nk (fun k => for_up j0 nj (fun j => for_up i0 ni (fun i => body i j k))) s =
  for_each (box k0 nk j0 nj i0 ni) (fun '(i, j, k) => body i j k) s.
Proof.
  unfold for_up, box. rewrite <- for_each_flat_map. apply for_each_ext. intros k s' _.
  rewrite <- for_each_flat_map. apply for_each_ext. intros j s'' _.
  rewrite <- for_each_map. reflexivity.
Qed.

Lemma in_box k0 nk j0 nj i0 ni i j k : In (i, j, k) (box k0 nk j0 nj i0 ni) <->
  i0 <= i < i0 + ni /\ j0 <= j < j0 + nj /\ k0 <= k < k0 + nk.
Proof.
  unfold box. rewrite in_flat_map_seq. split.
  - intros (k' & Hk & H). apply in_flat_map_seq in H as (j' & Hj & H).
    apply in_map_iff in H as (i' & E & H). apply in_seq in H. injection E as -> -> ->. lia.
  - intros (Hi & Hj & Hk). exists k. split; [assumption|]. apply in_flat_map_seq. exists j. split; [assumption|].
    apply in_map_iff. exists i. split; [reflexivity|]. now apply in_seq.
Qed.

Lemma flat_map_const_len {A B} (f : A -> list B) n l :
  (forall x, In x l -> length (f x) = n) -> length (flat_map f l) = length l * n.
Proof.
  induction l as [|x l IH]; intros H; [reflexivity|]. cbn. rewrite app_length, IH, H; [reflexivity|left; reflexivity|].
  intros; apply H; right; assumption.
Qed.

Lemma box_length k0 nk j0 nj i0 ni : length (box k0 nk j0 nj i0 ni) = nk * nj * ni.
Proof.
  unfold box. rewrite (flat_map_const_len _ (nj * ni)).
  - rewrite seq_length. lia.
  - intros k _. rewrite (flat_map_const_len _ ni).
    + now rewrite seq_length.
    + intros j _. now rewrite map_length, seq_length.
Qed.

Lemma nth_error_flat_map {A B} (f : A -> list B) n l : forall q r x,
  (forall x, In x l -> length (f x) = n) -> nth_error l q = Some x -> r < n ->
  nth_error (flat_map f l) (q * n + r) = nth_error (f x) r.
Proof.
  induction l as [|a l IH]; intros q r x H Hq Hr; [destruct q; discriminate|].
  cbn [flat_map]. pose proof (H a (or_introl eq_refl)) as Ha. destruct q as [|q].
  - cbn in Hq. injection Hq as ->. cbn. apply nth_error_app1. lia.
  - cbn in Hq. rewrite nth_error_app2 by (cbn; lia).
    replace (S q * n + r - length (f a))%nat with (q * n + r)%nat by (cbn; lia).
    apply IH; [intros; apply H; right; assumption|assumption|assumption].
Qed.

Lemma nth_error_seq i0 n i : i < n -> nth_error (seq i0 n) i = Some (i0 + i).
Proof.
  intros H. rewrite (nth_error_nth' _ 0) by (rewrite seq_length; exact H). now rewrite seq_nth.
Qed.

Lemma box_nth k0 nk j0 nj i0 ni a b c : a < ni -> b < nj -> c < nk ->
  nth_error (box k0 nk j0 nj i0 ni) (sid ni nj a b c) = Some (i0 + a, j0 + b, k0 + c).
Proof.
  intros Ha Hb Hc. unfold box. replace (sid ni nj a b c) with (c * (nj * ni) + (b * ni + a)) by (unfold sid; nia).
  rewrite (nth_error_flat_map _ (nj * ni) (seq k0 nk) c (b * ni + a) (k0 + c)).
  - rewrite (nth_error_flat_map _ ni (seq j0 nj) b a (j0 + b)).
    + rewrite nth_error_map, nth_error_seq by lia. reflexivity.
    + intros x _. now rewrite map_length, seq_length.
    + apply nth_error_seq; lia.
    + lia.
  - intros x _. rewrite (flat_map_const_len _ ni).
    + now rewrite seq_length.
    + intros y _. now rewrite map_length, seq_length.
  - apply nth_error_seq; lia.
  - nia.
Qed.

(** ** Checked writes *)
Lemma do_writes_one {A} (a : arr A) r c v : aset a r c v = do_writes [(r, c, v)] a.
Proof. unfold do_writes. cbn. destruct (aset a r c v); reflexivity. Qed.

Lemma do_writes_cons {A} r c (v : A) w a : do_writes ((r, c, v) :: w) a = obind (aset a r c v) (do_writes w).
Proof. reflexivity. Qed.

Lemma aget_dat {A} (a : arr A) r c : r < nrow a -> c < ncol a -> aget a r c = dat a r c.
Proof. intros H1 H2. unfold aget. now rewrite (proj2 (Nat.ltb_lt _ _) H1), (proj2 (Nat.ltb_lt _ _) H2). Qed.

(** ** Node coordinates *)
Section Nodes3.
Variables (npi npj npk : nat) (o0 o1 o2 dx dy dz : R).

Definition nodeW (t : nat * nat * nat) : list (write R) :=
  let '(i, j, k) := t in
  [ (sid npi npj i j k, 0, (o0 + INR i * dx)%R);
    (sid npi npj i j k, 1, (o1 + INR j * dy)%R);
    (sid npi npj i j k, 2, (o2 + INR k * dz)%R) ].

Lemma box3_nodes_writes a :
  box3_nodes npi npj npk o0 o1 o2 dx dy dz a = do_writes (flat_map nodeW (box 0 npk 0 npj 0 npi)) a.
Proof.
  unfold box3_nodes. rewrite for3_box. apply for_each_writes. intros [[i j] k] s _.
  rewrite get_id_sid. unfold nodeW. rewrite !do_writes_cons.
  destruct (aset s (sid npi npj i j k) 0 _) as [s1|]; [|reflexivity]. cbn [obind]. rewrite do_writes_cons.
  destruct (aset s1 (sid npi npj i j k) 1 _) as [s2|]; [|reflexivity]. cbn [obind]. apply do_writes_one.
Qed.

Lemma box3_nodes_ok : exists a,
  box3_nodes npi npj npk o0 o1 o2 dx dy dz (new_arr (npi * npj * npk) 3) = Some a /\
  nrow a = npi * npj * npk /\ ncol a = 3 /\
  forall i j k, i < npi -> j < npj -> k < npk ->
    aget a (sid npi npj i j k) 0 = Some (o0 + INR i * dx)%R /\
    aget a (sid npi npj i j k) 1 = Some (o1 + INR j * dy)%R /\
    aget a (sid npi npj i j k) 2 = Some (o2 + INR k * dz)%R.
Proof.
  rewrite box3_nodes_writes. set (w := flat_map nodeW (box 0 npk 0 npj 0 npi)).
  assert (Hin : forall r c v, In (r, c, v) w -> exists i j k, i < npi /\ j < npj /\ k < npk /\ r = sid npi npj i j k /\
     (c = 0 /\ v = (o0 + INR i * dx)%R \/ c = 1 /\ v = (o1 + INR j * dy)%R \/ c = 2 /\ v = (o2 + INR k * dz)%R)).
  { intros r c v H. unfold w in H. apply in_flat_map in H as ([[i j] k] & H1 & H2). apply in_box in H1.
    exists i, j, k. repeat split; try lia.
    - cbn in H2. destruct H2 as [E|[E|[E|[]]]]; injection E; congruence.
    - cbn in H2. destruct H2 as [E|[E|[E|[]]]]; injection E as <- <- <-; auto. }
  destruct (@do_writes_some R w (new_arr (npi * npj * npk) 3)) as (a & E & H1 & H2 & _ & H4).
  { intros r c v H. apply Hin in H as (i & j & k & Hi & Hj & Hk & -> & Hc). cbn. split; [now apply sid_lt|lia]. }
  exists a. split; [exact E|]. split; [exact H1|]. split; [exact H2|].
  assert (F : functional w).
  { intros r c v v' A1 A2. apply Hin in A1 as (i & j & k & Hi & Hj & Hk & -> & Hc).
    apply Hin in A2 as (i' & j' & k' & Hi' & Hj' & Hk' & E' & Hc').
    apply sid_inj in E' as (-> & -> & ->); try assumption. intuition congruence. }
  cbn in H1, H2. intros i j k Hi Hj Hk. pose proof (sid_lt npi npj npk i j k Hi Hj Hk).
  rewrite !aget_dat by (rewrite ?H1, ?H2; lia).
  assert (Hw : forall x, In x (nodeW (i, j, k)) -> In x w).
  { intros x Hx. unfold w. apply in_flat_map. exists (i, j, k). split; [apply in_box; lia|exact Hx]. }
  repeat split; apply (H4 F); apply Hw; cbn; auto.
Qed.
End Nodes3.

(** ** Element connectivity *)
Section Elems3.
Variables (p nei nej nek : nat).
Let npi := p * nei + 1.
Let npj := p * nej + 1.
Let q := p + 1.

Definition locW (e : nat) (i j k : nat) : list (write nat) :=
  map (fun '(n, (ic, jc, kc)) => (e, n, sid npi npj ic jc kc))
      (combine (seq 0 (q * q * q)) (box (k * p) q (j * p) q (i * p) q)).

Lemma loc_loop e i j k c :
  option_map fst (for_up (k * p) q (fun kcount => for_up (j * p) q (fun jcount => for_up (i * p) q
      (fun icount '(c, this_point) =>
        let node_gid := get_id icount jcount kcount npi npj in
        option_map (fun c' => (c', S this_point)) (aset c e this_point node_gid)))) (c, O))
  = do_writes (locW e i j k) c.
Proof.
  rewrite (for3_box (fun icount jcount kcount '(c, this_point) =>
        let node_gid := get_id icount jcount kcount npi npj in
        option_map (fun c' => (c', S this_point)) (aset c e this_point node_gid))).
  rewrite (for_each_writes_cnt _ _ (fun '(ic, jc, kc) n => [(e, n, sid npi npj ic jc kc)]) 1).
  - rewrite box_length. unfold locW. rewrite Nat.add_0_l.
    match goal with |- option_map fst (option_map ?f (do_writes ?w1 c)) = do_writes ?w2 c => replace w1 with w2 end.
    + destruct (do_writes _ c); reflexivity.
    + generalize (combine (seq 0 (q * q * q)) (box (k * p) q (j * p) q (i * p) q)). intros l.
      induction l as [|[n [[ic jc] kc]] l IH]; [reflexivity|]. cbn [map concat app]. rewrite <- IH.
      rewrite Nat.mul_1_r. reflexivity.
  - intros [[ic jc] kc] a n _. cbv zeta. rewrite get_id_sid, do_writes_one, Nat.add_1_r. reflexivity.
Qed.

Lemma in_combine_seq {X} (l : list X) n0 n x : In (n, x) (combine (seq n0 (length l)) l) <->
  n0 <= n /\ nth_error l (n - n0) = Some x.
Proof.
  revert n0. induction l as [|y l IH]; intros n0.
  - cbn. split; [tauto|]. intros [_ H]. destruct (n - n0); discriminate.
  - cbn [length seq combine]. cbn [In]. rewrite IH. split.
    + intros [E|[H1 H2]].
      * injection E as -> ->. rewrite Nat.sub_diag. auto.
      * split; [lia|]. replace (n - n0) with (S (n - S n0)) by lia. exact H2.
    + intros [H1 H2]. destruct (Nat.eq_dec n n0) as [->|Hne].
      * rewrite Nat.sub_diag in H2. cbn in H2. injection H2 as ->. left; reflexivity.
      * right. split; [lia|]. replace (n - n0) with (S (n - S n0)) in H2 by lia. exact H2.
Qed.

Lemma box_nth_inv k0 nk j0 nj i0 ni n t : nth_error (box k0 nk j0 nj i0 ni) n = Some t ->
  exists a b c, a < ni /\ b < nj /\ c < nk /\ n = sid ni nj a b c /\ t = (i0 + a, j0 + b, k0 + c).
Proof.
  intros H. assert (Hn : n < length (box k0 nk j0 nj i0 ni)) by (apply nth_error_Some; congruence).
  rewrite box_length in Hn. destruct (sid_surj ni nj nk n ltac:(nia)) as (a & b & c & Ha & Hb & Hc & E).
  exists a, b, c. repeat split; try assumption; [now symmetry|].
  rewrite <- E, box_nth in H by assumption. congruence.
Qed.

Lemma in_locW e i j k r n v : In (r, n, v) (locW e i j k) <->
  r = e /\ exists a b c, a <= p /\ b <= p /\ c <= p /\ n = sid q q a b c /\
    v = sid npi npj (i * p + a) (j * p + b) (k * p + c).
Proof.
  unfold locW. rewrite in_map_iff.
  replace (q * q * q) with (length (box (k * p) q (j * p) q (i * p) q)) by apply box_length.
  split.
  - intros ([n' [[ic jc] kc]] & E & H). injection E as <- <- <-. split; [reflexivity|].
    apply in_combine_seq in H as [_ H]. rewrite Nat.sub_0_r in H.
    apply box_nth_inv in H as (a & b & c & Ha & Hb & Hc & En & Et). injection Et as -> -> ->.
    exists a, b, c. unfold q in *. repeat split; try lia; assumption.
  - intros (-> & a & b & c & Ha & Hb & Hc & -> & ->).
    exists (sid q q a b c, (i * p + a, j * p + b, k * p + c)). split; [reflexivity|].
    apply in_combine_seq. split; [lia|]. rewrite Nat.sub_0_r. apply box_nth; unfold q; lia.
Qed.

Definition elemW : list (write nat) :=
  flat_map (fun '(i, j, k) => locW (sid nei nej i j k) i j k) (box 0 nek 0 nej 0 nei).

Lemma box3_elems_writes c : box3_elems p nei nej nek npi npj c = do_writes elemW c.
Proof.
  unfold box3_elems. rewrite (for3_box (fun i j k c => option_map fst _)).
  unfold elemW. apply for_each_writes. intros [[i j] k] s _.
  rewrite get_id_sid. apply loc_loop.
Qed.

Lemma in_elemW r n v : In (r, n, v) elemW <->
  exists i j k a b c, i < nei /\ j < nej /\ k < nek /\ a <= p /\ b <= p /\ c <= p /\
    r = sid nei nej i j k /\ n = sid q q a b c /\ v = sid npi npj (i * p + a) (j * p + b) (k * p + c).
Proof.
  unfold elemW. rewrite in_flat_map. split.
  - intros ([[i j] k] & H1 & H2). apply in_box in H1. apply in_locW in H2 as (-> & a & b & c & Ha & Hb & Hc & -> & ->).
    exists i, j, k, a, b, c. repeat split; lia.
  - intros (i & j & k & a & b & c & Hi & Hj & Hk & Ha & Hb & Hc & -> & -> & ->).
    exists (i, j, k). split; [apply in_box; lia|]. apply in_locW. split; [reflexivity|]. exists a, b, c. auto.
Qed.

Lemma box3_elems_ok ncols : q * q * q <= ncols -> exists c,
  box3_elems p nei nej nek npi npj (new_arr (nei * nej * nek) ncols) = Some c /\
  nrow c = nei * nej * nek /\ ncol c = ncols /\
  (forall i j k a b d, i < nei -> j < nej -> k < nek -> a <= p -> b <= p -> d <= p ->
    aget c (sid nei nej i j k) (sid q q a b d) = Some (sid npi npj (p * i + a) (p * j + b) (p * k + d))) /\
  (forall r l, q * q * q <= l -> aget c r l = None).
Proof.
  intros Hcols. rewrite box3_elems_writes.
  destruct (@do_writes_some nat elemW (new_arr (nei * nej * nek) ncols)) as (c & E & H1 & H2 & H3 & H4).
  { intros r n v H. apply in_elemW in H as (i & j & k & a & b & d & Hi & Hj & Hk & Ha & Hb & Hd & -> & -> & _).
    cbn. split; [now apply sid_lt|]. eapply Nat.lt_le_trans; [|exact Hcols]. apply sid_lt; unfold q; lia. }
  exists c. split; [exact E|]. split; [exact H1|]. split; [exact H2|].
  assert (F : functional elemW).
  { intros r n v v' A1 A2. apply in_elemW in A1 as (i & j & k & a & b & d & Hi & Hj & Hk & Ha & Hb & Hd & -> & -> & ->).
    apply in_elemW in A2 as (i' & j' & k' & a' & b' & d' & Hi' & Hj' & Hk' & Ha' & Hb' & Hd' & E1 & E2 & ->).
    apply sid_inj in E1 as (-> & -> & ->); try assumption.
    apply sid_inj in E2 as (-> & -> & ->); try (unfold q; lia); reflexivity. }
  cbn in H1, H2. split.
  - intros i j k a b d Hi Hj Hk Ha Hb Hd.
    pose proof (sid_lt nei nej nek i j k Hi Hj Hk).
    assert (sid q q a b d < q * q * q) by (apply sid_lt; unfold q; lia).
    rewrite aget_dat by (rewrite ?H1, ?H2; lia).
    apply (H4 F). apply in_elemW. exists i, j, k, a, b, d. rewrite !(Nat.mul_comm p). repeat split; assumption.
  - intros r l Hl. unfold aget. destruct (r <? nrow c); [|reflexivity]. destruct (l <? ncol c); [|reflexivity]. cbn [andb].
    rewrite H3; [reflexivity|]. intros v Hv.
    apply in_elemW in Hv as (i & j & k & a & b & d & Hi & Hj & Hk & Ha & Hb & Hd & -> & -> & _).
    assert (sid q q a b d < q * q * q) by (apply sid_lt; unfold q; lia). lia.
Qed.

Lemma do_writes_none {A} (w : list (write A)) : forall a r c v, In (r, c, v) w -> ncol a <= c -> do_writes w a = None.
Proof.
  induction w as [|[[r0 c0] v0] w IH]; intros a r c v Hin Hc; [destruct Hin|].
  rewrite do_writes_cons. unfold aset. destruct ((r0 <? nrow a) && (c0 <? ncol a))%bool eqn:E; [|reflexivity].
  cbn [obind]. destruct Hin as [E'|Hin].
  - injection E' as -> -> ->. apply andb_prop in E as [_ E]. apply Nat.ltb_lt in E. lia.
  - eapply IH; [exact Hin|]. exact Hc.
Qed.

Lemma box3_elems_oob ncols : 0 < nei -> 0 < nej -> 0 < nek -> ncols < q * q * q ->
  box3_elems p nei nej nek npi npj (new_arr (nei * nej * nek) ncols) = None.
Proof.
  intros Hi Hj Hk Hc. rewrite box3_elems_writes.
  apply (do_writes_none elemW _ (sid nei nej 0 0 0) (sid q q p p p) (sid npi npj (0 * p + p) (0 * p + p) (0 * p + p))).
  - apply in_elemW. exists 0, 0, 0, p, p, p. repeat split; lia.
  - cbn. assert (S (sid q q p p p) = q * q * q) by (unfold sid, q; nia). lia.
Qed.
End Elems3.


Lemma build_3d_box_ok nx ny nz o0 o1 o2 lx ly lz : exists m,
  build_3d_box nx ny nz o0 o1 o2 lx ly lz = Some m /\
  structured3 1 nx ny nz (box_pos (vec3 o0 o1 o2) (vec3 lx ly lz) (nvec3 nx ny nz)) m /\ ncol (nodes_in_elem m) = 8.
Proof.
  unfold build_3d_box. cbv zeta.
  destruct (box3_nodes_ok (nx + 1) (ny + 1) (nz + 1) o0 o1 o2 (lx / INR nx) (ly / INR ny) (lz / INR nz)) as (a & Ea & A1 & A2 & A3).
  destruct (box3_elems_ok 1 nx ny nz 8) as (c & Ec & C1 & C2 & C3 & _); [cbn; lia|].
  rewrite !Nat.mul_1_l in Ec. rewrite Ea. cbn [obind]. rewrite Ec. cbn [obind].
  exists (mkMesh a c). split; [reflexivity|]. split; [|exact C2].
  unfold structured3. cbn [coords nodes_in_elem]. rewrite !Nat.mul_1_l.
  split; [exact A1|]. split; [exact A2|]. split; [exact C1|]. split.
  - intros i j k d Hi Hj Hk Hd. unfold node3. rewrite !Nat.mul_1_l.
    destruct (A3 i j k ltac:(lia) ltac:(lia) ltac:(lia)) as (B1 & B2 & B3).
    destruct d as [|[|[|d]]]; [exact B1|exact B2|exact B3|lia].
  - intros i j k a' b' c' Hi Hj Hk Ha Hb Hc. exact (C3 i j k a' b' c' Hi Hj Hk Ha Hb Hc).
Qed.

Lemma build_HexN_ok ncols p nx ny nz o0 o1 o2 lx ly lz : p <= 19 -> (p + 1) * (p + 1) * (p + 1) <= ncols ->
  exists m, build_3d_HexN_box ncols p nx ny nz o0 o1 o2 lx ly lz = Some (Some m) /\
  structured3 p nx ny nz (box_pos (vec3 o0 o1 o2) (vec3 lx ly lz) (nvec3 (p * nx) (p * ny) (p * nz))) m.
Proof.
  intros Hp Hcols. unfold build_3d_HexN_box. cbv zeta. destruct (Nat.ltb_spec 19 p); [lia|].
  destruct (box3_nodes_ok (p * nx + 1) (p * ny + 1) (p * nz + 1) o0 o1 o2 (lx / INR (p * nx)) (ly / INR (p * ny)) (lz / INR (p * nz))) as (a & Ea & A1 & A2 & A3).
  destruct (box3_elems_ok p nx ny nz ncols) as (c & Ec & C1 & C2 & C3 & _); [assumption|].
  rewrite Ea. cbn [obind]. rewrite Ec. cbn [obind]. exists (mkMesh a c). split; [reflexivity|].
  unfold structured3. cbn [coords nodes_in_elem].
  split; [exact A1|]. split; [exact A2|]. split; [exact C1|]. split.
  - intros i j k d Hi Hj Hk Hd.
    destruct (A3 i j k ltac:(lia) ltac:(lia) ltac:(lia)) as (B1 & B2 & B3).
    destruct d as [|[|[|d]]]; [exact B1|exact B2|exact B3|lia].
  - intros i j k a' b' c' Hi Hj Hk Ha Hb Hc. apply C3; assumption.
Qed.

Lemma build_HexN_oob ncols p nx ny nz o0 o1 o2 lx ly lz : p <= 19 -> 0 < nx -> 0 < ny -> 0 < nz ->
  ncols < (p + 1) * (p + 1) * (p + 1) -> build_3d_HexN_box ncols p nx ny nz o0 o1 o2 lx ly lz = None.
Proof.
  intros Hp Hx Hy Hz Hc. unfold build_3d_HexN_box. cbv zeta. destruct (Nat.ltb_spec 19 p); [lia|].
  destruct (box3_nodes _ _ _ _ _ _ _ _ _ _) as [a|]; [|reflexivity]. cbn [obind].
  rewrite box3_elems_oob by assumption. reflexivity.
Qed.

(** ** Consequences of being structured *)
Section Structured3.
Variables (p nx ny nz : nat) (pos : nat -> nat -> nat -> nat -> R) (m : mesh).
Hypothesis S3 : structured3 p nx ny nz pos m.
Hypothesis Hcols : ncol (nodes_in_elem m) = (p + 1) * (p + 1) * (p + 1).
Hypothesis Hp : 1 <= p.

Lemma node3_bij :
  (forall i j k, i <= p * nx -> j <= p * ny -> k <= p * nz -> node3 p nx ny i j k < nrow (coords m)) /\
  (forall i j k i' j' k', i <= p * nx -> j <= p * ny -> i' <= p * nx -> j' <= p * ny ->
     node3 p nx ny i j k = node3 p nx ny i' j' k' -> i = i' /\ j = j' /\ k = k') /\
  (forall n, n < nrow (coords m) -> exists i j k, i <= p * nx /\ j <= p * ny /\ k <= p * nz /\ n = node3 p nx ny i j k).
Proof.
  clear Hcols Hp. destruct S3 as (R1 & _). rewrite R1. unfold node3. repeat split.
  - intros. apply sid_lt; lia.
  - intros. destruct (sid_inj (p * nx + 1) (p * ny + 1) i j k i' j' k'); try lia; assumption.
  - intros. destruct (sid_inj (p * nx + 1) (p * ny + 1) i j k i' j' k'); try lia; assumption.
  - intros. destruct (sid_inj (p * nx + 1) (p * ny + 1) i j k i' j' k'); try lia; assumption.
  - intros n Hn. apply sid_surj in Hn as (i & j & k & Hi & Hj & Hk & E). exists i, j, k. repeat split; try lia.
Qed.

Lemma conn_complete e l : e < nx * ny * nz -> l < (p + 1) * (p + 1) * (p + 1) ->
  exists n, aget (nodes_in_elem m) e l = Some n /\ n < nrow (coords m).
Proof.
  clear Hcols Hp. intros He Hl. apply sid_surj in He as (i & j & k & Hi & Hj & Hk & <-).
  apply sid_surj in Hl as (a & b & c & Ha & Hb & Hc & <-).
  destruct S3 as (R1 & _ & _ & _ & R5).
  exists (node3 p nx ny (p * i + a) (p * j + b) (p * k + c)). split; [apply R5; lia|].
  apply node3_bij; nia.
Qed.

Lemma in_elem_iff i j k n : i < nx -> j < ny -> k < nz ->
  (in_elem m (elem3 nx ny i j k) n <-> exists a b c, a <= p /\ b <= p /\ c <= p /\
     n = node3 p nx ny (p * i + a) (p * j + b) (p * k + c)).
Proof.
  intros Hi Hj Hk. destruct S3 as (R1 & _ & R3 & _ & R5). split.
  - intros [l Hl]. assert (l < (p + 1) * (p + 1) * (p + 1)) as Hll.
    { rewrite <- Hcols. unfold aget in Hl. destruct (l <? ncol (nodes_in_elem m)) eqn:E; [now apply Nat.ltb_lt|].
      rewrite andb_false_r in Hl. discriminate. }
    apply sid_surj in Hll as (a & b & c & Ha & Hb & Hc & <-). exists a, b, c.
    rewrite R5 in Hl by lia. injection Hl as <-. repeat split; lia.
  - intros (a & b & c & Ha & Hb & Hc & ->). exists (sid (p + 1) (p + 1) a b c). now apply R5.
Qed.

Lemma elem_nodes_distinct i j k l l' n : i < nx -> j < ny -> k < nz ->
  aget (nodes_in_elem m) (elem3 nx ny i j k) l = Some n ->
  aget (nodes_in_elem m) (elem3 nx ny i j k) l' = Some n -> l = l'.
Proof.
  clear Hp. intros Hi Hj Hk H H'. destruct S3 as (R1 & _ & R3 & _ & R5).
  assert (Hb : forall l n, aget (nodes_in_elem m) (elem3 nx ny i j k) l = Some n -> l < (p + 1) * (p + 1) * (p + 1)).
  { intros l0 n0 H0. rewrite <- Hcols. unfold aget in H0. destruct (l0 <? ncol (nodes_in_elem m)) eqn:E; [now apply Nat.ltb_lt|].
    rewrite andb_false_r in H0. discriminate. }
  pose proof (Hb _ _ H) as L. pose proof (Hb _ _ H') as L'.
  apply sid_surj in L as (a & b & c & Ha & Hb' & Hc & <-). apply sid_surj in L' as (a' & b' & c' & Ha' & Hb'' & Hc' & <-).
  rewrite R5 in H by lia. rewrite R5 in H' by lia.
  assert (E : node3 p nx ny (p * i + a) (p * j + b) (p * k + c) = node3 p nx ny (p * i + a') (p * j + b') (p * k + c')) by congruence.
  apply sid_inj in E as (E1 & E2 & E3); try nia.
  assert (a = a') by lia. assert (b = b') by lia. assert (c = c') by lia. congruence.
Qed.

(** Common nodes of two elements, any two: the overlap of their index boxes. *)
Lemma shared_nodes i j k i' j' k' n : i < nx -> j < ny -> k < nz -> i' < nx -> j' < ny -> k' < nz ->
  (in_elem m (elem3 nx ny i j k) n /\ in_elem m (elem3 nx ny i' j' k') n <->
   exists a b c, n = node3 p nx ny a b c /\
     p * i <= a <= p * i + p /\ p * i' <= a <= p * i' + p /\
     p * j <= b <= p * j + p /\ p * j' <= b <= p * j' + p /\
     p * k <= c <= p * k + p /\ p * k' <= c <= p * k' + p).
Proof.
  intros Hi Hj Hk Hi' Hj' Hk'. rewrite !in_elem_iff by assumption. split.
  - intros ((a & b & c & Ha & Hb & Hc & ->) & (a' & b' & c' & Ha' & Hb' & Hc' & E)).
    apply sid_inj in E as (E1 & E2 & E3); try nia.
    exists (p * i + a), (p * j + b), (p * k + c). repeat split; lia.
  - intros (a & b & c & -> & A1 & A2 & B1 & B2 & C1 & C2). split.
    + exists (a - p * i), (b - p * j), (c - p * k). repeat split; try lia. f_equal; lia.
    + exists (a - p * i'), (b - p * j'), (c - p * k'). repeat split; try lia. f_equal; lia.
Qed.

Lemma face_shared_i i j k n : i + 1 < nx -> j < ny -> k < nz ->
  (in_elem m (elem3 nx ny i j k) n /\ in_elem m (elem3 nx ny (i + 1) j k) n <->
   exists b c, b <= p /\ c <= p /\ n = node3 p nx ny (p * (i + 1)) (p * j + b) (p * k + c)).
Proof.
  intros Hi Hj Hk. rewrite shared_nodes by lia. split.
  - intros (a & b & c & -> & A1 & A2 & B1 & B2 & C1 & C2). exists (b - p * j), (c - p * k).
    repeat split; try lia. f_equal; lia.
  - intros (b & c & Hb & Hc & ->). exists (p * (i + 1)), (p * j + b), (p * k + c). repeat split; lia.
Qed.

(** Two elements with a common node are neighbours. *)
Lemma shared_neighbour i j k i' j' k' n : i < nx -> j < ny -> k < nz -> i' < nx -> j' < ny -> k' < nz ->
  in_elem m (elem3 nx ny i j k) n -> in_elem m (elem3 nx ny i' j' k') n ->
  i <= i' + 1 /\ i' <= i + 1 /\ j <= j' + 1 /\ j' <= j + 1 /\ k <= k' + 1 /\ k' <= k + 1.
Proof.
  intros. destruct (proj1 (shared_nodes i j k i' j' k' n ltac:(assumption) ltac:(assumption) ltac:(assumption)
     ltac:(assumption) ltac:(assumption) ltac:(assumption)) (conj H5 H6)) as (a & b & c & _ & ? & ? & ? & ? & ? & ?).
  repeat split; nia.
Qed.

Lemma face_shared_j i j k n : i < nx -> j + 1 < ny -> k < nz ->
  (in_elem m (elem3 nx ny i j k) n /\ in_elem m (elem3 nx ny i (j + 1) k) n <->
   exists a c, a <= p /\ c <= p /\ n = node3 p nx ny (p * i + a) (p * (j + 1)) (p * k + c)).
Proof.
  intros Hi Hj Hk. rewrite shared_nodes by lia. split.
  - intros (a & b & c & -> & A1 & A2 & B1 & B2 & C1 & C2). exists (a - p * i), (c - p * k).
    repeat split; try lia. f_equal; lia.
  - intros (a & c & Hb & Hc & ->). exists (p * i + a), (p * (j + 1)), (p * k + c). repeat split; lia.
Qed.

Lemma face_shared_k i j k n : i < nx -> j < ny -> k + 1 < nz ->
  (in_elem m (elem3 nx ny i j k) n /\ in_elem m (elem3 nx ny i j (k + 1)) n <->
   exists a b, a <= p /\ b <= p /\ n = node3 p nx ny (p * i + a) (p * j + b) (p * (k + 1))).
Proof.
  intros Hi Hj Hk. rewrite shared_nodes by lia. split.
  - intros (a & b & c & -> & A1 & A2 & B1 & B2 & C1 & C2). exists (a - p * i), (b - p * j).
    repeat split; try lia. f_equal; lia.
  - intros (a & b & Hb & Hc & ->). exists (p * i + a), (p * j + b), (p * (k + 1)). repeat split; lia.
Qed.
End Structured3.

Lemma box_pos_last o l n : (forall d, d < 3 -> 0 < n d) -> forall d, d < 3 ->
  box_pos o l n (n 0) (n 1) (n 2) d = (o d + l d)%R.
Proof.
  intros Hn d Hd. assert (forall d, d < 3 -> INR (n d) <> 0%R) as H.
  { intros d' Hd'. apply not_0_INR. specialize (Hn d' Hd'). lia. }
  destruct d as [|[|[|d]]]; [| | |lia]; cbn [box_pos]; field; apply H; lia.
Qed.

(** ** 2D *)
Definition box2l (nj ni : nat) : list (nat * nat) := flat_map (fun j => map (fun i => (i, j)) (seq 0 ni)) (seq 0 nj).

Lemma for2_box {S} (body : nat -> nat -> S -> option S) nj ni s :
  for_up 0 nj (fun j => for_up 0 ni (fun i => body i j)) s = for_each (box2l nj ni) (fun '(i, j) => body i j) s.
Proof.
  unfold for_up, box2l. rewrite <- for_each_flat_map. apply for_each_ext. intros j s' _.
  rewrite <- for_each_map. reflexivity.
Qed.

Lemma in_box2l nj ni i j : In (i, j) (box2l nj ni) <-> i < ni /\ j < nj.
Proof.
  unfold box2l. rewrite in_flat_map_seq. split.
  - intros (j' & Hj & H). apply in_map_iff in H as (i' & E & H). apply in_seq in H. injection E as -> ->. lia.
  - intros (Hi & Hj). exists j. split; [lia|]. apply in_map_iff. exists i. split; [reflexivity|]. apply in_seq. lia.
Qed.

Definition id2 (ni i j : nat) : nat := i + ni * j.
Lemma get_id_2 i j ni nj : get_id i j 0 ni nj = id2 ni i j.
Proof. unfold get_id, id2. nia. Qed.
Lemma id2_lt ni nj i j : i < ni -> j < nj -> id2 ni i j < ni * nj.
Proof. intros. unfold id2. nia. Qed.
Lemma id2_inj ni i j i' j' : i < ni -> i' < ni -> id2 ni i j = id2 ni i' j' -> i = i' /\ j = j'.
Proof. apply mix_inj. Qed.

Definition quadW (nei npi : nat) (t : nat * nat) : list (write nat) :=
  let '(i, j) := t in
  [ (id2 nei i j, 0, id2 npi i j); (id2 nei i j, 1, id2 npi (S i) j);
    (id2 nei i j, 3, id2 npi i (S j)); (id2 nei i j, 2, id2 npi (S i) (S j)) ].

Lemma quad_elems_writes nei nej npi npj c :
  quad_elems nei nej npi npj c = do_writes (flat_map (quadW nei npi) (box2l nej nei)) c.
Proof.
  unfold quad_elems. rewrite (for2_box (fun i j c => option_map fst _)). apply for_each_writes. intros [i j] s _.
  rewrite get_id_2. unfold for_up, quadW, do_writes. cbn [seq for_each nth_error convert_quad obind].
  rewrite !get_id_2.
  destruct (aset s (id2 nei i j) 0 _) as [s1|]; cbn [option_map obind nth_error convert_quad]; [|reflexivity].
  destruct (aset s1 (id2 nei i j) 1 _) as [s2|]; cbn [option_map obind nth_error convert_quad]; [|reflexivity].
  destruct (aset s2 (id2 nei i j) 3 _) as [s3|]; cbn [option_map obind nth_error convert_quad]; [|reflexivity].
  destruct (aset s3 (id2 nei i j) 2 _) as [s4|]; cbn [option_map obind nth_error convert_quad]; reflexivity.
Qed.

Lemma quad_elems_ok nei nej npi npj : exists c,
  quad_elems nei nej npi npj (new_arr (nei * nej) 4) = Some c /\ nrow c = nei * nej /\ ncol c = 4 /\
  forall i j, i < nei -> j < nej ->
    aget c (id2 nei i j) 0 = Some (id2 npi i j) /\ aget c (id2 nei i j) 1 = Some (id2 npi (i + 1) j) /\
    aget c (id2 nei i j) 2 = Some (id2 npi (i + 1) (j + 1)) /\ aget c (id2 nei i j) 3 = Some (id2 npi i (j + 1)).
Proof.
  rewrite quad_elems_writes. set (w := flat_map (quadW nei npi) (box2l nej nei)).
  assert (Hin : forall r c v, In (r, c, v) w -> exists i j, i < nei /\ j < nej /\ In (r, c, v) (quadW nei npi (i, j))).
  { intros r c v H. unfold w in H. apply in_flat_map in H as ([i j] & H1 & H2). apply in_box2l in H1.
    exists i, j. repeat split; try lia; exact H2. }
  destruct (@do_writes_some nat w (new_arr (nei * nej) 4)) as (c & E & H1 & H2 & _ & H4).
  { intros r c v H. apply Hin in H as (i & j & Hi & Hj & H). pose proof (id2_lt nei nej i j Hi Hj).
    cbn in H |- *. destruct H as [E|[E|[E|[E|[]]]]]; injection E as <- <- <-; split; lia. }
  exists c. split; [exact E|]. split; [exact H1|]. split; [exact H2|].
  assert (F : functional w).
  { intros r c0 v v' A1 A2. apply Hin in A1 as (i & j & Hi & Hj & A1). apply Hin in A2 as (i' & j' & Hi' & Hj' & A2).
    cbn in A1, A2.
    destruct A1 as [A|[A|[A|[A|[]]]]]; injection A as <- <- <-;
    destruct A2 as [B|[B|[B|[B|[]]]]]; injection B as B1 B2; try discriminate B2; try subst;
    try discriminate; apply id2_inj in B1 as [-> ->]; try assumption; reflexivity. }
  cbn in H1, H2. intros i j Hi Hj. pose proof (id2_lt nei nej i j Hi Hj).
  rewrite !aget_dat by (rewrite ?H1, ?H2; lia).
  assert (Hw : forall x, In x (quadW nei npi (i, j)) -> In x w).
  { intros x Hx. unfold w. apply in_flat_map. exists (i, j). split; [apply in_box2l; lia|exact Hx]. }
  rewrite !Nat.add_1_r. repeat split; apply (H4 F); apply Hw; cbn; auto.
Qed.

Definition nodeW2 (npi : nat) (f g : nat -> nat -> R) (t : nat * nat) : list (write R) :=
  let '(i, j) := t in [ (id2 npi i j, 0, f i j); (id2 npi i j, 1, g i j) ].

Lemma nodeW2_ok npi npj f g : exists a,
  do_writes (flat_map (nodeW2 npi f g) (box2l npj npi)) (new_arr (npi * npj) 2) = Some a /\
  nrow a = npi * npj /\ ncol a = 2 /\
  forall i j, i < npi -> j < npj -> aget a (id2 npi i j) 0 = Some (f i j) /\ aget a (id2 npi i j) 1 = Some (g i j).
Proof.
  set (w := flat_map (nodeW2 npi f g) (box2l npj npi)).
  assert (Hin : forall r c v, In (r, c, v) w -> exists i j, i < npi /\ j < npj /\ In (r, c, v) (nodeW2 npi f g (i, j))).
  { intros r c v H. unfold w in H. apply in_flat_map in H as ([i j] & H1 & H2). apply in_box2l in H1.
    exists i, j. repeat split; try lia; exact H2. }
  destruct (@do_writes_some R w (new_arr (npi * npj) 2)) as (c & E & H1 & H2 & _ & H4).
  { intros r c v H. apply Hin in H as (i & j & Hi & Hj & H). pose proof (id2_lt npi npj i j Hi Hj).
    cbn in H |- *. destruct H as [E|[E|[]]]; injection E as <- <- <-; split; lia. }
  exists c. split; [exact E|]. split; [exact H1|]. split; [exact H2|].
  assert (F : functional w).
  { intros r c0 v v' A1 A2. apply Hin in A1 as (i & j & Hi & Hj & A1). apply Hin in A2 as (i' & j' & Hi' & Hj' & A2).
    cbn in A1, A2.
    destruct A1 as [A|[A|[]]]; injection A as <- <- <-;
    destruct A2 as [B|[B|[]]]; injection B as B1 B2; try discriminate B2; try subst;
    try discriminate; apply id2_inj in B1 as [-> ->]; try assumption; reflexivity. }
  cbn in H1, H2. intros i j Hi Hj. pose proof (id2_lt npi npj i j Hi Hj).
  rewrite !aget_dat by (rewrite ?H1, ?H2; lia).
  assert (Hw : forall x, In x (nodeW2 npi f g (i, j)) -> In x w).
  { intros x Hx. unfold w. apply in_flat_map. exists (i, j). split; [apply in_box2l; lia|exact Hx]. }
  repeat split; apply (H4 F); apply Hw; cbn; auto.
Qed.

Lemma build_2d_box_ok nx ny o0 o1 lx ly : exists m, build_2d_box nx ny o0 o1 lx ly = Some m /\
  structured2 nx ny (fun i j d => match d with 0 => o0 + INR i * (lx / INR nx) | _ => o1 + INR j * (ly / INR ny) end)%R m.
Proof.
  unfold build_2d_box. cbv zeta.
  destruct (nodeW2_ok (nx + 1) (ny + 1) (fun i _ => o0 + INR i * (lx / INR nx))%R (fun _ j => o1 + INR j * (ly / INR ny))%R)
    as (a & Ea & A1 & A2 & A3).
  assert (Ea' : box2_nodes (nx + 1) (ny + 1) o0 o1 (lx / INR nx) (ly / INR ny) (new_arr ((nx + 1) * (ny + 1)) 2) = Some a).
  { rewrite <- Ea. unfold box2_nodes. rewrite (for2_box (fun i j a => _)). apply for_each_writes. intros [i j] s _.
    rewrite get_id_2. unfold nodeW2. rewrite !do_writes_cons.
    destruct (aset s _ 0 _); [|reflexivity]. cbn [obind]. apply do_writes_one. }
  rewrite Ea'. cbn [obind].
  destruct (quad_elems_ok nx ny (nx + 1) (ny + 1)) as (c & Ec & C1 & C2 & C3). rewrite Ec. cbn [obind].
  exists (mkMesh a c). split; [reflexivity|]. unfold structured2. cbn [coords nodes_in_elem].
  repeat split; try assumption; try (apply C3; assumption).
  intros i j d Hi Hj Hd. destruct (A3 i j ltac:(lia) ltac:(lia)) as [B1 B2].
  destruct d as [|[|d]]; [exact B1|exact B2|lia].
Qed.

(** polar node loop *)
Section Polar.
Variables (f g : nat -> nat -> R) (npi npj : nat).
Definition pbody (t : nat * nat) (st : option (arr R)) : option (option (arr R)) :=
  let '(i, j) := t in
  match st with
  | None => Some None
  | Some a =>
    let n := get_id i j 0 npi npj in
    obind (aset a n 0 (f i j)) (fun a => obind (aset a n 1 (g i j)) (fun a =>
    obind (aget a n 0) (fun x => if Rlt_dec x 0 then Some None else Some (Some a))))
  end.

Lemma pbody_none l : for_each l pbody None = Some None.
Proof. induction l as [|[i j] l IH]; [reflexivity|exact IH]. Qed.

Lemma pbody_step i j a : nrow a = npi * npj -> ncol a = 2 -> i < npi -> j < npj ->
  exists a', do_writes (nodeW2 npi f g (i, j)) a = Some a' /\ nrow a' = npi * npj /\ ncol a' = 2 /\
   pbody (i, j) (Some a) = if Rlt_dec (f i j) 0 then Some None else Some (Some a').
Proof.
  intros R1 R2 Hi Hj. pose proof (id2_lt npi npj i j Hi Hj) as Hl. unfold pbody, nodeW2. rewrite get_id_2.
  assert (Hb : forall c, (id2 npi i j <? npi * npj) && (c <? 2) = (c <? 2)) by (intros; now rewrite (proj2 (Nat.ltb_lt _ _) Hl)).
  set (a1 := mkArr (npi * npj) 2 (fun r' c' => if (r' =? id2 npi i j) && (c' =? 0) then Some (f i j) else dat a r' c')).
  assert (E1 : aset a (id2 npi i j) 0 (f i j) = Some a1) by (unfold aset; now rewrite R1, R2, Hb).
  set (a2 := mkArr (npi * npj) 2 (fun r' c' => if (r' =? id2 npi i j) && (c' =? 1) then Some (g i j) else dat a1 r' c')).
  assert (E2 : aset a1 (id2 npi i j) 1 (g i j) = Some a2) by (unfold aset; cbn [nrow ncol a1]; now rewrite Hb).
  assert (E3 : aget a2 (id2 npi i j) 0 = Some (f i j)).
  { unfold aget. cbn [nrow ncol a2]. rewrite Hb. cbn [dat a2 a1]. rewrite Nat.eqb_refl. reflexivity. }
  exists a2. rewrite !do_writes_cons, E1. cbn [obind]. rewrite do_writes_cons, E2. cbn [obind]. rewrite E3. cbn [obind].
  repeat split; reflexivity.
Qed.

Lemma polar_loop l : forall a, nrow a = npi * npj -> ncol a = 2 -> (forall i j, In (i, j) l -> i < npi /\ j < npj) ->
  ((forall i j, In (i, j) l -> (0 <= f i j)%R) ->
    exists a', do_writes (flat_map (nodeW2 npi f g) l) a = Some a' /\ for_each l pbody (Some a) = Some (Some a')) /\
  ((exists i j, In (i, j) l /\ (f i j < 0)%R) -> for_each l pbody (Some a) = Some None).
Proof.
  induction l as [|[i j] l IH]; intros a R1 R2 Hl.
  - split; [intros _; exists a; split; reflexivity|]. intros (? & ? & [] & _).
  - destruct (Hl i j (or_introl eq_refl)) as [Hi Hj].
    destruct (pbody_step i j a R1 R2 Hi Hj) as (a1 & W & Q1 & Q2 & B).
    destruct (IH a1 Q1 Q2) as [I1 I2]; [intros; apply Hl; right; assumption|].
    cbn [for_each flat_map]. rewrite B. unfold do_writes. rewrite for_each_app. fold (do_writes (nodeW2 npi f g (i, j)) a).
    rewrite W. cbn [obind]. split.
    + intros Hf. destruct (Rlt_dec (f i j) 0) as [Hneg|_].
      { exfalso. specialize (Hf i j (or_introl eq_refl)). lra. }
      cbn [obind]. destruct I1 as (a' & E1 & E2); [intros; apply Hf; right; assumption|]. exists a'. split; assumption.
    + intros (i' & j' & Hin & Hneg). destruct (Rlt_dec (f i j) 0) as [_|Hpos]; cbn [obind]; [apply pbody_none|].
      apply I2. destruct Hin as [E|Hin]; [injection E as -> ->; contradiction|]. exists i', j'. split; assumption.
Qed.
End Polar.

Lemma polar_pos_eq o0 o1 r0 r1 a0 a1 nr na i j :
  polar_pos (vec3 o0 o1 0) r0 r1 a0 a1 nr na i j 0 =
    (o0 + (r0 + INR i * ((r1 - r0) / INR nr)) * cos (PI / 180 * a0 + INR j * ((PI / 180 * a1 - PI / 180 * a0) / INR na)))%R /\
  polar_pos (vec3 o0 o1 0) r0 r1 a0 a1 nr na i j 1 =
    (o1 + (r0 + INR i * ((r1 - r0) / INR nr)) * sin (PI / 180 * a0 + INR j * ((PI / 180 * a1 - PI / 180 * a0) / INR na)))%R.
Proof.
  unfold polar_pos, vec3. rewrite <- Rmult_minus_distr_l. split; reflexivity.
Qed.

Lemma build_2d_polar_ok nr na o0 o1 r0 r1 a0 a1 :
  let P := polar_pos (vec3 o0 o1 0) r0 r1 a0 a1 nr na in
  ((forall i j, i <= nr -> j <= na -> (0 <= P i j 0%nat)%R) ->
     exists m, build_2d_polar nr na o0 o1 r0 r1 a0 a1 = Some (Some m) /\ structured2 nr na P m) /\
  ((exists i j, i <= nr /\ j <= na /\ (P i j 0%nat < 0)%R) -> build_2d_polar nr na o0 o1 r0 r1 a0 a1 = Some None).
Proof.
  intros P. unfold build_2d_polar. cbv zeta.
  set (F := fun i j => P i j 0). set (G := fun i j => P i j 1).
  assert (EL : polar_nodes (nr + 1) (na + 1) o0 o1 r0 (PI / 180 * a0) ((r1 - r0) / INR nr)
                ((PI / 180 * a1 - PI / 180 * a0) / INR na) (new_arr ((nr + 1) * (na + 1)) 2) =
               for_each (box2l (na + 1) (nr + 1)) (pbody F G (nr + 1) (na + 1)) (Some (new_arr ((nr + 1) * (na + 1)) 2))).
  { unfold polar_nodes. rewrite (for2_box (fun i j st => _)). apply for_each_ext. intros [i j] st _.
    unfold pbody, F, G, P. destruct (polar_pos_eq o0 o1 r0 r1 a0 a1 nr na i j) as [-> ->]. reflexivity. }
  rewrite EL.
  destruct (polar_loop F G (nr + 1) (na + 1) (box2l (na + 1) (nr + 1)) (new_arr ((nr + 1) * (na + 1)) 2)) as [L1 L2];
    [reflexivity|reflexivity|intros i j H; now apply in_box2l in H|].
  destruct (nodeW2_ok (nr + 1) (na + 1) F G) as (a & Ea & A1 & A2 & A3).
  destruct (quad_elems_ok nr na (nr + 1) (na + 1)) as (c & Ec & C1 & C2 & C3).
  split.
  - intros Hpos. destruct L1 as (a' & E1 & E2).
    { intros i j H. apply in_box2l in H. unfold F. apply Hpos; lia. }
    rewrite E2. cbn [obind]. rewrite Ec. cbn [obind]. assert (a' = a) by congruence. subst a'.
    exists (mkMesh a c). split; [reflexivity|]. unfold structured2. cbn [coords nodes_in_elem].
    repeat split; try assumption; try (apply C3; assumption).
    intros i j d Hi Hj Hd. destruct (A3 i j ltac:(lia) ltac:(lia)) as [B1 B2].
    destruct d as [|[|d]]; [exact B1|exact B2|lia].
  - intros (i & j & Hi & Hj & Hneg). rewrite L2; [reflexivity|]. exists i, j. split; [apply in_box2l; lia|exact Hneg].
Qed.
