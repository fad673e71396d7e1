(** Proofs about the penetration test, the recording of patches and the pairing. *)
From Coq Require Import Reals List Lia Lra ZArith Permutation.
From Verif Require Import BaseArr BaseReal FracModel FracSpec FracProofs ContModel ContSpec ContProofs.
Import ListNotations.
Local Open Scope R_scope.

(** ** Room for the list of buckets *)
Lemma size_max x nb bdy d : (d < 3)%nat -> let g := make_grid x nb bdy in g_hi g d - g_lo g d <= 64 * g_size g.
Proof.
  intros Hd g. assert (H : (g_hi g d - g_lo g d) / 64 <= g_size g); [|lra].
  unfold g, make_grid; cbn [g_hi g_lo g_size]. unfold fmax.
  destruct d as [|[|[|?]]]; [apply Rmax_l| | |lia]; (eapply Rle_trans; [|apply Rmax_r]); [apply Rmax_l|apply Rmax_r].
Qed.
Lemma idx_le g d v k : 0 < g_size g -> v - g_lo g d < (INR k + 1) * g_size g -> (idx g d v <= k)%nat.
Proof.
  intros Hs H. unfold idx. set (r := (v - g_lo g d) / g_size g).
  assert (Er : v - g_lo g d = r * g_size g) by (unfold r; field; lra). rewrite Er in H. clearbody r.
  apply Rmult_lt_reg_r in H; [|exact Hs]. destruct (base_Int_part r) as [A1 A2].
  assert (Int_part r < Z.of_nat k + 1)%Z; [|lia]. apply lt_IZR. rewrite plus_IZR, <- INR_IZR_INZ. lra.
Qed.
Lemma g_n_le x nb bdy d k : let g := make_grid x nb bdy in 0 < g_size g -> g_hi g d - g_lo g d < (INR k + 1) * g_size g -> (g_n g d <= k + 1)%nat.
Proof. intros g Hs H. unfold g. rewrite g_n_eq. pose proof (idx_le g d (g_hi g d) k Hs H). unfold g in *. lia. Qed.
Lemma g_n_65 x nb bdy d : (d < 3)%nat -> let g := make_grid x nb bdy in 0 < g_size g -> (g_n g d <= 65)%nat.
Proof.
  intros Hd g Hs. pose proof (size_max x nb bdy d Hd) as H. cbv zeta in H. fold g in H. change 65%nat with (64 + 1)%nat.
  apply (g_n_le x nb bdy d 64 Hs). fold g. replace (INR 64) with 64 by (rewrite INR_IZR_INZ; reflexivity). lra.
Qed.
Lemma span_le x nb bdy d lo hi : let g := make_grid x nb bdy in (span x nb bdy d lo hi <= g_n g d)%nat.
Proof. intros g. unfold span. pose proof (clamp_lt x nb bdy d (hi d)). fold g in H |- *. lia. Qed.
Lemma span_width x nb bdy d lo hi (k : nat) : let g := make_grid x nb bdy in 0 < g_size g -> hi d - lo d < INR k * g_size g -> (span x nb bdy d lo hi <= k + 1)%nat.
Proof.
  intros g Hs H. unfold span. fold g. unfold g. rewrite !clamp_idx. fold g.
  set (r := (hi d - g_lo g d) / g_size g). set (q := (lo d - g_lo g d) / g_size g).
  assert (E : r - q < INR k). { unfold r, q. apply Rmult_lt_reg_r with (g_size g); [exact Hs|]. replace (((hi d - g_lo g d) / g_size g - (lo d - g_lo g d) / g_size g) * g_size g) with (hi d - lo d) by (field; lra). exact H. }
  unfold idx. fold r q. clearbody r q. destruct (base_Int_part r) as [A1 A2], (base_Int_part q) as [B1 B2].
  assert (Int_part r - Int_part q < Z.of_nat k + 1)%Z; [|lia]. apply lt_IZR. rewrite minus_IZR, plus_IZR, <- INR_IZR_INZ. lra.
Qed.
Lemma room_enough x nb bdy lo hi : let g := make_grid x nb bdy in 0 < g_size g ->
  (exists d, (d < 3)%nat /\ (span x nb bdy d lo hi <= 62)%nat) -> (length (cells g lo hi) <= bucket_room)%nat.
Proof.
  intros g Hs (d & Hd & Hsp). unfold g. rewrite cells_length.
  assert (G : forall d, (d < 3)%nat -> (span x nb bdy d lo hi <= 65)%nat).
  { intros d' Hd'. eapply Nat.le_trans; [apply span_le|]. now apply g_n_65. }
  pose proof (G 0%nat ltac:(lia)) as G0. pose proof (G 1%nat ltac:(lia)) as G1. pose proof (G 2%nat ltac:(lia)) as G2.
  unfold bucket_room. clear G.
  destruct d as [|[|[|?]]]; [| | |lia].
  - apply Nat.le_trans with (62 * (65 * 65))%nat; [|lia]. apply Nat.mul_le_mono; [assumption|]. now apply Nat.mul_le_mono.
  - apply Nat.le_trans with (65 * (62 * 65))%nat; [|lia]. apply Nat.mul_le_mono; [assumption|]. now apply Nat.mul_le_mono.
  - apply Nat.le_trans with (65 * (65 * 62))%nat; [|lia]. apply Nat.mul_le_mono; [assumption|]. now apply Nat.mul_le_mono.
Qed.
(** the box of a patch is wider than the patch by at most three buckets on each side *)
Lemma box_width q m w d : (forall a b, (a < 4)%nat -> (b < 4)%nat -> q a d - q b d <= w) -> box_hi q m d - box_lo q m d <= w + 2 * m.
Proof.
  intros H. unfold box_hi, box_lo, fmax, fmin.
  assert (A : exists a, (a < 4)%nat /\ Rmax (Rmax (Rmax (q 0%nat d + m) (q 1%nat d + m)) (q 2%nat d + m)) (q 3%nat d + m) = q a d + m).
  { repeat match goal with |- context [Rmax ?u ?v] => unfold Rmax at 1; destruct (Rle_dec u v) end;
    try (exists 0%nat; split; [lia|reflexivity]); try (exists 1%nat; split; [lia|reflexivity]); try (exists 2%nat; split; [lia|reflexivity]); exists 3%nat; split; (lia || reflexivity). }
  assert (B : exists b, (b < 4)%nat /\ Rmin (Rmin (Rmin (q 0%nat d - m) (q 1%nat d - m)) (q 2%nat d - m)) (q 3%nat d - m) = q b d - m).
  { unfold Rmin; repeat match goal with |- context [Rle_dec ?u ?v] => destruct (Rle_dec u v) end;
    try (exists 0%nat; split; [lia|reflexivity]); try (exists 1%nat; split; [lia|reflexivity]); try (exists 2%nat; split; [lia|reflexivity]); exists 3%nat; split; (lia || reflexivity). }
  destruct A as (a & Ha & ->), B as (b & Hb & ->). specialize (H a b Ha Hb). lra.
Qed.

(** ** The test *)
Lemma d25 : 0.25 = / 4. Proof. lra. Qed.
Lemma pphi_0 k : pphi 0 0 k = / 4. Proof. unfold pphi. rewrite d25. rewrite !Rmult_0_r, !Rplus_0_r. lra. Qed.
Lemma point_centre q d : patch_point q 0 0 d = centre4 q d.
Proof. unfold patch_point, centre4. cbn [sumn]. rewrite !pphi_0. field. Qed.
Lemma cross_area q d : vcross (fun d => sumn 4 (fun k => q k d * dphi_xi 0 k)) (fun d => sumn 4 (fun k => q k d * dphi_eta 0 k)) d = area_vec q d / 8.
Proof.
  unfold vcross, area_vec. cbn [sumn]. unfold dphi_xi, dphi_eta. cbn [pxi peta]. rewrite d25.
  destruct d as [|[|d]]; cbn [vcross]; unfold vcross; field.
Qed.
Lemma vmag_scale8 v w : (forall d, v d = w d / 8) -> vmag v = vmag w / 8.
Proof.
  intros H. unfold vmag, vdot. rewrite !H.
  replace (w 0%nat / 8 * (w 0%nat / 8) + w 1%nat / 8 * (w 1%nat / 8) + w 2%nat / 8 * (w 2%nat / 8))
    with ((w 0%nat * w 0%nat + w 1%nat * w 1%nat + w 2%nat * w 2%nat) * (/ 8 * / 8)) by field.
  rewrite sqrt_mult_alt by nra. rewrite sqrt_square by lra. lra.
Qed.
Lemma vmag_nonneg v : 0 <= vmag v. Proof. apply sqrt_pos. Qed.
Lemma normal_centre q : match patch_normal q 0 0 with
  | None => vmag (area_vec q) = 0
  | Some n => vmag (area_vec q) <> 0 /\ forall d, n d = area_vec q d / vmag (area_vec q)
  end.
Proof.
  unfold patch_normal. set (c := vcross _ _). assert (Hc : forall d, c d = area_vec q d / 8) by (intros d; apply cross_area).
  pose proof (vmag_scale8 c (area_vec q) Hc) as Hm. clearbody c. destruct (Req_EM_T (vmag c) 0) as [E|E].
  - lra.
  - split; [lra|]. intros d. rewrite Hm, Hc. field. lra.
Qed.
Lemma inner_side_spec q p : inner_side q p = true <-> not_beyond q p.
Proof.
  unfold inner_side, not_beyond. pose proof (normal_centre q) as H. destruct (patch_normal q 0 0) as [n|].
  - destruct H as [Hm Hn]. assert (Hp : 0 < vmag (area_vec q)) by (pose proof (vmag_nonneg (area_vec q)); lra).
    assert (E : vdot (fun d => p d - patch_point q 0 0 d) n = vdot (fun d => p d - centre4 q d) (area_vec q) / vmag (area_vec q)).
    { unfold vdot. rewrite !Hn, !point_centre. field. exact Hm. }
    rewrite E. set (t := vdot _ _). clearbody t. set (m := vmag _) in *. clearbody m.
    destruct (Rlt_dec (t / m) 0.01) as [K|K]; split; try discriminate; auto.
    + intros _. split; [exact Hm|]. apply Rmult_lt_reg_r with (/ m); [now apply Rinv_0_lt_compat|]. unfold Rdiv in K. rewrite Rmult_assoc, Rinv_r, Rmult_1_r by exact Hm. exact K.
    + intros [_ L]. exfalso. apply K. apply Rmult_lt_reg_r with m; [exact Hp|]. unfold Rdiv. rewrite Rmult_assoc, Rinv_l, Rmult_1_r by exact Hm. exact L.
  - split; [discriminate|]. intros [K _]. contradiction.
Qed.
Lemma vdot_self_area q : vmag (area_vec q) * vmag (area_vec q) = vdot (area_vec q) (area_vec q).
Proof. unfold vmag. apply sqrt_def. unfold vdot. nra. Qed.
Lemma plane_dist_spec q n p : patch_normal q 0 0 = Some n ->
  plane_dist q n p = Rabs (vdot (fun d => p d - q 0%nat d) (area_vec q)) / vmag (area_vec q).
Proof.
  intros E. pose proof (normal_centre q) as H. rewrite E in H. destruct H as [Hm Hn].
  assert (Hu : n 0%nat * n 0%nat + n 1%nat * n 1%nat + n 2%nat * n 2%nat = 1).
  { rewrite !Hn. pose proof (vdot_self_area q) as S. unfold vdot in S. set (m := vmag _) in *. clearbody m.
    set (a := area_vec q 0%nat) in *. set (b := area_vec q 1%nat) in *. set (c := area_vec q 2%nat) in *. clearbody a b c.
    replace (a / m * (a / m) + b / m * (b / m) + c / m * (c / m)) with ((a * a + b * b + c * c) / (m * m)) by (field; exact Hm). rewrite <- S. field. exact Hm. }
  set (t := vdot n (fun d => p d - q 0%nat d)).
  assert (Hd : forall d, p d - project q n p d = t * n d).
  { intros d. unfold project. replace (- n 0%nat * n 0%nat - n 1%nat * n 1%nat - n 2%nat * n 2%nat) with (-1) by lra. fold t. field. }
  unfold plane_dist, vmag at 1. unfold vdot at 1. rewrite !Hd.
  replace (t * n 0%nat * (t * n 0%nat) + t * n 1%nat * (t * n 1%nat) + t * n 2%nat * (t * n 2%nat)) with (t * t * (n 0%nat * n 0%nat + n 1%nat * n 1%nat + n 2%nat * n 2%nat)) by ring.
  rewrite Hu, Rmult_1_r. change (t * t) with (Rsqr t). rewrite sqrt_Rsqr_abs.
  assert (Et : t = vdot (fun d => p d - q 0%nat d) (area_vec q) / vmag (area_vec q)).
  { unfold t, vdot. rewrite !Hn. field. exact Hm. }
  rewrite Et. unfold Rdiv. rewrite Rabs_mult. f_equal. apply Rabs_pos_eq. apply Rlt_le, Rinv_0_lt_compat. pose proof (vmag_nonneg (area_vec q)). lra.
Qed.
Lemma column_spec f h : (f < 6)%nat -> (In h (column f) <-> (h < 6)%nat /\ h <> opposite f).
Proof.
  intros Hf. do 6 (destruct f as [|f]; [cbn [column In opposite]; split; [intros [<-|[<-|[<-|[<-|[<-|[]]]]]]; split; lia|intros [? ?]; lia]|]). lia.
Qed.
Lemma opposite_ne f : (f < 6)%nat -> f <> opposite f.
Proof. intros Hf. do 6 (destruct f as [|f]; [cbn; lia|]). lia. Qed.
Lemma own_node_spec nodes pelem p node : own_node nodes pelem p node = false <-> forall k, (k < 8)%nat -> node <> nodes (pelem p) k.
Proof.
  unfold own_node. split.
  - intros H k Hk E. assert (T : existsb (fun k => Nat.eqb node (nodes (pelem p) k)) (seq 0 8) = true); [|congruence].
    apply existsb_exists. exists k. split; [apply in_seq; lia|now apply Nat.eqb_eq].
  - intros H. destruct (existsb _ _) eqn:E; [|reflexivity]. apply existsb_exists in E as (k & Hk & E). apply in_seq in Hk. apply Nat.eqb_eq in E. exfalso. apply (H k); [lia|exact E].
Qed.
Definition deep_in0 (x : nat -> vec) (nodes_in_elem : nat -> nat -> nat) (pelem pface : nat -> nat) (preload : bool) (p node : nat) : Prop :=
  let X := fun a => x (nodes_in_elem (pelem p) a) in
  (forall h, (h < 6)%nat -> h <> opposite (pface p) -> not_beyond (fquad X h) (x node)) /\
  within_plane (fquad X (pface p)) (x node) ((if preload then 1 else 0.1) * min_edge (fquad X (pface p))) /\
  (forall k, (k < 8)%nat -> node <> nodes_in_elem (pelem p) k).
Lemma penetrates_spec0 x nodes pelem pface preload p node : (pface p < 6)%nat ->
  (penetrates x nodes pelem pface preload p node = true <-> deep_in0 x nodes pelem pface preload p node).
Proof.
  intros Hf. unfold penetrates, deep_in0. rewrite !andb_true_iff, !negb_true_iff, own_node_spec. cbv zeta.
  set (X := corners_of x nodes (pelem p)).
  change (fun a : nat => x (nodes (pelem p) a)) with X.
  assert (C : penetration_check X (pface p) (x node) = true <-> forall h, (h < 6)%nat -> h <> opposite (pface p) -> not_beyond (fquad X h) (x node)).
  { unfold penetration_check. rewrite forallb_forall. split.
    - intros H h Hh Ho. apply inner_side_spec, H, column_spec; auto.
    - intros H h Hh. apply column_spec in Hh as [Hh Ho]; [|exact Hf]. apply inner_side_spec. now apply H. }
  rewrite C.
  assert (T : (forall h, (h < 6)%nat -> h <> opposite (pface p) -> not_beyond (fquad X h) (x node)) ->
     (too_far x nodes pelem pface preload p node = false <->
      within_plane (fquad X (pface p)) (x node) ((if preload then 1 else 0.1) * min_edge (fquad X (pface p))))).
  { intros H. destruct (H (pface p) Hf) as [Hm _]. { now apply opposite_ne. }
    unfold too_far, within_plane, quad_of. fold X. set (q := fquad X (pface p)) in *.
    destruct (patch_normal q 0 0) as [n|] eqn:E; [|pose proof (normal_centre q) as K; rewrite E in K; contradiction].
    rewrite (plane_dist_spec q n (x node) E). fold (dist_factor preload). set (r := dist_factor preload * min_edge q). clearbody r.
    set (t := Rabs _). clearbody t. pose proof (vmag_nonneg (area_vec q)) as Hnn. set (m := vmag _) in *. clearbody m.
    destruct (Rlt_dec r (t / m)) as [K|K]; split; try discriminate; auto.
    - intros L. exfalso. assert (t / m <= r); [|lra]. apply Rmult_le_reg_r with m; [lra|]. unfold Rdiv. rewrite Rmult_assoc, Rinv_l, Rmult_1_r by exact Hm. exact L.
    - intros _. assert (L : t / m <= r) by lra. apply Rmult_le_compat_r with (r := m) in L; [|lra]. unfold Rdiv in L. rewrite Rmult_assoc, Rinv_l, Rmult_1_r in L by exact Hm. exact L. }
  split.
  - intros [[H1 H2] H3]. split; [exact H2|]. split; [|exact H3]. now apply T.
  - intros (H2 & H1 & H3). split; [|exact H3]. split; [|exact H2]. now apply T.
Qed.
Lemma min_edge_spec q r c : 0 <= c -> (within_plane q r (c * min_edge q) <-> forall k, (k < 4)%nat -> within_plane q r (c * vmag (fun d => q ((k + 1) mod 4)%nat d - q k d))).
Proof.
  intros Hc. unfold within_plane. set (t := Rabs _). pose proof (vmag_nonneg (area_vec q)) as Hm. set (m := vmag (area_vec q)) in *. clearbody t m.
  unfold min_edge, fmin. set (e0 := vmag (fun d => q 1%nat d - q 0%nat d)). set (e1 := vmag (fun d => q 2%nat d - q 1%nat d)).
  set (e2 := vmag (fun d => q 3%nat d - q 2%nat d)). set (e3 := vmag (fun d => q 0%nat d - q 3%nat d)). split.
  - intros H k Hk. eapply Rle_trans; [exact H|]. apply Rmult_le_compat_r; [exact Hm|]. apply Rmult_le_compat_l; [exact Hc|].
    destruct k as [|[|[|[|k]]]]; [| | | |lia].
    + eapply Rle_trans; [apply Rmin_l|]. eapply Rle_trans; [apply Rmin_l|]. apply Rmin_l.
    + eapply Rle_trans; [apply Rmin_l|]. eapply Rle_trans; [apply Rmin_l|]. apply Rmin_r.
    + eapply Rle_trans; [apply Rmin_l|]. apply Rmin_r.
    + apply Rmin_r.
  - intros H. pose proof (H 0%nat ltac:(lia)) as H0. pose proof (H 1%nat ltac:(lia)) as H1. pose proof (H 2%nat ltac:(lia)) as H2. pose proof (H 3%nat ltac:(lia)) as H3.
    change (t <= c * e0 * m) in H0. change (t <= c * e1 * m) in H1. change (t <= c * e2 * m) in H2. change (t <= c * e3 * m) in H3. clearbody e0 e1 e2 e3.
    unfold Rmin. repeat match goal with |- context [Rle_dec ?a ?b] => destruct (Rle_dec a b) end; assumption.
Qed.
Lemma deep_in_iff x nodes pelem pface preload p node : deep_in x nodes pelem pface preload p node <-> deep_in0 x nodes pelem pface preload p node.
Proof.
  unfold deep_in, deep_in0. cbv zeta. assert (Hc : 0 <= if preload then 1 else 0.1) by (destruct preload; lra).
  rewrite (min_edge_spec _ _ _ Hc). tauto.
Qed.
Lemma penetrates_spec x nodes pelem pface preload p node : (pface p < 6)%nat ->
  (penetrates x nodes pelem pface preload p node = true <-> deep_in x nodes pelem pface preload p node).
Proof. intros H. rewrite deep_in_iff. now apply penetrates_spec0. Qed.

(** ** Points inside a parallelepiped *)
Lemma vmag_0_dot v w : vmag w = 0 -> vdot v w = 0.
Proof.
  intros H. assert (Q : vdot w w = 0). { apply sqrt_eq_0; [unfold vdot; nra|exact H]. }
  unfold vdot in *. assert (w 0%nat = 0) by nra. assert (w 1%nat = 0) by nra. assert (w 2%nat = 0) by nra. rewrite H0, H1, H2. ring.
Qed.
Definition depth (h : nat) (s t u : R) : R := match h with 0%nat => s | 1%nat => 1 - s | 2%nat => t | 3%nat => 1 - t | 4%nat => u | _ => 1 - u end.
Lemma brick_side o a b c h s t u : (h < 6)%nat ->
  vdot (fun d => (o d + s * a d + t * b d + u * c d) - centre4 (fquad (brick o a b c) h) d) (area_vec (fquad (brick o a b c) h))
  = - 2 * depth h s t u * volume a b c.
Proof.
  intros Hh. do 6 (destruct h as [|h]; [unfold fquad; cbn [face_corners]; unfold vdot, area_vec, centre4, vcross, volume; cbn [nth]; unfold brick; cbn [s_xi s_eta s_zeta depth]; unfold vdot, vcross; field|]). lia.
Qed.
Lemma brick_inside o a b c h s t u : (h < 6)%nat -> 0 < volume a b c -> 0 <= depth h s t u ->
  not_beyond (fquad (brick o a b c) h) (fun d => o d + s * a d + t * b d + u * c d).
Proof.
  intros Hh Hv Hd. unfold not_beyond. rewrite brick_side by exact Hh.
  assert (Hm : vmag (area_vec (fquad (brick o a b c) h)) <> 0).
  { intros E. assert (K : exists s t u, depth h s t u = 1).
    { do 6 (destruct h as [|h]; [cbn [depth]; first [exists 1, 1, 1; ring|exists 0, 0, 0; ring]|]). lia. }
    destruct K as (s' & t' & u' & K). pose proof (brick_side o a b c h s' t' u' Hh) as S. rewrite K in S. rewrite (vmag_0_dot _ _ E) in S. lra. }
  split; [exact Hm|]. pose proof (vmag_nonneg (area_vec (fquad (brick o a b c) h))). assert (0 <= depth h s t u * volume a b c) by (apply Rmult_le_pos; lra). nra.
Qed.

(** ** Recording *)
Section Record.
  Variables (x : nat -> vec) (nodes : nat -> nat -> nat) (nb : nat) (bdy : nat -> nat) (npatch : nat) (pelem pface : nat -> nat) (preload : bool).
  Let g := make_grid x nb bdy.
  Hypothesis size_pos : 0 < g_size g.
  Hypothesis bdy_inj : forall i j, (i < nb)%nat -> (j < nb)%nat -> bdy i = bdy j -> i = j.
  Let lo p := box_lo (quad_of x nodes pelem pface p) (margin x nodes pelem pface preload g p).
  Let hi p := box_hi (quad_of x nodes pelem pface p) (margin x nodes pelem pface preload g p).
  Definition hit (j p : nat) : bool := existsb (Nat.eqb j) (met x nb bdy (lo p) (hi p)) && penetrates x nodes pelem pface preload p (bdy j).

  Lemma visit_fold p l : (forall i, In i l -> (i < nb)%nat) -> NoDup l -> forall rows j, (j < nb)%nat ->
    fold_left (fun rows i => visit x nodes nb bdy pelem pface preload p (bdy i) rows) l rows j
    = if (existsb (Nat.eqb j) l && penetrates x nodes pelem pface preload p (bdy j) && Nat.ltb (length (rows j)) pen_width)%bool then rows j ++ [p] else rows j.
  Proof.
    induction l as [|i l IH]; intros Hl Hn rows j Hj; [reflexivity|]. inversion Hn; subst. cbn [fold_left existsb].
    rewrite IH; [|intros; apply Hl; now right|assumption|exact Hj].
    unfold visit, record_patch. destruct (Nat.eqb_spec j i) as [->|Hne].
    - assert (E : existsb (Nat.eqb i) l = false).
      { destruct (existsb _ _) eqn:E; [|reflexivity]. apply existsb_exists in E as (k & Hk & E). apply Nat.eqb_eq in E. subst. contradiction. }
      rewrite E. cbn [andb orb]. destruct (penetrates x nodes pelem pface preload p (bdy i)); [|reflexivity].
      rewrite (proj2 (Nat.ltb_lt _ _) Hj), Nat.eqb_refl. cbn [andb]. reflexivity.
    - cbn [orb]. assert (Hb : Nat.eqb (bdy j) (bdy i) = false).
      { apply Nat.eqb_neq. intros E. apply Hne. apply bdy_inj; auto. apply Hl. now left. }
      destruct (penetrates x nodes pelem pface preload p (bdy i)); [|reflexivity]. rewrite Hb. rewrite andb_false_r. cbn [andb]. reflexivity.
  Qed.

  Lemma firstn_snoc {A} n (l : list A) a : firstn n (l ++ [a]) = if Nat.ltb (length (firstn n l)) n then firstn n l ++ [a] else firstn n l.
  Proof.
    rewrite firstn_app, firstn_length. destruct (Nat.ltb_spec (Nat.min n (length l)) n) as [H|H].
    - f_equal. destruct (n - length l)%nat eqn:E; [lia|]. cbn. now rewrite firstn_nil.
    - replace (n - length l)%nat with 0%nat by lia. cbn. now rewrite app_nil_r.
  Qed.

  Lemma find_spec room s : sorted_ok x nb bdy s -> (forall p, (p < npatch)%nat -> (length (cells g (lo p) (hi p)) <= room)%nat) ->
    exists rows, find_penetrating x nodes nb bdy npatch pelem pface preload room g s = Some rows /\
      forall j, (j < nb)%nat -> rows j = firstn pen_width (filter (hit j) (seq 0 npatch)).
  Proof.
    intros Hs Hroom. unfold find_penetrating, for_up.
    assert (G : forall n, (n <= npatch)%nat -> exists rows, for_each (seq 0 n) (fun p rows => over_nodes room g s (lo p) (hi p) (visit x nodes nb bdy pelem pface preload p) rows) (fun _ => []) = Some rows /\
      forall j, (j < nb)%nat -> rows j = firstn pen_width (filter (hit j) (seq 0 n))).
    { induction n as [|n IH]; intros Hn.
      - eexists. split; [reflexivity|]. intros j _. reflexivity.
      - destruct IH as (rows & E & Hr); [lia|]. rewrite seq_S, for_each_app, E. cbn [obind for_each plus].
        unfold g. rewrite (over_nodes_spec x nb bdy room s (lo n) (hi n)); [|exact Hs|apply Hroom; lia]. cbn [obind].
        eexists. split; [reflexivity|]. intros j Hj. rewrite visit_fold; [|intros i Hi; eapply met_lt; exact Hi|apply met_nodup; exact size_pos|exact Hj].
        rewrite filter_app. cbn [filter]. fold (hit j n). rewrite Hr by exact Hj. destruct (hit j n); cbn [andb].
        + now rewrite firstn_snoc.
        + now rewrite app_nil_r. }
    apply G. lia.
  Qed.
  Lemma hit_true j p : hit j p = true -> penetrates x nodes pelem pface preload p (bdy j) = true.
  Proof. unfold hit. now rewrite andb_true_iff. Qed.
  Lemma hit_complete j p : (j < nb)%nat -> in_box (lo p) (hi p) (x (bdy j)) -> penetrates x nodes pelem pface preload p (bdy j) = true -> hit j p = true.
  Proof.
    intros Hj Hb Hp. unfold hit. rewrite Hp, andb_true_r. apply existsb_exists. exists j. split; [|apply Nat.eqb_refl]. now apply met_complete.
  Qed.
End Record.

(** ** Elements of a row *)
Section Elems.
  Variable pelem : nat -> nat.
  Definition first_at (row : list nat) (j : nat) : bool := negb (existsb (fun k => Nat.eqb (pelem (nth j row O)) (pelem (nth k row O))) (seq 0 j)).
  Definition firsts (row : list nat) : list nat := map (fun j => pelem (nth j row O)) (filter (first_at row) (seq 0 (length row))).
  Lemma first_at_true row j : first_at row j = true <-> forall k, (k < j)%nat -> pelem (nth j row O) <> pelem (nth k row O).
  Proof.
    unfold first_at. rewrite negb_true_iff. split.
    - intros H k Hk E. assert (existsb (fun k => Nat.eqb (pelem (nth j row O)) (pelem (nth k row O))) (seq 0 j) = true); [|congruence].
      apply existsb_exists. exists k. split; [apply in_seq; lia|now apply Nat.eqb_eq].
    - intros H. destruct (existsb _ _) eqn:E; [|reflexivity]. apply existsb_exists in E as (k & Hk & E). apply in_seq in Hk. apply Nat.eqb_eq in E. exfalso. eapply H; [|exact E]. lia.
  Qed.
  Lemma firsts_nodup row : NoDup (firsts row).
  Proof.
    unfold firsts. apply MeshIndexProofs.NoDup_map_in; [apply NoDup_filter, seq_NoDup|]. intros i j Hi Hj E.
    apply filter_In in Hi as [_ Hi], Hj as [_ Hj]. rewrite first_at_true in Hi, Hj.
    destruct (Nat.lt_trichotomy i j) as [L|[L|L]]; [|exact L|]; exfalso; [apply (Hj i L); congruence|apply (Hi j L); congruence].
  Qed.
  Lemma firsts_in row e : In e (firsts row) <-> exists p, In p row /\ pelem p = e.
  Proof.
    unfold firsts. rewrite in_map_iff. split.
    - intros (j & <- & H). apply filter_In in H as [H _]. apply in_seq in H. exists (nth j row O). split; [apply nth_In; lia|reflexivity].
    - intros (p & Hp & <-). apply (In_nth row p O) in Hp as (j & Hj & E). revert p E. induction j as [j IH] using lt_wf_ind. intros p E.
      destruct (first_at row j) eqn:F.
      + exists j. split; [now rewrite E|]. apply filter_In. split; [apply in_seq; lia|exact F].
      + unfold first_at in F. apply negb_false_iff, existsb_exists in F as (k & Hk & F). apply in_seq in Hk. apply Nat.eqb_eq in F.
        destruct (IH k ltac:(lia) ltac:(lia) (nth k row O) eq_refl) as (i & Hi & Hin). exists i. split; [|exact Hin]. rewrite Hi, <- F. now rewrite E.
  Qed.
  Lemma elem_count_firsts row : row <> [] -> elem_count pelem row = length (firsts row).
  Proof.
    intros H. unfold elem_count. change (fun j => negb (existsb (fun k => Nat.eqb (pelem (nth j row O)) (pelem (nth k row O))) (seq 0 j))) with (first_at row).
    cbv zeta. unfold firsts. rewrite map_length. destruct row as [|p row]; [contradiction|]. cbn [length seq filter].
    change (first_at (p :: row) 0) with true. cbn [length Nat.eqb]. reflexivity.
  Qed.
  Lemma elems_penetrated_spec row : row <> [] -> exists l, elems_penetrated pelem row = map Some l /\ NoDup l /\
    forall e, In e l <-> exists p, In p row /\ pelem p = e.
  Proof.
    intros Hne. unfold elems_penetrated. rewrite (elem_count_firsts row Hne).
    assert (G : forall n, (n <= length (firsts row))%nat -> exists l, fold_left (fun acc (_ : nat) =>
      acc ++ [option_map pelem (find (fun p => negb (existsb (fun m => match m with Some e => Nat.eqb (pelem p) e | None => false end) acc)) row)]) (seq 0 n) [] = map Some l
      /\ NoDup l /\ length l = n /\ incl l (firsts row)).
    { induction n as [|n IH]; intros Hn.
      - exists []. repeat split; [constructor|intros ? []].
      - destruct IH as (l & E & Hnd & Hlen & Hinc); [lia|]. rewrite seq_S, fold_left_app, E. cbn [fold_left].
        assert (Hex : exists e, In e (firsts row) /\ ~ In e l).
        { destruct (Forall_Exists_dec (fun e => In e l) (fun e => in_dec Nat.eq_dec e l) (firsts row)) as [F|F].
          - exfalso. rewrite Forall_forall in F. pose proof (NoDup_incl_length (firsts_nodup row) (l' := l) F). lia.
          - apply Exists_exists in F. exact F. }
        destruct Hex as (e & He & Hnin). apply firsts_in in He as (p & Hp & <-).
        destruct (find _ row) as [q|] eqn:F.
        + apply find_some in F as [Hq F]. cbn [option_map]. exists (l ++ [pelem q]). rewrite map_app. cbn [map]. split; [reflexivity|].
          assert (Hqn : ~ In (pelem q) l).
          { intros K. apply negb_true_iff in F. assert (existsb (fun m => match m with Some e => Nat.eqb (pelem q) e | None => false end) (map Some l) = true); [|congruence].
            apply existsb_exists. exists (Some (pelem q)). split; [now apply in_map|apply Nat.eqb_refl]. }
          split; [|split; [rewrite app_length; cbn; lia|]].
          * apply Permutation_NoDup with (pelem q :: l); [apply Permutation_cons_append|now constructor].
          * intros a Ha. apply in_app_or in Ha as [Ha|[<-|[]]]; [now apply Hinc|]. apply firsts_in. exists q. auto.
        + exfalso. pose proof (find_none _ _ F p Hp) as K. apply negb_false_iff, existsb_exists in K as (m & Hm & K). apply in_map_iff in Hm as (e & <- & Hm).
          apply Nat.eqb_eq in K. subst. contradiction. }
    destruct (G (length (firsts row))) as (l & E & Hnd & Hlen & Hinc); [lia|]. exists l. split; [exact E|]. split; [exact Hnd|].
    intros e. rewrite <- firsts_in. split; [apply Hinc|]. intros He. pose proof (NoDup_length_incl Hnd (l' := firsts row) ltac:(lia) Hinc) as K. now apply K.
  Qed.
  Lemma elems_penetrated_nil : elems_penetrated pelem [] = [None].
  Proof. reflexivity. Qed.
End Elems.

(** ** Choice of the patch *)
Lemma fold_ext {A B} (f h : A -> B -> A) l : (forall a b, f a b = h a b) -> forall a, fold_left f l a = fold_left h l a.
Proof. intros H. induction l as [|b l IH]; intros a; [reflexivity|]. cbn. now rewrite H, IH. Qed.
Definition eligible0 (x : nat -> vec) nodes_in_elem elems_in_node (pelem pface : nat -> nat) (node : nat) (row : list nat) (e p : nat) : Prop :=
  In p row /\ pelem p = e /\ exists n v, patch_normal (quad_of x nodes_in_elem pelem pface p) 0 0 = Some n /\
    to_center x nodes_in_elem elems_in_node node = Some v /\ - 0.01 < vdot n v.
Definition facing0 (x : nat -> vec) nodes_in_elem elems_in_node (pelem pface : nat -> nat) (node p : nat) (r : R) : Prop :=
  exists n v, patch_normal (quad_of x nodes_in_elem pelem pface p) 0 0 = Some n /\ to_center x nodes_in_elem elems_in_node node = Some v /\ r = vdot n v.
Lemma facing_iff x nodes elems pelem pface node p r : facing_value x nodes elems pelem pface node p r <-> facing0 x nodes elems pelem pface node p r.
Proof.
  unfold facing_value, facing0. cbv zeta. change (fquad (fun a => x (nodes (pelem p) a)) (pface p)) with (quad_of x nodes pelem pface p).
  set (q := quad_of x nodes pelem pface p). pose proof (normal_centre q) as Hn.
  set (v := inward_dir x nodes elems node).
  assert (Hv : match to_center x nodes elems node with None => elems node = [] \/ vdot v v = 0 | Some w => elems node <> [] /\ vdot v v <> 0 /\ forall d, w d = v d / vdot v v end).
  { unfold to_center. destruct (Nat.eqb_spec (length (elems node)) 0) as [L|L]; [left; now apply length_zero_iff_nil|].
    cbv zeta. set (u := fun d => suml (fun e => sumn 8 (fun j => x (nodes e j) d / 8)) (elems node) / INR (length (elems node)) - x node d).
    assert (E : forall d, u d = v d).
    { intros d. unfold u, v, inward_dir. do 2 f_equal. apply suml_ext. intros e _. cbn [sumn]. field. }
    assert (Ed : vdot u u = vdot v v) by (unfold vdot; now rewrite !E).
    destruct (Req_EM_T (vdot u u) 0) as [Z|Z].
    - right. now rewrite <- Ed.
    - split; [intros K; apply L; now rewrite K|]. split; [now rewrite <- Ed|]. intros d. transitivity (u d / vdot u u); [reflexivity|]. now rewrite Ed, E. }
  split.
  - intros (He & Hm & Hd & H). destruct (patch_normal q 0 0) as [n|]; [|contradiction]. destruct (to_center x nodes elems node) as [w|]; [|tauto].
    exists n, w. split; [reflexivity|]. split; [reflexivity|]. destruct Hn as [_ Hn], Hv as (_ & _ & Hv). unfold vdot at 1. rewrite !Hn, !Hv.
    set (D := vdot v v) in *. set (M := vmag _) in *. unfold vdot in H. set (a0 := area_vec q 0%nat) in *. set (a1 := area_vec q 1%nat) in *. set (a2 := area_vec q 2%nat) in *. clearbody D M a0 a1 a2.
    replace (a0 / M * (v 0%nat / D) + a1 / M * (v 1%nat / D) + a2 / M * (v 2%nat / D)) with ((a0 * v 0%nat + a1 * v 1%nat + a2 * v 2%nat) / (M * D)) by (field; auto). rewrite H. field. auto.
  - intros (n & w & En & Ew & ->). rewrite En in Hn. rewrite Ew in Hv. destruct Hn as [Hm Hn], Hv as (He & Hd & Hv). split; [exact He|]. split; [exact Hm|]. split; [exact Hd|].
    unfold vdot at 2. rewrite !Hn, !Hv.
    set (D := vdot v v) in *. set (M := vmag _) in *. unfold vdot. set (a0 := area_vec q 0%nat) in *. set (a1 := area_vec q 1%nat) in *. set (a2 := area_vec q 2%nat) in *. clearbody D M a0 a1 a2.
    field. auto.
Qed.
Lemma eligible_iff x nodes elems pelem pface node row e p : eligible x nodes elems pelem pface node row e p <-> eligible0 x nodes elems pelem pface node row e p.
Proof.
  unfold eligible, eligible0. split; intros (A & B & H); (split; [exact A|]; split; [exact B|]).
  - destruct H as (r & H & L). apply facing_iff in H as (n & v & En & Ev & ->). exists n, v. auto.
  - destruct H as (n & v & En & Ev & L). exists (vdot n v). split; [|exact L]. apply facing_iff. exists n, v. auto.
Qed.
Section Choice.
  Variables (x : nat -> vec) (nodes : nat -> nat -> nat) (elems : nat -> list nat) (pelem pface : nat -> nat).
  Notation quad := (quad_of x nodes pelem pface).
  Notation dist := (dist_to x nodes pelem pface).

  Lemma plane_dist_to node p n : patch_normal (quad p) 0 0 = Some n -> plane_dist (quad p) n (x node) = dist node p.
  Proof. intros H. now rewrite (plane_dist_spec _ _ _ H). Qed.

  Definition step_dist (node e : nat) (st : R * option nat) (p : nat) : R * option nat :=
    let '(best, sel) := st in
    if Nat.eqb (pelem p) e then
        match patch_normal (quad p) 0 0, to_center x nodes elems node with
        | Some n, Some v => if Rlt_dec (- 0.01) (vdot n v) then
                 if Rlt_dec (plane_dist (quad p) n (x node)) best then (plane_dist (quad p) n (x node), Some p) else (best, sel)
               else (best, sel)
        | _, _ => (best, sel)
        end
      else (best, sel).
  Lemma select_dist node row e sel : select x nodes elems pelem pface false node row e sel = snd (fold_left (step_dist node e) row (10 ^ 16, sel)).
  Proof. unfold select. f_equal. apply fold_ext. now intros [b s] p. Qed.
  Lemma step_dist_cases node e best sel p row : In p row ->
    (eligible0 x nodes elems pelem pface node row e p /\ dist node p < best /\ step_dist node e (best, sel) p = (dist node p, Some p)) \/
    ((eligible0 x nodes elems pelem pface node row e p -> best <= dist node p) /\ step_dist node e (best, sel) p = (best, sel)).
  Proof.
    intros Hin. unfold step_dist, eligible0. destruct (Nat.eqb_spec (pelem p) e) as [He|He].
    2: { right. split; [|reflexivity]. intros (_ & K & _). contradiction. }
    destruct (patch_normal (quad p) 0 0) as [n|] eqn:En. 2: { right. split; [|reflexivity]. intros (_ & _ & ? & ? & K & _). discriminate. }
    destruct (to_center x nodes elems node) as [v|] eqn:Ev. 2: { right. split; [|reflexivity]. intros (_ & _ & ? & ? & _ & K & _). discriminate. }
    destruct (Rlt_dec (- 0.01) (vdot n v)) as [L|L].
    2: { right. split; [|reflexivity]. intros (_ & _ & n' & v' & En' & Ev' & K). injection En' as <-. injection Ev' as <-. contradiction. }
    rewrite (plane_dist_to node p n En). destruct (Rlt_dec (dist node p) best) as [M|M].
    - left. split; [|split; [exact M|reflexivity]]. split; [exact Hin|]. split; [exact He|]. exists n, v. auto.
    - right. split; [|reflexivity]. intros _. lra.
  Qed.
  Lemma fold_dist node e row l : (forall p, In p l -> In p row) -> forall best sel,
    let r := fold_left (step_dist node e) l (best, sel) in
    (r = (best, sel) /\ forall q, In q l -> eligible0 x nodes elems pelem pface node row e q -> best <= dist node q) \/
    (exists p, In p l /\ eligible0 x nodes elems pelem pface node row e p /\ r = (dist node p, Some p) /\ dist node p < best /\
       forall q, In q l -> eligible0 x nodes elems pelem pface node row e q -> dist node p <= dist node q).
  Proof.
    induction l as [|p l IH]; intros Hl best sel; cbv zeta; [left; split; [reflexivity|intros ? []]|]. cbn [fold_left].
    destruct (step_dist_cases node e best sel p row (Hl p (or_introl eq_refl))) as [(He & Hlt & ->)|(Hno & ->)].
    - destruct (IH (fun q Hq => Hl q (or_intror Hq)) (dist node p) (Some p)) as [(-> & Hall)|(q & Hq & Heq & -> & Hlt' & Hall)].
      + right. exists p. split; [now left|]. split; [exact He|]. split; [reflexivity|]. split; [exact Hlt|]. intros q [<-|Hq] Hel; [lra|]. now apply Hall.
      + right. exists q. split; [now right|]. split; [exact Heq|]. split; [reflexivity|]. split; [lra|]. intros q' [<-|Hq'] Hel; [lra|]. now apply Hall.
    - destruct (IH (fun q Hq => Hl q (or_intror Hq)) best sel) as [(-> & Hall)|(q & Hq & Heq & -> & Hlt' & Hall)].
      + left. split; [reflexivity|]. intros q [<-|Hq] Hel; [now apply Hno|]. now apply Hall.
      + right. exists q. split; [now right|]. split; [exact Heq|]. split; [reflexivity|]. split; [lra|]. intros q' [<-|Hq'] Hel; [specialize (Hno Hel); lra|]. now apply Hall.
  Qed.
  Lemma select_spec node row e sel :
    (exists p, eligible0 x nodes elems pelem pface node row e p /\ dist node p < 10 ^ 16 /\ select x nodes elems pelem pface false node row e sel = Some p /\
       forall q, eligible0 x nodes elems pelem pface node row e q -> dist node p <= dist node q) \/
    (select x nodes elems pelem pface false node row e sel = sel /\ forall q, eligible0 x nodes elems pelem pface node row e q -> 10 ^ 16 <= dist node q).
  Proof.
    rewrite select_dist. destruct (fold_dist node e row row (fun p H => H) (10 ^ 16) sel) as [(-> & Hall)|(p & Hp & He & -> & Hlt & Hall)].
    - right. split; [reflexivity|]. intros q Hq. apply Hall; [apply Hq|exact Hq].
    - left. exists p. split; [exact He|]. split; [exact Hlt|]. split; [reflexivity|]. intros q Hq. apply Hall; [apply Hq|exact Hq].
  Qed.

  (** before contact: the most opposed patch *)
  Notation fv := (facing0 x nodes elems pelem pface).
  Definition step_face (node e : nat) (st : R * option nat) (p : nat) : R * option nat :=
    let '(best, sel) := st in
    if Nat.eqb (pelem p) e then
        match patch_normal (quad p) 0 0, to_center x nodes elems node with
        | Some n, Some v => if Rlt_dec best (vdot n v) then (vdot n v, Some p) else (best, sel)
        | _, _ => (best, sel)
        end
      else (best, sel).
  Lemma select_face node row e sel : select x nodes elems pelem pface true node row e sel = snd (fold_left (step_face node e) row (-1, sel)).
  Proof. unfold select. f_equal. apply fold_ext. now intros [b s] p. Qed.
  Lemma step_face_cases node e best sel p :
    (exists r, pelem p = e /\ fv node p r /\ best < r /\ step_face node e (best, sel) p = (r, Some p)) \/
    ((forall r, pelem p = e -> fv node p r -> r <= best) /\ step_face node e (best, sel) p = (best, sel)).
  Proof.
    unfold step_face, facing0. destruct (Nat.eqb_spec (pelem p) e) as [He|He]; [|right; split; [intros r K; contradiction|reflexivity]].
    destruct (patch_normal (quad p) 0 0) as [n|] eqn:En. 2: { right. split; [|reflexivity]. intros r _ (? & ? & K & _). discriminate. }
    destruct (to_center x nodes elems node) as [v|] eqn:Ev. 2: { right. split; [|reflexivity]. intros r _ (? & ? & _ & K & _). discriminate. }
    destruct (Rlt_dec best (vdot n v)) as [L|L].
    - left. exists (vdot n v). split; [exact He|]. split; [exists n, v; auto|]. split; [exact L|reflexivity].
    - right. split; [|reflexivity]. intros r _ (n' & v' & En' & Ev' & ->). injection En' as <-. injection Ev' as <-. lra.
  Qed.
  Lemma fold_face node e l : forall best sel,
    let r := fold_left (step_face node e) l (best, sel) in
    (r = (best, sel) /\ forall q s, In q l -> pelem q = e -> fv node q s -> s <= best) \/
    (exists p s, In p l /\ pelem p = e /\ fv node p s /\ r = (s, Some p) /\ best < s /\ forall q t, In q l -> pelem q = e -> fv node q t -> t <= s).
  Proof.
    induction l as [|p l IH]; intros best sel; cbv zeta; [left; split; [reflexivity|intros ? ? []]|]. cbn [fold_left].
    destruct (step_face_cases node e best sel p) as [(r & He & Hr & Hlt & ->)|(Hno & ->)].
    - assert (U : forall t, fv node p t -> t = r).
      { intros t (n & v & A & B & ->). destruct Hr as (n' & v' & A' & B' & ->). congruence. }
      destruct (IH r (Some p)) as [(-> & Hall)|(q & s & Hq & Heq & Hs & -> & Hlt' & Hall)].
      + right. exists p, r. split; [now left|]. split; [exact He|]. split; [exact Hr|]. split; [reflexivity|]. split; [exact Hlt|].
        intros q t [<-|Hq] Hel Ht; [rewrite (U t Ht); lra|]. eapply Hall; eauto.
      + right. exists q, s. split; [now right|]. split; [exact Heq|]. split; [exact Hs|]. split; [reflexivity|]. split; [lra|].
        intros q' t [<-|Hq'] Hel Ht; [rewrite (U t Ht); lra|]. eapply Hall; eauto.
    - destruct (IH best sel) as [(-> & Hall)|(q & s & Hq & Heq & Hs & -> & Hlt' & Hall)].
      + left. split; [reflexivity|]. intros q t [<-|Hq] Hel Ht; [eapply Hno; eauto|]. eapply Hall; eauto.
      + right. exists q, s. split; [now right|]. split; [exact Heq|]. split; [exact Hs|]. split; [reflexivity|]. split; [lra|].
        intros q' t [<-|Hq'] Hel Ht; [specialize (Hno t Hel Ht); lra|]. eapply Hall; eauto.
  Qed.
  Lemma select_face_spec node row e sel :
    (exists p s, In p row /\ pelem p = e /\ fv node p s /\ select x nodes elems pelem pface true node row e sel = Some p /\ -1 < s /\
       forall q t, In q row -> pelem q = e -> fv node q t -> t <= s) \/
    (select x nodes elems pelem pface true node row e sel = sel /\ forall q t, In q row -> pelem q = e -> fv node q t -> t <= -1).
  Proof.
    rewrite select_face. destruct (fold_face node e row (-1) sel) as [(-> & Hall)|(p & s & Hp & He & Hs & -> & Hlt & Hall)].
    - right. split; [reflexivity|exact Hall].
    - left. exists p, s. repeat split; auto.
  Qed.

  (** slots *)
  Definition slots_from preload node row (l : list nat) (sel0 : option nat) : list (option nat) :=
    snd (fold_left (fun '(sel, out) oe =>
        let sel' := match oe with Some e => select x nodes elems pelem pface preload node row e sel | None => sel end in (sel', out ++ [sel']))
        (map Some l) (sel0, [])).
  Lemma slots_fold preload node row l : forall sel0 out0, exists out,
    fold_left (fun '(sel, out) oe =>
        let sel' := match oe with Some e => select x nodes elems pelem pface preload node row e sel | None => sel end in (sel', out ++ [sel']))
        (map Some l) (sel0, out0) = (last (sel0 :: out) None, out0 ++ out) /\ length out = length l /\
    forall i, (i < length l)%nat -> nth i out None = select x nodes elems pelem pface preload node row (nth i l O) (nth i (sel0 :: out) None).
  Proof.
    induction l as [|e l IH]; intros sel0 out0.
    - exists []. split; [cbn; now rewrite app_nil_r|]. split; [reflexivity|]. cbn. intros; lia.
    - cbn [map fold_left]. cbv zeta. set (s1 := select x nodes elems pelem pface preload node row e sel0).
      destruct (IH s1 (out0 ++ [s1])) as (out & E & Hlen & Hn). exists (s1 :: out). split; [|split].
      + change (match Some e with Some e0 => select x nodes elems pelem pface preload node row e0 sel0 | None => sel0 end) with s1. cbv zeta in E. rewrite E. f_equal. now rewrite <- app_assoc.
      + cbn. now rewrite Hlen.
      + intros [|i] Hi; [reflexivity|]. cbn [nth length] in Hi |- *. rewrite Hn by lia. reflexivity.
  Qed.
  Lemma pair_node_spec preload node row : row <> [] -> exists l out, pair_node x nodes elems pelem pface preload node row = out /\ length out = length l /\
    NoDup l /\ (forall e, In e l <-> exists p, In p row /\ pelem p = e) /\
    forall i, (i < length l)%nat -> nth i out None = select x nodes elems pelem pface preload node row (nth i l O) (nth i (None :: out) None).
  Proof.
    intros Hne. destruct (elems_penetrated_spec pelem row Hne) as (l & E & Hnd & Hin). exists l.
    destruct (slots_fold preload node row l None []) as (out & Eo & Hlen & Hn). exists out.
    split; [|split; [exact Hlen|split; [exact Hnd|split; [exact Hin|exact Hn]]]].
    unfold pair_node. rewrite E. destruct l as [|e l].
    - exfalso. destruct row as [|p row]; [contradiction|]. apply (proj2 (Hin (pelem p))). exists p. split; [now left|reflexivity].
    - change (snd (fold_left (fun '(sel, out) oe =>
        let sel' := match oe with Some e => select x nodes elems pelem pface preload node row e sel | None => sel end in (sel', out ++ [sel']))
        (map Some (e :: l)) (None, [])) = out). rewrite Eo. reflexivity.
  Qed.
End Choice.
