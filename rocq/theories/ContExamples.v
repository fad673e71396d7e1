(** Consequences used in ContProps.v and concrete scenes. *)
From Coq Require Import Reals List Lia Lra ZArith Permutation.
From Verif Require Import BaseArr BaseReal MeshIndexProofs FracModel FracSpec ContModel ContSpec ContProofs ContMore ContForce.
Import ListNotations.
Local Open Scope R_scope.

(** ** Sorting *)
Lemma spread_size x nb bdy : spread_out x nb bdy -> 0 < g_size (make_grid x nb bdy).
Proof.
  intros (i & j & d & Hi & Hj & Hd & H). pose proof (lo_le x nb bdy i d Hi). pose proof (hi_ge x nb bdy j d Hj). pose proof (size_max x nb bdy d Hd) as S. cbv zeta in S. lra.
Qed.
Lemma all_bins nb B key b : (forall i, (i < nb)%nat -> (key i < B)%nat) -> (b <= B)%nat -> length (flat_map (fun b => bin key b nb) (seq 0 b)) = start nb key b.
Proof.
  intros Hk. induction b as [|b IH]; intros Hb; [now rewrite start_0|]. rewrite seq_S, flat_map_app, app_length, IH by lia. cbn [flat_map plus]. rewrite app_nil_r. symmetry. apply start_S.
Qed.
Lemma nth_bins nb B key : (forall i, (i < nb)%nat -> (key i < B)%nat) -> forall b t, (b < B)%nat -> (t < length (bin key b nb))%nat ->
  nth (start nb key b + t) (flat_map (fun b => bin key b nb) (seq 0 B)) O = nth t (bin key b nb) O.
Proof.
  intros Hk b t Hb Ht. replace B with (b + S (B - b - 1))%nat by lia. rewrite seq_app, flat_map_app. cbn [plus seq flat_map].
  rewrite app_nth2; rewrite (all_bins nb B key b Hk) by lia; [|lia]. rewrite app_nth1 by lia. f_equal. lia.
Qed.
Lemma bins_perm nb B key : (forall i, (i < nb)%nat -> (key i < B)%nat) -> Permutation (flat_map (fun b => bin key b nb) (seq 0 B)) (seq 0 nb).
Proof.
  intros Hk. apply NoDup_Permutation.
  - apply NoDup_flat_map; [apply seq_NoDup|intros; apply bin_nodup|]. intros b b' i _ _ H H'. apply bin_in in H as [_ <-], H' as [_ <-]. reflexivity.
  - apply seq_NoDup.
  - intros i. rewrite in_flat_map, in_seq. split.
    + intros (b & _ & H). apply bin_in in H. lia.
    + intros H. exists (key i). split; [apply in_seq; specialize (Hk i); lia|apply bin_in; split; [lia|reflexivity]].
Qed.
Lemma nth_map_lt (f : nat -> nat) l t : (t < length l)%nat -> nth t (map f l) O = f (nth t l O).
Proof. intros H. rewrite (nth_indep (map f l) O (f O)) by now rewrite map_length. apply map_nth. Qed.
Lemma sorted_perm x nb bdy s : 0 < g_size (make_grid x nb bdy) -> sorted_ok x nb bdy s -> exists l, Permutation l (map bdy (seq 0 nb)) /\
  forall t, (t < nb)%nat -> aget (nsort s) t 0 = Some (nth t l O).
Proof.
  intros Hs (_ & Hn & _). set (g := make_grid x nb bdy) in *. set (key := fun i => key_of g (x (bdy i))) in *.
  assert (Hk : forall i, (i < nb)%nat -> (key i < num_buckets g)%nat) by (intros i Hi; now apply key_lt).
  exists (map bdy (flat_map (fun b => bin key b nb) (seq 0 (num_buckets g)))). split; [apply Permutation_map, bins_perm, Hk|].
  intros t Ht. destruct (slot_surj nb (num_buckets g) key Hk t Ht) as (b & u & Hb & Hu & ->). rewrite Hn by assumption.
  f_equal. assert (L : (start nb key b + u < length (flat_map (fun b => bin key b nb) (seq 0 (num_buckets g))))%nat).
  { rewrite (Permutation_length (bins_perm nb _ key Hk)), seq_length. exact Ht. }
  rewrite nth_map_lt by exact L. f_equal. symmetry. now apply nth_bins.
Qed.
Lemma sorted_slice x nb bdy s c : 0 < g_size (make_grid x nb bdy) -> sorted_ok x nb bdy s -> let g := make_grid x nb bdy in cell_ok g c ->
  exists ids, stored s (bucket_id g (c 0%nat) (c 1%nat) (c 2%nat)) (map bdy ids) /\ NoDup ids /\ forall i, In i ids <-> (i < nb)%nat /\ in_cell g c (x (bdy i)).
Proof.
  intros Hs (Hb & Hn & _) g Hc. set (key := fun i => key_of g (x (bdy i))). set (b := bucket_id g _ _ _).
  assert (Hlt : (b < num_buckets g)%nat) by (apply bucket_id_lt; apply Hc; lia).
  exists (bin key b nb). split; [|split; [apply bin_nodup|]].
  - destruct (Hb b Hlt) as [E1 E2]. split; [now rewrite map_length|]. exists (start nb key b). split; [exact E2|]. intros t Ht. rewrite map_length in Ht.
    etransitivity; [exact (Hn b t Hlt Ht)|]. now rewrite nth_map_lt.
  - intros i. rewrite bin_in. split; intros [Hi K]; (split; [exact Hi|]).
    + unfold key, key_of, b in K. apply bucket_id_inj in K as (K0 & K1 & K2); try (apply Hc; lia); try (apply idx_lt; assumption).
      intros d Hd. assert (E : c d = idx g d (x (bdy i) d)) by (destruct d as [|[|[|d]]]; [now symmetry..|lia]). rewrite E. apply idx_cell; [exact Hs|]. now apply lo_le.
    + unfold key, key_of, b. f_equal; apply idx_unique; auto; apply K; lia.
Qed.
Lemma one_cell x nb bdy i : 0 < g_size (make_grid x nb bdy) -> let g := make_grid x nb bdy in (i < nb)%nat ->
  exists c, cell_ok g c /\ in_cell g c (x (bdy i)) /\ forall c', in_cell g c' (x (bdy i)) -> forall d, (d < 3)%nat -> c' d = c d.
Proof.
  intros Hs g Hi. exists (fun d => idx g d (x (bdy i) d)). split; [intros d _; now apply idx_lt|]. split.
  - intros d _. apply idx_cell; [exact Hs|now apply lo_le].
  - intros c' H d Hd. symmetry. apply idx_unique; [exact Hs|now apply H].
Qed.

(** ** Room *)
Lemma roomy_enough x nb bdy lo hi : let g := make_grid x nb bdy in 0 < g_size g -> roomy g lo hi -> (length (cells g lo hi) <= bucket_room)%nat.
Proof.
  intros g Hs (d & Hd & H). apply room_enough; [exact Hs|]. exists d. split; [exact Hd|]. destruct H as [H|H].
  - etransitivity; [apply span_le|]. fold g. change 62%nat with (61 + 1)%nat. apply g_n_le; [exact Hs|]. fold g. replace (INR 61) with 61 by (rewrite INR_IZR_INZ; reflexivity). lra.
  - change 62%nat with (61 + 1)%nat. apply span_width; [exact Hs|]. fold g. replace (INR 61) with 61 by (rewrite INR_IZR_INZ; reflexivity). exact H.
Qed.
Lemma margin_le x nodes pelem pface preload g p : margin x nodes pelem pface preload g p <= 3 * g_size g.
Proof. unfold margin, depth_cap, fmin. eapply Rle_trans; [apply Rmin_l|]. apply Rmin_r. Qed.
Lemma patch_roomy x nodes nb bdy pelem pface preload p d w : let g := make_grid x nb bdy in (d < 3)%nat ->
  (forall a b, (a < 4)%nat -> (b < 4)%nat -> quad_of x nodes pelem pface p a d - quad_of x nodes pelem pface p b d <= w) -> w < 55 * g_size g ->
  roomy g (box_lo (quad_of x nodes pelem pface p) (margin x nodes pelem pface preload g p)) (box_hi (quad_of x nodes pelem pface p) (margin x nodes pelem pface preload g p)).
Proof.
  intros g Hd Hw H. exists d. split; [exact Hd|right]. pose proof (box_width _ (margin x nodes pelem pface preload g p) w d Hw). pose proof (margin_le x nodes pelem pface preload g p). lra.
Qed.
Lemma for_up_none {St} a n (body : nat -> St -> option St) p st : (a <= p < a + n)%nat -> (forall st, body p st = None) -> for_up a n body st = None.
Proof.
  intros Hp Hn. unfold for_up. assert (K : In p (seq a n)) by (apply in_seq; lia). revert st. induction (seq a n) as [|i l IH]; intros st; [destruct K|].
  cbn [for_each]. destruct K as [->|K]; [now rewrite Hn|]. destruct (body i st) as [st'|]; [cbn [obind]; now apply IH|reflexivity].
Qed.
Lemma vmag_is v m : 0 <= m -> vdot v v = m * m -> vmag v = m.
Proof. intros Hm H. unfold vmag. rewrite H. now apply sqrt_square. Qed.
Lemma dbl_max_ge : 1000 <= dbl_max.
Proof.
  unfold dbl_max. assert (1 <= 2 ^ 52) by (apply pow_R1_Rle; lra). assert (/ 2 ^ 52 <= 1) by (rewrite <- Rinv_1; apply Rinv_le_contravar; lra).
  assert (1000 <= 2 ^ 1023). { replace 1023%nat with (10 + 1013)%nat by lia. rewrite pow_add. assert (1 <= 2 ^ 1013) by (apply pow_R1_Rle; lra). assert (E : 2 ^ 10 = 1024) by lra. rewrite E. nra. }
  nra.
Qed.
Lemma maxn_is n f i v : (i < n)%nat -> f i = v -> (forall j, (j < n)%nat -> f j <= v) -> - dbl_max <= v -> maxn n f = v.
Proof.
  intros Hi E Hle Hv. apply Rle_antisym; [|rewrite <- E; now apply maxn_le]. clear Hi E. induction n as [|n IH]; [exact Hv|]. cbn [maxn]. unfold fmax. apply Rmax_lub; [apply IH; intros; apply Hle; lia|apply Hle; lia].
Qed.
Lemma minn_is n f i v : (i < n)%nat -> f i = v -> (forall j, (j < n)%nat -> v <= f j) -> v <= dbl_max -> minn n f = v.
Proof.
  intros Hi E Hle Hv. apply Rle_antisym; [rewrite <- E; now apply minn_le|]. clear Hi E. induction n as [|n IH]; [exact Hv|]. cbn [minn]. unfold fmin. apply Rmin_glb; [apply IH; intros; apply Hle; lia|apply Hle; lia].
Qed.
Lemma vmag_ge0 v : 0 <= vmag v. Proof. apply sqrt_pos. Qed.
Lemma min_edge_ge0 q : 0 <= min_edge q.
Proof. unfold min_edge, fmin. repeat apply Rmin_glb; apply vmag_ge0. Qed.

(** ** Cubes *)
Definition vec3 (a b c : R) : vec := fun d => match d with 0%nat => a | 1%nat => b | _ => c end.
Definition cube (o : vec) (l : R) : nat -> vec := brick o (vec3 l 0 0) (vec3 0 l 0) (vec3 0 0 l).
(** signed distances inward from the six faces *)
Definition inward (o : vec) (l : R) (p : vec) (h : nat) : R :=
  match h with 0%nat => p 0%nat - o 0%nat | 1%nat => o 0%nat + l - p 0%nat | 2%nat => p 1%nat - o 1%nat | 3%nat => o 1%nat + l - p 1%nat
  | 4%nat => p 2%nat - o 2%nat | _ => o 2%nat + l - p 2%nat end.
Lemma cube_dot o l p h : (h < 6)%nat -> vdot (fun d => p d - fquad (cube o l) h 0%nat d) (area_vec (fquad (cube o l) h)) = - 2 * (l * l) * inward o l p h.
Proof.
  intros Hh. do 6 (destruct h as [|h]; [unfold fquad; cbn [face_corners]; unfold vdot, area_vec, vcross; cbn [nth]; unfold cube, brick; cbn [s_xi s_eta s_zeta inward vec3]; field|]). lia.
Qed.
Lemma cube_dot_c o l p h : (h < 6)%nat -> vdot (fun d => p d - centre4 (fquad (cube o l) h) d) (area_vec (fquad (cube o l) h)) = - 2 * (l * l) * inward o l p h.
Proof.
  intros Hh. do 6 (destruct h as [|h]; [unfold fquad; cbn [face_corners]; unfold vdot, area_vec, vcross, centre4; cbn [nth]; unfold cube, brick; cbn [s_xi s_eta s_zeta inward vec3]; field|]). lia.
Qed.
Lemma cube_area o l h : 0 < l -> (h < 6)%nat -> vmag (area_vec (fquad (cube o l) h)) = 2 * (l * l).
Proof.
  intros Hl Hh. apply vmag_is; [nra|].
  do 6 (destruct h as [|h]; [unfold fquad; cbn [face_corners]; unfold vdot, area_vec, vcross; cbn [nth]; unfold cube, brick; cbn [s_xi s_eta s_zeta vec3]; field|]). lia.
Qed.
Lemma cube_edge o l h : 0 < l -> (h < 6)%nat -> min_edge (fquad (cube o l) h) = l.
Proof.
  intros Hl Hh. unfold min_edge.
  assert (E : forall a b, In (a, b) [(0, 1); (1, 2); (2, 3); (3, 0)]%nat -> vmag (fun d => fquad (cube o l) h b d - fquad (cube o l) h a d) = l).
  { intros a b K. apply vmag_is; [lra|]. cbn [In] in K. destruct K as [K|[K|[K|[K|[]]]]]; injection K as <- <-;
    (do 6 (destruct h as [|h]; [unfold fquad; cbn [face_corners]; unfold vdot; cbn [nth]; unfold cube, brick; cbn [s_xi s_eta s_zeta vec3]; field|])); lia. }
  rewrite !E by (cbn [In]; auto). unfold fmin. rewrite !(Rmin_left l l) by lra. reflexivity.
Qed.
Lemma cube_beyond o l p h : 0 < l -> (h < 6)%nat -> (not_beyond (fquad (cube o l) h) p <-> - 0.01 < inward o l p h).
Proof.
  intros Hl Hh. unfold not_beyond. rewrite cube_area, cube_dot_c by assumption. assert (0 < l * l) by nra. set (i := inward o l p h). clearbody i. split.
  - intros [_ H1]. nra.
  - intros H1. split; nra.
Qed.
Lemma cube_within o l p h r : 0 < l -> (h < 6)%nat -> (within_plane (fquad (cube o l) h) p r <-> Rabs (inward o l p h) <= r).
Proof.
  intros Hl Hh. unfold within_plane. rewrite cube_area, cube_dot by assumption. assert (0 < l * l) by nra. set (i := inward o l p h). clearbody i.
  replace (-2 * (l * l) * i) with (- (2 * (l * l) * i)) by ring. set (L := l * l) in *. clearbody L. rewrite Rabs_Ropp, Rabs_mult, (Rabs_right (2 * L)) by lra. set (A := Rabs i). clearbody A. split; intros K; nra.
Qed.
Lemma cube_normal o l h : 0 < l -> (h < 6)%nat -> exists n, patch_normal (fquad (cube o l) h) 0 0 = Some n /\
  forall d, (d < 3)%nat -> n d = match h with 0%nat => vec3 (-1) 0 0 d | 1%nat => vec3 1 0 0 d | 2%nat => vec3 0 (-1) 0 d | 3%nat => vec3 0 1 0 d | 4%nat => vec3 0 0 (-1) d | _ => vec3 0 0 1 d end.
Proof.
  intros Hl Hh. pose proof (normal_centre (fquad (cube o l) h)) as H. destruct (patch_normal _ 0 0) as [n|]; [|rewrite cube_area in H by assumption; nra].
  exists n. split; [reflexivity|]. intros d Hd. destruct H as [_ H]. rewrite H, cube_area by assumption. assert (0 < l * l) by nra.
  do 6 (destruct h as [|h]; [unfold fquad; cbn [face_corners]; unfold area_vec, vcross; cbn [nth]; unfold cube, brick; cbn [s_xi s_eta s_zeta]; destruct d as [|[|[|d]]]; [cbn [vec3]; field; lra..|lia]|]). lia.
Qed.

(** ** A block whose top runs corner to corner through the box of the mesh *)
Definition slab (n : nat) : vec :=
  match n with 0%nat => vec3 0 (/2) 0 | 1%nat => vec3 1 (/2) 0 | 2%nat => vec3 0 1 (/2) | 3%nat => vec3 1 1 (/2)
  | 4%nat => vec3 0 0 0 | 5%nat => vec3 1 0 0 | 6%nat => vec3 0 1 1 | _ => vec3 1 1 1 end.
Lemma slab_lo d : (d < 3)%nat -> g_lo (make_grid slab 8 (fun i => i)) d = 0.
Proof.
  intros Hd. unfold make_grid. cbn [g_lo]. pose proof dbl_max_ge. apply (minn_is 8 _ 4%nat); [lia|destruct d as [|[|[|d]]]; [reflexivity..|lia]| |lra].
  intros j Hj. do 8 (destruct j as [|j]; [destruct d as [|[|[|d]]]; [cbn [slab vec3]; lra..|lia]|]). lia.
Qed.
Lemma slab_hi d : (d < 3)%nat -> g_hi (make_grid slab 8 (fun i => i)) d = 1.
Proof.
  intros Hd. unfold make_grid. cbn [g_hi]. pose proof dbl_max_ge. apply (maxn_is 8 _ 7%nat); [lia|destruct d as [|[|[|d]]]; [reflexivity..|lia]| |lra].
  intros j Hj. do 8 (destruct j as [|j]; [destruct d as [|[|[|d]]]; [cbn [slab vec3]; lra..|lia]|]). lia.
Qed.
Lemma size_of x nb bdy W : let g := make_grid x nb bdy in (forall d, (d < 3)%nat -> g_hi g d - g_lo g d = W) -> g_size g = W / 64.
Proof.
  intros g H. transitivity (fmax ((g_hi g 0%nat - g_lo g 0%nat) / 64) (fmax ((g_hi g 1%nat - g_lo g 1%nat) / 64) ((g_hi g 2%nat - g_lo g 2%nat) / 64))); [reflexivity|].
  rewrite !H by lia. unfold fmax. rewrite !(Rmax_left (W / 64) (W / 64)) by lra. reflexivity.
Qed.
Lemma slab_size : g_size (make_grid slab 8 (fun i => i)) = 1 / 64.
Proof. apply size_of. intros d Hd. rewrite slab_hi, slab_lo by exact Hd. lra. Qed.
Lemma slab_n d : (d < 3)%nat -> g_n (make_grid slab 8 (fun i => i)) d = 65%nat.
Proof.
  intros Hd. rewrite g_n_eq. set (g := make_grid slab 8 (fun i => i)). assert (E : idx g d (g_hi g d) = 64%nat); [|lia].
  apply idx_unique; unfold g; rewrite ?slab_size, ?slab_hi, ?slab_lo by exact Hd; [lra|]. replace (INR 64) with 64 by (rewrite INR_IZR_INZ; reflexivity). lra.
Qed.
Lemma slab_margin : 0 <= margin slab (fun _ a => a) (fun _ => O) (fun p => p) false (make_grid slab 8 (fun i => i)) 5.
Proof.
  unfold margin, depth_cap, fmin. rewrite slab_size, !slab_hi, !slab_lo by lia. apply Rmin_glb.
  - apply Rmin_glb; [|lra]. apply Rmult_le_pos; [|lra]. apply Rmin_glb; [apply Rmin_glb; lra|lra].
  - apply Rmult_le_pos; [apply min_edge_ge0|cbn [dist_factor]; lra].
Qed.
Lemma slab_span d : (d < 3)%nat -> let g := make_grid slab 8 (fun i => i) in let q := quad_of slab (fun _ a => a) (fun _ => O) (fun p => p) 5 in
  let m := margin slab (fun _ a => a) (fun _ => O) (fun p => p) false g 5 in span slab 8 (fun i => i) d (box_lo q m) (box_hi q m) = 65%nat.
Proof.
  intros Hd g q m. assert (Hm : 0 <= m) by apply slab_margin. assert (Hs : g_size g = 1 / 64) by apply slab_size.
  assert (Hq : exists a b, (a < 4)%nat /\ (b < 4)%nat /\ q a d = 0 /\ q b d = 1).
  { exists 0%nat, 2%nat. split; [lia|]. split; [lia|]. unfold q, quad_of, corners_of, fquad. cbn [face_corners nth].
    destruct d as [|[|[|d]]]; [split; reflexivity..|lia]. }
  destruct Hq as (a & b & Ha & Hb & Qa & Qb).
  assert (L : box_lo q m d <= q a d) by (unfold box_lo, fmin; destruct a as [|[|[|[|a]]]]; [eapply Rle_trans; [apply Rmin_l|]; eapply Rle_trans; [apply Rmin_l|]; eapply Rle_trans; [apply Rmin_l|]; lra
    |eapply Rle_trans; [apply Rmin_l|]; eapply Rle_trans; [apply Rmin_l|]; eapply Rle_trans; [apply Rmin_r|]; lra|eapply Rle_trans; [apply Rmin_l|]; eapply Rle_trans; [apply Rmin_r|]; lra|eapply Rle_trans; [apply Rmin_r|]; lra|lia]).
  assert (U : q b d <= box_hi q m d) by (unfold box_hi, fmax; destruct b as [|[|[|[|b]]]]; [eapply Rle_trans; [|apply Rmax_l]; eapply Rle_trans; [|apply Rmax_l]; eapply Rle_trans; [|apply Rmax_l]; lra
    |eapply Rle_trans; [|apply Rmax_l]; eapply Rle_trans; [|apply Rmax_l]; eapply Rle_trans; [|apply Rmax_r]; lra|eapply Rle_trans; [|apply Rmax_l]; eapply Rle_trans; [|apply Rmax_r]; lra|eapply Rle_trans; [|apply Rmax_r]; lra|lia]).
  unfold span. rewrite !clamp_idx. rewrite (slab_n d Hd). fold g.
  assert (E0 : (idx g d (box_lo q m d) <= 0)%nat). { apply idx_le; [lra|]. assert (g_lo g d = 0) by now apply slab_lo. cbn [INR]. lra. }
  assert (E1 : (64 <= idx g d (box_hi q m d))%nat).
  { transitivity (idx g d (g_hi g d)); [|apply idx_mono; [lra|]; assert (g_hi g d = 1) by (now apply slab_hi); lra].
    pose proof (slab_n d Hd) as N. rewrite g_n_eq in N. fold g in N. lia. }
  lia.
Qed.
Lemma slab_overrun s : find_penetrating slab (fun _ a => a) 8 (fun i => i) 6 (fun _ => O) (fun p => p) false bucket_room (make_grid slab 8 (fun i => i)) s = None.
Proof.
  unfold find_penetrating. apply (for_up_none 0 6 _ 5%nat); [lia|]. intros st. cbv zeta. apply over_nodes_overrun. rewrite cells_length.
  pose proof (slab_span 0%nat) as S0. pose proof (slab_span 1%nat) as S1. pose proof (slab_span 2%nat) as S2. cbv zeta in S0, S1, S2. rewrite S0, S1, S2 by lia. unfold bucket_room. lia.
Qed.

(** ** A node four widths beside a small cube, level with its top *)
Definition tiny_x (n : nat) : vec :=
  if Nat.ltb n 8 then cube vzero (/ 1000) n else if Nat.eqb n 8 then vec3 (5 / 1000) (1 / 2000) (/ 1000) else vec3 64 64 64.
Definition tiny_grid := make_grid tiny_x 10 (fun i => i).
Lemma tiny_bounds n d : (d < 3)%nat -> 0 <= tiny_x n d <= 64.
Proof.
  intros Hd. unfold tiny_x. destruct (Nat.ltb_spec n 8); [|destruct (Nat.eqb n 8); (destruct d as [|[|[|d]]]; [cbn [vec3]; lra..|lia])].
  unfold cube, brick, s_xi, s_eta, s_zeta, vzero. do 8 (destruct n as [|n]; [destruct d as [|[|[|d]]]; [cbn [vec3]; lra..|lia]|]). lia.
Qed.
Lemma tiny_lo d : (d < 3)%nat -> g_lo tiny_grid d = 0.
Proof.
  intros Hd. unfold tiny_grid, make_grid. cbn [g_lo]. pose proof dbl_max_ge. apply (minn_is 10 _ 0%nat); [lia| |intros; now apply tiny_bounds|lra].
  unfold tiny_x. cbn [Nat.ltb Nat.leb]. unfold cube, brick, s_xi, s_eta, s_zeta, vzero. destruct d as [|[|[|d]]]; [cbn [vec3]; lra..|lia].
Qed.
Lemma tiny_hi d : (d < 3)%nat -> g_hi tiny_grid d = 64.
Proof.
  intros Hd. unfold tiny_grid, make_grid. cbn [g_hi]. pose proof dbl_max_ge. apply (maxn_is 10 _ 9%nat); [lia| |intros; now apply tiny_bounds|lra].
  destruct d as [|[|[|d]]]; [reflexivity..|lia].
Qed.
Lemma tiny_size : g_size tiny_grid = 1.
Proof. replace 1 with (64 / 64) by lra. apply size_of. intros d Hd. fold tiny_grid. rewrite tiny_hi, tiny_lo by exact Hd. lra. Qed.
Lemma tiny_corners a : (a < 8)%nat -> corners_of tiny_x (fun _ a => a) O a = cube vzero (/ 1000) a.
Proof. intros H. unfold corners_of, tiny_x. now rewrite (proj2 (Nat.ltb_lt _ _) H). Qed.
Lemma fquad_ext X Y h : (forall a, (a < 8)%nat -> X a = Y a) -> (h < 6)%nat -> forall k, fquad X h k = fquad Y h k.
Proof.
  intros E Hh k. do 6 (destruct h as [|h]; [unfold fquad; cbn [face_corners]; do 4 (destruct k as [|k]; [cbn [nth]; apply E; lia|]); destruct k; cbn [nth]; apply E; lia|]). lia.
Qed.
Lemma area_ext q q' : (forall k, q k = q' k) -> area_vec q = area_vec q'.
Proof. intros E. unfold area_vec. now rewrite !E. Qed.
Lemma beyond_ext q q' p : (forall k, q k = q' k) -> not_beyond q p -> not_beyond q' p.
Proof. intros E. unfold not_beyond, centre4. rewrite (area_ext q q' E). rewrite !E. auto. Qed.
Lemma within_ext q q' p r : (forall k, q k = q' k) -> within_plane q p r -> within_plane q' p r.
Proof. intros E. unfold within_plane. now rewrite (area_ext q q' E), !E. Qed.
Lemma edge_ext q q' : (forall k, q k = q' k) -> min_edge q = min_edge q'.
Proof. intros E. unfold min_edge. now rewrite !E. Qed.
Lemma normal_ext q q' : (forall k, q k = q' k) -> patch_normal q 0 0 = patch_normal q' 0 0.
Proof. intros E. unfold patch_normal. cbn [sumn]. now rewrite !E. Qed.
(** the test for a mesh whose element is a cube *)
Lemma cube_deep x nodes pelem pface preload p node o l : 0 < l -> (pface p < 6)%nat -> (forall a, (a < 8)%nat -> x (nodes (pelem p) a) = cube o l a) ->
  (deep_in x nodes pelem pface preload p node <->
   (forall h, (h < 6)%nat -> h <> opposite (pface p) -> - 0.01 < inward o l (x node) h) /\
   Rabs (inward o l (x node) (pface p)) <= (if preload then 1 else 0.1) * l /\ (forall k, (k < 8)%nat -> node <> nodes (pelem p) k)).
Proof.
  intros Hl Hf Hc. rewrite deep_in_iff. unfold deep_in0. cbv zeta.
  assert (E : forall h, (h < 6)%nat -> forall k, fquad (fun a => x (nodes (pelem p) a)) h k = fquad (cube o l) h k) by (intros h Hh; apply fquad_ext; auto).
  assert (E' : forall h, (h < 6)%nat -> forall k, fquad (cube o l) h k = fquad (fun a => x (nodes (pelem p) a)) h k) by (intros h Hh k; symmetry; now apply E).
  rewrite (edge_ext _ _ (E _ Hf)), cube_edge by assumption. split; intros (A & B & C); (split; [|split; [|exact C]]).
  - intros h Hh Ho. apply (cube_beyond o l (x node) h Hl Hh). apply (beyond_ext _ _ _ (E h Hh)). now apply A.
  - apply (cube_within o l (x node) (pface p) _ Hl Hf). now apply (within_ext _ _ _ _ (E _ Hf)).
  - intros h Hh Ho. apply (beyond_ext _ _ _ (E' h Hh)). apply (cube_beyond o l (x node) h Hl Hh). now apply A.
  - apply (within_ext _ _ _ _ (E' _ Hf)). now apply (cube_within o l (x node) (pface p) _ Hl Hf).
Qed.
Lemma tiny_deep : deep_in tiny_x (fun _ a => a) (fun _ => O) (fun p => p) false 5 8.
Proof.
  apply (cube_deep _ _ _ _ _ _ _ vzero (/ 1000)); [lra|lia|apply tiny_corners|]. unfold tiny_x. cbn [Nat.ltb Nat.leb Nat.eqb]. split; [|split].
  - intros h Hh Ho. unfold vzero. do 6 (destruct h as [|h]; [cbn [inward vec3]; lra|]). lia.
  - cbn [inward vec3]. unfold vzero. rewrite Rabs_right by lra. lra.
  - intros k Hk. lia.
Qed.
Lemma tiny_roomy p : (p < 6)%nat -> roomy tiny_grid (box_lo (quad_of tiny_x (fun _ a => a) (fun _ => O) (fun p => p) p) (margin tiny_x (fun _ a => a) (fun _ => O) (fun p => p) false tiny_grid p))
  (box_hi (quad_of tiny_x (fun _ a => a) (fun _ => O) (fun p => p) p) (margin tiny_x (fun _ a => a) (fun _ => O) (fun p => p) false tiny_grid p)).
Proof.
  intros Hp. apply (patch_roomy tiny_x _ 10 (fun i => i) _ _ false p 0%nat 1); [lia| |fold tiny_grid; rewrite tiny_size; lra].
  intros a b Ha Hb. unfold quad_of. rewrite !(fquad_ext _ _ p tiny_corners Hp).
  assert (Q : forall k, 0 <= fquad (cube vzero (/ 1000)) p k 0%nat <= / 1000).
  { intros k. do 6 (destruct p as [|p]; [unfold fquad; cbn [face_corners]; do 4 (destruct k as [|k]; [cbn [nth]; unfold cube, brick, vzero; cbn [s_xi s_eta s_zeta vec3]; lra|]); destruct k; cbn [nth]; unfold cube, brick, vzero; cbn [s_xi s_eta s_zeta vec3]; lra|]). lia. }
  pose proof (Q a). pose proof (Q b). lra.
Qed.
(** the node is looked at because it shares a bucket with the cube *)
Lemma tiny_met : let q := quad_of tiny_x (fun _ a => a) (fun _ => O) (fun p => p) 5 in let m := margin tiny_x (fun _ a => a) (fun _ => O) (fun p => p) false tiny_grid 5 in
  In 8%nat (met tiny_x 10 (fun i => i) (box_lo q m) (box_hi q m)).
Proof.
  intros q m. unfold met. apply in_flat_map. exists (key_of tiny_grid (tiny_x 8)). split; [|apply bin_in; split; [lia|reflexivity]].
  fold tiny_grid. unfold key_of.
  assert (Z : forall d, (d < 3)%nat -> idx tiny_grid d (tiny_x 8 d) = O).
  { intros d Hd. apply idx_unique; rewrite tiny_size, ?tiny_lo by exact Hd; [lra|]. cbn [INR]. destruct d as [|[|[|d]]]; [cbn; lra..|lia]. }
  rewrite !Z by lia. apply in_cells. fold tiny_grid. exists O, O, O. split; [reflexivity|].
  assert (C : forall d, (d < 3)%nat -> (clamp_index tiny_grid d (box_lo q m d) <= 0)%nat).
  { intros d Hd. unfold tiny_grid. rewrite clamp_idx. fold tiny_grid. assert ((idx tiny_grid d (box_lo q m d) <= 0)%nat); [|lia].
    apply idx_le; rewrite tiny_size, ?tiny_lo by exact Hd; [lra|]. cbn [INR].
    assert (box_lo q m d <= q 0%nat d - m). { unfold box_lo, fmin. eapply Rle_trans; [apply Rmin_l|]. eapply Rle_trans; [apply Rmin_l|]. apply Rmin_l. }
    assert (Hm : 0 <= m). { unfold m, margin, depth_cap, fmin. rewrite tiny_size, !tiny_hi, !tiny_lo by lia. apply Rmin_glb.
      - apply Rmin_glb; [|lra]. apply Rmult_le_pos; [|lra]. apply Rmin_glb; [apply Rmin_glb; lra|lra].
      - apply Rmult_le_pos; [apply min_edge_ge0|cbn [dist_factor]; lra]. }
    assert (q 0%nat d <= / 1000). { unfold q, quad_of. rewrite (fquad_ext _ _ 5 tiny_corners) by lia. unfold fquad. cbn [face_corners nth]. unfold cube, brick, vzero. cbn [s_xi s_eta s_zeta].
      destruct d as [|[|[|d]]]; [cbn [vec3]; lra..|lia]. }
    lra. }
  pose proof (C 0%nat). pose proof (C 1%nat). pose proof (C 2%nat). repeat split; lia.
Qed.

(** ** A node in two overlapping cubes; its own element is above *)
Definition pile_o (e : nat) : vec := match e with 0%nat => vec3 0 0 0 | 1%nat => vec3 0 0 (9/10) | _ => vec3 (1/2) (1/2) (95/100) end.
Definition pile_x (n : nat) : vec := cube (pile_o (n / 8)) 1 (n mod 8).
Definition pile_nodes (e a : nat) : nat := (8 * e + a)%nat.
Definition pile_elems (n : nat) : list nat := [(n / 8)%nat].
Definition pile_pelem (p : nat) : nat := (p / 6)%nat.
Definition pile_pface (p : nat) : nat := (p mod 6)%nat.
Lemma pile_corners e a : (a < 8)%nat -> pile_x (pile_nodes e a) = cube (pile_o e) 1 a.
Proof.
  intros Ha. unfold pile_x, pile_nodes. replace (8 * e + a)%nat with (a + e * 8)%nat by lia. rewrite Nat.div_add, Nat.mod_add by lia.
  rewrite Nat.div_small, Nat.mod_small by lia. reflexivity.
Qed.
Lemma pile_node d : (d < 3)%nat -> pile_x 16 d = pile_o 2 d.
Proof.
  intros Hd. change 16%nat with (pile_nodes 2 0). rewrite pile_corners by lia. unfold cube, brick. cbn [s_xi s_eta s_zeta].
  destruct d as [|[|[|d]]]; [cbn [pile_o vec3]; lra..|lia].
Qed.
Lemma inward_ext o l p q h : (forall d, (d < 3)%nat -> p d = q d) -> inward o l p h = inward o l q h.
Proof. intros E. unfold inward. do 5 (destruct h as [|h]; [now rewrite E by lia|]). now rewrite E by lia. Qed.
Lemma pile_row : filter (fun p => penetrates pile_x pile_nodes pile_pelem pile_pface false p 16) (seq 0 18) = [5; 10]%nat.
Proof.
  assert (K : forall p, (p < 18)%nat -> penetrates pile_x pile_nodes pile_pelem pile_pface false p 16 = (Nat.eqb p 5 || Nat.eqb p 10)%bool).
  { intros p Hp. assert (Hf : (pile_pface p < 6)%nat) by (apply Nat.mod_upper_bound; lia).
    assert (D := cube_deep pile_x pile_nodes pile_pelem pile_pface false p 16 (pile_o (pile_pelem p)) 1 Rlt_0_1 Hf (pile_corners (pile_pelem p))).
    rewrite <- (penetrates_spec pile_x pile_nodes pile_pelem pile_pface false p 16 Hf) in D.
    assert (I : forall o h, inward o 1 (pile_x 16) h = inward o 1 (pile_o 2) h) by (intros; apply inward_ext, pile_node). rewrite I in D.
    assert (D' : penetrates pile_x pile_nodes pile_pelem pile_pface false p 16 = true <->
      (forall h : nat, (h < 6)%nat -> h <> opposite (pile_pface p) -> - 0.01 < inward (pile_o (pile_pelem p)) 1 (pile_o 2) h) /\
      Rabs (inward (pile_o (pile_pelem p)) 1 (pile_o 2) (pile_pface p)) <= 0.1 * 1 /\ (forall k : nat, (k < 8)%nat -> 16%nat <> pile_nodes (pile_pelem p) k)).
    { rewrite D. split; intros (A & B & C); (split; [|split; [exact B|exact C]]); intros h Hh Ho; specialize (A h Hh Ho); rewrite I in *; exact A. }
    clear D I. destruct (Nat.eqb_spec p 5) as [->|N5]; [|destruct (Nat.eqb_spec p 10) as [->|N10]]; cbn [orb].
    - apply D'. change (pile_pelem 5) with 0%nat. change (pile_pface 5) with 5%nat. split; [|split].
      + intros h Hh _. do 6 (destruct h as [|h]; [cbn [inward pile_o vec3]; lra|]). lia.
      + cbn [inward pile_o vec3]. rewrite Rabs_right; lra.
      + intros k Hk. unfold pile_nodes. lia.
    - apply D'. change (pile_pelem 10) with 1%nat. change (pile_pface 10) with 4%nat. split; [|split].
      + intros h Hh _. do 6 (destruct h as [|h]; [cbn [inward pile_o vec3]; lra|]). lia.
      + cbn [inward pile_o vec3]. rewrite Rabs_right; lra.
      + intros k Hk. unfold pile_nodes. lia.
    - apply Bool.not_true_is_false. intros T. apply D' in T as (_ & B & C). clear D' Hf.
      do 12 (destruct p as [|p]; [first [exfalso; now apply N5|exfalso; now apply N10|
        match type of B with Rabs (inward (pile_o (pile_pelem ?n)) _ _ (pile_pface ?n)) <= _ =>
          let e := eval compute in (pile_pelem n) in let f := eval compute in (pile_pface n) in change (pile_pelem n) with e in B; change (pile_pface n) with f in B end;
        cbn [inward pile_o vec3] in B; revert B; unfold Rabs; match goal with |- context [Rcase_abs ?t] => destruct (Rcase_abs t) end; intros; lra]|]).
      apply (C 0%nat); [lia|]. unfold pile_nodes. unfold pile_pelem. do 6 (destruct p as [|p]; [reflexivity|]). lia. }
  assert (F : forall l, (forall p, In p l -> (p < 18)%nat) -> filter (fun p => penetrates pile_x pile_nodes pile_pelem pile_pface false p 16) l = filter (fun p => (Nat.eqb p 5 || Nat.eqb p 10)%bool) l).
  { induction l as [|p l IH]; intros Hl; [reflexivity|]. cbn [filter]. rewrite K by (apply Hl; now left). rewrite IH by (intros q Hq; apply Hl; now right). reflexivity. }
  rewrite F by (intros p Hp; apply in_seq in Hp; lia). reflexivity.
Qed.
Lemma pile_center : exists v, to_center pile_x pile_nodes pile_elems 16 = Some v /\ forall d, (d < 3)%nat -> v d = 2 / 3.
Proof.
  unfold to_center. change (pile_elems 16) with [2%nat]. cbn [length]. cbn [Nat.eqb]. unfold suml. cbn [fold_right map]. cbv zeta.
  set (v := fun d => _ - pile_x 16 d). assert (Hv : forall d, (d < 3)%nat -> v d = / 2).
  { intros d Hd. unfold v. rewrite (pile_node d Hd). cbn [sumn]. rewrite !pile_corners by lia. unfold cube, brick. cbn [s_xi s_eta s_zeta]. change (INR 1) with 1.
    destruct d as [|[|[|d]]]; [cbn [pile_o vec3]; lra..|lia]. }
  assert (E : vdot v v = 3 / 4) by (unfold vdot; rewrite !Hv by lia; lra).
  rewrite E. destruct (Req_EM_T (3 / 4) 0) as [C|_]; [lra|]. eexists. split; [reflexivity|]. intros d Hd. cbv beta. specialize (Hv d Hd). unfold v in Hv. rewrite Hv. lra.
Qed.
Lemma pile_pairs : pair_node pile_x pile_nodes pile_elems pile_pelem pile_pface false 16 [5; 10]%nat = [Some 5; Some 5]%nat.
Proof.
  unfold pair_node. change (elems_penetrated pile_pelem [5; 10]%nat) with [Some 0; Some 1]%nat. cbn [fold_left].
  destruct pile_center as (v & Ev & Hv).
  assert (Q : forall p k, (p < 18)%nat -> quad_of pile_x pile_nodes pile_pelem pile_pface p k = fquad (cube (pile_o (pile_pelem p)) 1) (pile_pface p) k).
  { intros p k Hp. unfold quad_of. apply fquad_ext; [|apply Nat.mod_upper_bound; lia]. intros a Ha. unfold corners_of. now apply pile_corners. }
  assert (N : forall p, (p < 18)%nat -> patch_normal (quad_of pile_x pile_nodes pile_pelem pile_pface p) 0 0 = patch_normal (fquad (cube (pile_o (pile_pelem p)) 1) (pile_pface p)) 0 0)
    by (intros p Hp; apply normal_ext; intros k; now apply Q).
  assert (S0 : select pile_x pile_nodes pile_elems pile_pelem pile_pface false 16 [5; 10]%nat 0 None = Some 5%nat).
  { destruct (select_spec pile_x pile_nodes pile_elems pile_pelem pile_pface 16 [5; 10]%nat 0 None) as [(p & (I & P & _) & _ & E & _)|[_ H]].
    - rewrite E. cbn [In] in I. destruct I as [<-|[<-|[]]]; [reflexivity|discriminate P].
    - exfalso. assert (Hel : eligible0 pile_x pile_nodes pile_elems pile_pelem pile_pface 16 [5; 10]%nat 0 5).
      { split; [now left|]. split; [reflexivity|]. destruct (cube_normal (pile_o 0) 1 5 Rlt_0_1) as (n & En & Hn); [lia|].
        exists n, v. split; [rewrite N by lia; exact En|]. split; [exact Ev|]. unfold vdot. rewrite !Hn, !Hv by lia. cbn [vec3]. lra. }
      specialize (H _ Hel). unfold dist_to in H. rewrite (area_ext _ _ (fun k => Q 5%nat k ltac:(lia))), (Q 5%nat 0%nat) in H by lia.
      change (pile_pelem 5) with 0%nat in H. change (pile_pface 5) with 5%nat in H. rewrite cube_dot, cube_area in H by (lra || lia).
      rewrite (inward_ext _ _ _ _ _ pile_node) in H. cbn [inward pile_o vec3] in H.
      revert H. unfold Rabs. match goal with |- context [Rcase_abs ?t] => destruct (Rcase_abs t) end; intros; assert (10 ^ 16 > 1) by (apply Rlt_pow_R1; [lra|lia]); lra. }
  assert (S1 : select pile_x pile_nodes pile_elems pile_pelem pile_pface false 16 [5; 10]%nat 1 (Some 5%nat) = Some 5%nat).
  { destruct (select_spec pile_x pile_nodes pile_elems pile_pelem pile_pface 16 [5; 10]%nat 1 (Some 5%nat)) as [(p & (I & P & n & w & En & Ew & L) & _)|[E _]]; [exfalso|exact E].
    cbn [In] in I. destruct I as [<-|[<-|[]]]; [discriminate P|]. rewrite Ev in Ew. injection Ew as <-. rewrite N in En by lia.
    destruct (cube_normal (pile_o 1) 1 4 Rlt_0_1) as (n' & En' & Hn'); [lia|]. change (pile_pelem 10) with 1%nat in En. change (pile_pface 10) with 4%nat in En.
    rewrite En' in En. injection En as <-. unfold vdot in L. rewrite !Hn', !Hv in L by lia. cbn [vec3] in L. lra. }
  rewrite S0, S1. reflexivity.
Qed.
