(* C138: turning a surface into voxels. *)
From Coq Require Import Reals List Arith Lia Lra Bool.
From Verif Require Import VoxModel VoxSpec VoxRay.
Import ListNotations.
Local Open Scope R_scope.

(* A facet is taken as crossed when the ray goes through its inside, and not through an edge; the
   height is where it does. *)
Theorem C138_crossed : forall x y f,
  (crossed x y f = true <-> exists z, hit x y f z)
  /\ (forall z, hit x y f z -> / 10 ^ 14 <= Rabs (double_area f) -> plane_z x y f = Fin z).
Proof. intros x y f. split; [apply crossed_iff|]. intros z. apply hit_height. Qed.
Print Assumptions C138_crossed.

(* A ray that meets no vertex, and facets one at a time, labels a point off the surface when an odd
   number of crossings lies below it, or one lies near it; it is not put on the list. *)
Theorem C138_ray : forall fs j x y zs z, plain_ray x y fs zs -> Nat.even (length zs) = true -> j_flag j = false -> ~ In z zs ->
  (fst (ray fs j x y) z = true <-> Nat.odd (below z zs) = true \/ exists c, In c zs /\ close z c) /\ snd (ray fs j x y) = false.
Proof. exact plain_ray_labels. Qed.
Print Assumptions C138_ray.

(* A flag that happens to be set drops the first crossing: a ray through a closed surface then
   labels nothing. *)
Theorem C138_flag_refuted : forall fs j x y zs, plain_ray x y fs zs -> Nat.even (length zs) = true -> zs <> [] -> j_flag j = true ->
  (forall z, fst (ray fs j x y) z = false) /\ snd (ray fs j x y) = true.
Proof.
  intros fs j x y zs (H & ND & MV & ST) EV NE FL. unfold ray. cbv zeta. rewrite (no_vertex x y fs MV). cbn [length Nat.ltb Nat.leb andb app].
  pose proof (cross_list x y fs zs H ST) as CL. destruct zs as [|z zs]; [contradiction|]. destruct (filter (crossed x y) (filter (possible x y) fs)) as [|g gs]; [discriminate|].
  rewrite CL, FL, (unique_flag z zs ND), map_length. assert (OD : Nat.even (length zs) = false). { cbn [length] in EV. rewrite Nat.even_succ, <- Nat.negb_even in EV. destruct (Nat.even (length zs)); [discriminate|reflexivity]. }
  rewrite OD. cbn [fst snd Nat.eqb orb]. split; reflexivity.
Qed.
Print Assumptions C138_flag_refuted.

(* ---------- the extent ---------- *)

Lemma gtb_iff a b : gtb a b = true <-> b < a.
Proof. unfold gtb. destruct (Rlt_dec b a); split; intros; try assumption; try discriminate; try contradiction; reflexivity. Qed.
Ltac steps := unfold max_step; repeat match goal with |- context [gtb ?a ?b] => let E := fresh "G" in destruct (gtb a b) eqn:E; [apply gtb_iff in E|apply not_true_iff_false in E; rewrite gtb_iff in E] end; cbn [orb andb].
Lemma max_step_ge m a b c : m <= max_step m a b c.
Proof. steps; lra. Qed.
Lemma max_step_le m a b c h : m <= h -> a <= h -> b <= h -> c <= h -> max_step m a b c <= h.
Proof. intros. steps; lra. Qed.
Lemma max_step_peak m a b c h : m <= h -> (a = h /\ b < h /\ c < h \/ b = h /\ a < h /\ c < h \/ c = h /\ a < h /\ b < h) -> max_step m a b c = h.
Proof. intros M H. steps; lra. Qed.
Lemma mesh_max_ge co fs : forall m, m <= mesh_max m co fs.
Proof. induction fs as [|f fs IH]; intros m; [apply Rle_refl|]. unfold mesh_max. cbn [fold_left]. fold (mesh_max (max_step m (co (v1 f)) (co (v2 f)) (co (v3 f))) co fs). eapply Rle_trans; [apply max_step_ge|apply IH]. Qed.
Lemma mesh_max_le co fs h : (forall f p, In f fs -> In p (corners f) -> co p <= h) -> forall m, m <= h -> mesh_max m co fs <= h.
Proof.
  induction fs as [|f fs IH]; intros H m M; [exact M|]. unfold mesh_max. cbn [fold_left]. apply IH; [intros; eapply H; [right; eassumption|assumption]|].
  apply max_step_le; [exact M|..]; apply (H f); try (left; reflexivity); cbn [corners In]; tauto.
Qed.
Lemma mesh_max_peak co fs h : (forall f p, In f fs -> In p (corners f) -> co p <= h) -> peak co fs h -> forall m, m <= h -> mesh_max m co fs = h.
Proof.
  intros H (f & p & q & r & I & C & P & Q & T). apply in_split in I. destruct I as (a & b & ->). intros m M. apply Rle_antisym; [apply mesh_max_le; assumption|].
  unfold mesh_max. rewrite fold_left_app. cbn [fold_left]. fold (mesh_max m co a).
  rewrite (max_step_peak _ _ _ _ h); [apply mesh_max_ge|apply mesh_max_le; [intros; eapply H; [apply in_or_app; left; eassumption|assumption]|exact M]|].
  unfold corners in C. destruct C as [C|[C|C]]; injection C as -> -> ->; tauto.
Qed.

(* The extent is found where some facet has a single vertex at either end. *)
Theorem C138_extent : forall m0 M0 co fs lo hi, spans co fs lo hi -> m0 <= hi -> lo <= M0 -> mesh_max m0 co fs = hi /\ mesh_min M0 co fs = lo.
Proof.
  intros m0 M0 co fs lo hi (B & P & Q) H1 H2. split.
  - apply mesh_max_peak; [intros f p I J; apply (B f p I J)|exact P|exact H1].
  - unfold mesh_min. rewrite (mesh_max_peak (fun p => - co p) fs (- lo)); [ring|intros f p I J; pose proof (B f p I J); lra|exact Q|lra].
Qed.
Print Assumptions C138_extent.

(* Where every facet has two vertices at its own upper end, nothing is found. *)
Theorem C138_extent_refuted : forall m0 co fs,
  (forall f, In f fs -> exists p q r, (corners f = [p; q; r] \/ corners f = [p; r; q] \/ corners f = [r; p; q]) /\ co p = co q /\ co r <= co p) ->
  mesh_max m0 co fs = m0.
Proof.
  intros m0 co fs H. induction fs as [|f fs IH]; [reflexivity|]. unfold mesh_max. cbn [fold_left].
  replace (max_step m0 (co (v1 f)) (co (v2 f)) (co (v3 f))) with m0; [apply IH; intros; apply H; right; assumption|].
  destruct (H f (or_introl eq_refl)) as (p & q & r & C & E & L). unfold corners in C. symmetry. destruct C as [C|[C|C]]; injection C as -> -> ->; steps; lra.
Qed.
Print Assumptions C138_extent_refuted.

(* ---------- the three directions ---------- *)

Lemma correct_voxel_other elx ely xy g k a b c : xy <> (a, b) -> correct_voxel elx ely xy g k a b c = g a b c.
Proof.
  destruct xy as [x y]. intros N. unfold correct_voxel. cbv zeta. destruct (Nat.leb _ _); [|reflexivity]. unfold set3.
  destruct (Nat.eqb a x) eqn:E1; [|reflexivity]. destruct (Nat.eqb b y) eqn:E2; [|reflexivity]. apply Nat.eqb_eq in E1, E2. subst. contradiction.
Qed.
Lemma correct_ray_other elx ely elz xy a b c : xy <> (a, b) -> forall g, correct_ray elx ely elz g xy a b c = g a b c.
Proof.
  intros N. unfold correct_ray. generalize (seq 0 elz) as ks. induction ks as [|k ks IH]; intros g; [reflexivity|]. cbn [fold_left]. rewrite IH. apply correct_voxel_other. exact N.
Qed.
Lemma corrections_other elx ely elz l a b c : ~ In (a, b) l -> forall g, fold_left (correct_ray elx ely elz) l g a b c = g a b c.
Proof.
  induction l as [|xy l IH]; intros N g; [reflexivity|]. cbn [fold_left]. rewrite IH by (intros I; apply N; right; exact I). apply correct_ray_other. intros ->. apply N. left. reflexivity.
Qed.
(* A ray that is not listed keeps its labels. *)
Lemma unlisted m0 M0 js fs n1 n2 n3 g0 a b k : let e := measure m0 M0 fs in
  let r := ray fs (js a b) (grid_co (x_lo e) (x_hi e) n1 a) (grid_co (y_lo e) (y_hi e) n2 b) in
  snd r = false -> main_function m0 M0 js fs n1 n2 n3 g0 a b k = (g0 a b k || fst r (grid_co (z_lo e) (z_hi e) n3 k))%bool.
Proof.
  intros e r H. unfold main_function. cbv zeta. rewrite corrections_other; [reflexivity|]. intros I. apply filter_In in I. destruct I as [_ I]. cbn [fst snd] in I. fold e r in I. congruence.
Qed.
Lemma keeps_true elx ely xy g k a b c : g a b c = true -> correct_voxel elx ely xy g k a b c = true.
Proof. destruct xy as [x y]. intros H. unfold correct_voxel. cbv zeta. destruct (Nat.leb _ _); [|exact H]. unfold set3. rewrite H. destruct (_ && _)%bool; reflexivity. Qed.

(* The corrections only add voxels, and only on listed rays. *)
Theorem C138_corrections : forall m0 M0 js fs n1 n2 n3 g0 a b k, let e := measure m0 M0 fs in
  let r := ray fs (js a b) (grid_co (x_lo e) (x_hi e) n1 a) (grid_co (y_lo e) (y_hi e) n2 b) in
  let before := (g0 a b k || fst r (grid_co (z_lo e) (z_hi e) n3 k))%bool in let after := main_function m0 M0 js fs n1 n2 n3 g0 a b k in
  (before = true -> after = true) /\ (before <> after -> snd r = true).
Proof.
  intros m0 M0 js fs n1 n2 n3 g0 a b k e r before after. split.
  - intros H. unfold after, main_function. cbv zeta. generalize (filter (fun xy : nat * nat => snd (ray fs (js (fst xy) (snd xy)) (grid_co (x_lo (measure m0 M0 fs)) (x_hi (measure m0 M0 fs)) n1 (fst xy)) (grid_co (y_lo (measure m0 M0 fs)) (y_hi (measure m0 M0 fs)) n2 (snd xy)))) (flat_map (fun b => map (fun a => (a, b)) (seq 0 (n1 + 2))) (seq 0 (n2 + 2)))) as l.
    assert (T : forall l (g : grid3), g a b k = true -> fold_left (correct_ray (n1 + 2) (n2 + 2) (n3 + 2)) l g a b k = true); [|intros l; apply T; exact H].
    induction l as [|xy l IH]; intros g G; [exact G|]. cbn [fold_left]. apply IH. unfold correct_ray. clear IH. revert g G. generalize (seq 0 (n3 + 2)) as ks. induction ks as [|c ks IH]; intros g G; [exact G|]. cbn [fold_left]. apply IH. apply keeps_true. exact G.
  - intros N. destruct (snd r) eqn:E; [reflexivity|]. exfalso. apply N. symmetry. apply unlisted. exact E.
Qed.
Print Assumptions C138_corrections.

Definition around : list (nat * nat) := [(0, 0); (0, 1); (0, 2); (1, 0); (1, 2); (2, 0); (2, 1); (2, 2)]%nat.
Definition taken (g : grid3) (elx ely x y k : nat) (d : nat * nat) : bool := Nat.eqb (neighbour g elx ely x y k (fst d) (snd d)) 1.
Definition cell (x y : nat) (d : nat * nat) : nat * nat := ((x + fst d - 1)%nat, (y + snd d - 1)%nat).
Lemma taken_iff g elx ely x y k d : taken g elx ely x y k d = true <-> (0 < x + fst d <= elx)%nat /\ (0 < y + snd d <= ely)%nat /\ g (fst (cell x y d)) (snd (cell x y d)) k = true.
Proof.
  unfold taken, neighbour, cell. cbn [fst snd]. destruct (Nat.ltb_spec 0 (x + fst d)), (Nat.leb_spec (x + fst d) elx), (Nat.ltb_spec 0 (y + snd d)), (Nat.leb_spec (y + snd d) ely); cbn [andb]; try (split; [discriminate|lia]).
  destruct (g _ _ k); split; try discriminate; try tauto; intros; repeat split; lia.
Qed.
Lemma neighbour_01 g elx ely x y k dx dy : neighbour g elx ely x y k dx dy = if taken g elx ely x y k (dx, dy) then 1%nat else 0%nat.
Proof. unfold taken. cbn [fst snd]. unfold neighbour. destruct (_ && _)%bool; [destruct (g _ _ k)|]; reflexivity. Qed.
Lemma filter_once {A} (p : A -> bool) l : length (filter p l) = fold_right (fun a n => ((if p a then 1 else 0) + n)%nat) 0%nat l.
Proof. induction l as [|a l IH]; [reflexivity|]. cbn [filter fold_right]. destruct (p a); cbn [length]; rewrite IH; reflexivity. Qed.
Lemma around_in dx dy : In (dx, dy) around <-> (dx <= 2 /\ dy <= 2)%nat /\ (dx, dy) <> (1, 1)%nat.
Proof.
  unfold around. cbn [In]. split.
  - intros H. repeat (destruct H as [E|H]; [injection E as <- <-; split; [lia|intros F; discriminate F]|]). contradiction.
  - intros [[A B] N]. destruct dx as [|[|[|]]], dy as [|[|[|]]]; try lia; try (exfalso; apply N; reflexivity); tauto.
Qed.
Lemma filled_iff g elx ely x y k : (4 <= length (filter (taken g elx ely x y k) around))%nat <-> four_around g elx ely x y k.
Proof.
  split.
  - intros H. exists (map (cell x y) (firstn 4 (filter (taken g elx ely x y k) around))). split; [|split].
    + assert (ND : NoDup around) by (unfold around; repeat constructor; cbn [In]; intuition discriminate).
      assert (NF : NoDup (firstn 4 (filter (taken g elx ely x y k) around))).
      { pose proof (NoDup_filter (taken g elx ely x y k) ND) as F. rewrite <- (firstn_skipn 4 (filter (taken g elx ely x y k) around)) in F. revert F. generalize (firstn 4 (filter (taken g elx ely x y k) around)) as u. generalize (skipn 4 (filter (taken g elx ely x y k) around)) as w. clear. intros w. induction u as [|d u IH]; intros F; [constructor|]. inversion F; subst. constructor; [intros I; apply H1, in_or_app; left; exact I|apply IH; assumption]. }
      assert (AL : forall d, In d (firstn 4 (filter (taken g elx ely x y k) around)) -> taken g elx ely x y k d = true).
      { intros d I. assert (J : In d (filter (taken g elx ely x y k) around)) by (rewrite <- (firstn_skipn 4 (filter (taken g elx ely x y k) around)); apply in_or_app; left; exact I). apply filter_In in J. apply J. }
      revert NF AL. generalize (firstn 4 (filter (taken g elx ely x y k) around)) as l. induction l as [|d l IH]; intros NF AL; [constructor|]. inversion NF; subst. cbn [map]. constructor; [|apply IH; [assumption|intros; apply AL; right; assumption]].
      intros I. apply in_map_iff in I. destruct I as (d' & E & I). pose proof (AL d (or_introl eq_refl)) as T. pose proof (AL d' (or_intror I)) as T'. apply taken_iff in T, T'. unfold cell in E. injection E as E1 E2. destruct d as [u v], d' as [u' v']. cbn [fst snd] in *. assert (u' = u) by lia. assert (v' = v) by lia. subst. contradiction.
    + rewrite map_length, firstn_length. lia.
    + intros a b I. apply in_map_iff in I. destruct I as ([u v] & E & I). assert (J : In (u, v) (filter (taken g elx ely x y k) around)) by (rewrite <- (firstn_skipn 4 (filter (taken g elx ely x y k) around)); apply in_or_app; left; exact I). apply filter_In in J. destruct J as [J T]. apply around_in in J. apply taken_iff in T. unfold cell in *. cbn [fst snd] in *. injection E as <- <-.
      destruct J as [J N], T as (T1 & T2 & T3). split; [lia|]. split; [|exact T3]. intros F. injection F as F1 F2. apply N. f_equal; lia.
  - intros (l & ND & L & H). rewrite <- L. set (back := fun ab : nat * nat => ((fst ab + 1 - x)%nat, (snd ab + 1 - y)%nat)).
    rewrite <- (map_length back l). apply NoDup_incl_length.
    + revert ND H. clear L. induction l as [|[a b] l IH]; intros ND H; [constructor|]. inversion ND; subst. cbn [map]. constructor; [|apply IH; [assumption|intros; apply H; right; assumption]].
      intros I. apply in_map_iff in I. destruct I as ([a' b'] & E & I). pose proof (H a b (or_introl eq_refl)). pose proof (H a' b' (or_intror I)). unfold back in E. cbn [fst snd] in E. injection E as E1 E2. assert (a' = a) by lia. assert (b' = b) by lia. subst. contradiction.
    + intros d I. apply in_map_iff in I. destruct I as ([a b] & <- & I). destruct (H a b I) as (B & N & G). unfold back. cbn [fst snd]. apply filter_In. split.
      * apply around_in. split; [lia|]. intros F. injection F as F1 F2. apply N. f_equal; lia.
      * apply taken_iff. unfold cell. cbn [fst snd]. split; [lia|]. split; [lia|]. replace (x + (a + 1 - x) - 1)%nat with a by lia. replace (y + (b + 1 - y) - 1)%nat with b by lia. exact G.
Qed.
Lemma correct_here elx ely x y g k : correct_voxel elx ely (x, y) g k x y k = true <-> g x y k = true \/ four_around g elx ely x y k.
Proof.
  rewrite <- filled_iff, filter_once. unfold correct_voxel. cbv zeta. rewrite !neighbour_01. unfold around. cbn [fold_right].
  match goal with |- context [Nat.leb 4 ?n] => set (c := n) end. match goal with |- context [(4 <= ?n)%nat] => replace n with c by (unfold c; lia) end.
  destruct (Nat.leb_spec 4 c) as [C|C]; [unfold set3; rewrite !Nat.eqb_refl; cbn [andb]; tauto|]. split; [tauto|]. intros [H|H]; [exact H|lia].
Qed.
Lemma correct_layer elx ely xy g k a b c : c <> k -> correct_voxel elx ely xy g k a b c = g a b c.
Proof.
  destruct xy as [x y]. intros N. unfold correct_voxel. cbv zeta. destruct (Nat.leb _ _); [|reflexivity]. unfold set3. destruct (Nat.eqb_spec c k); [contradiction|]. rewrite andb_false_r. reflexivity.
Qed.
Lemma correct_layers elx ely xy ks c : ~ In c ks -> forall g a b, fold_left (correct_voxel elx ely xy) ks g a b c = g a b c.
Proof.
  induction ks as [|k ks IH]; intros N g a b; [reflexivity|]. cbn [fold_left]. rewrite IH by (intros I; apply N; right; exact I). apply correct_layer. intros ->. apply N. left. reflexivity.
Qed.

(* A listed ray gets the voxels with at least four labelled neighbours beside them in their layer. *)
Theorem C138_filled : forall n1 n2 n3 g x y k, (k < n3)%nat ->
  (correct_ray n1 n2 n3 g (x, y) x y k = true <-> g x y k = true \/ four_around g n1 n2 x y k).
Proof.
  intros n1 n2 n3 g x y k K. unfold correct_ray. assert (E : seq 0 n3 = seq 0 k ++ k :: seq (S k) (n3 - S k)).
  { replace n3 with (k + S (n3 - S k))%nat at 1 by lia. rewrite seq_app. reflexivity. }
  rewrite E, fold_left_app. cbn [fold_left]. rewrite correct_layers by (rewrite in_seq; lia). rewrite correct_here.
  assert (S : forall a b, fold_left (correct_voxel n1 n2 (x, y)) (seq 0 k) g a b k = g a b k) by (intros a b; apply correct_layers; rewrite in_seq; lia).
  rewrite S. unfold four_around. split; (intros [H|(l & H1 & H2 & H3)]; [left; exact H|right; exists l; split; [exact H1|split; [exact H2|]]]); intros a b I; specialize (H3 a b I); rewrite S in *; exact H3.
Qed.
Print Assumptions C138_filled.

Lemma centre_co lo hi n i : grid_co lo hi n (i + 1) = centre lo hi n i.
Proof. rewrite Nat.add_1_r. cbn [grid_co]. unfold centre, spacing. generalize ((hi - lo) / INR n) as s. intros s. field. Qed.
Lemma sees_ray fs j x y z b : sees x y z fs b -> j_flag j = false -> fst (ray fs j x y) z = b /\ snd (ray fs j x y) = false.
Proof.
  intros (zs & P & EV & NI & H) FL. destruct (plain_ray_labels fs j x y zs z P EV FL NI) as [L N]. split; [|exact N]. destruct b; [apply L; left; exact H|].
  apply not_true_iff_false. rewrite L. destruct H as [E C]. intros [O|(c & I & K)]; [rewrite <- Nat.negb_even, E in O; discriminate|exact (C c I K)].
Qed.
Lemma run_sees m0 M0 js fs lx hx ly hy lz hz n1 n2 n3 (g0 : grid3) a c k b : spans px fs lx hx -> spans py fs ly hy -> spans pz fs lz hz ->
  m0 <= hx -> m0 <= hy -> m0 <= hz -> lx <= M0 -> ly <= M0 -> lz <= M0 -> (forall p q, j_flag (js p q) = false) ->
  sees (centre lx hx n1 a) (centre ly hy n2 c) (centre lz hz n3 k) fs b -> (g0 (a + 1) (c + 1) (k + 1) = false \/ g0 (a + 1) (c + 1) (k + 1) = b)%nat ->
  main_function m0 M0 js fs n1 n2 n3 g0 (a + 1)%nat (c + 1)%nat (k + 1)%nat = b.
Proof.
  intros SX SY SZ A1 A2 A3 B1 B2 B3 FL V G.
  destruct (C138_extent m0 M0 px fs lx hx SX A1 B1) as [X1 X2], (C138_extent m0 M0 py fs ly hy SY A2 B2) as [Y1 Y2], (C138_extent m0 M0 pz fs lz hz SZ A3 B3) as [Z1 Z2].
  pose proof (sees_ray fs (js (a + 1)%nat (c + 1)%nat) _ _ _ b V (FL _ _)) as [F N].
  rewrite unlisted; cbn [measure x_lo x_hi y_lo y_hi z_lo z_hi]; rewrite X1, X2, Y1, Y2, !centre_co; [rewrite Z1, Z2|exact N]. rewrite F. destruct G as [->| ->]; destruct b; reflexivity.
Qed.
Lemma spans_round co fs lo hi : spans (fun p => co (py p, pz p, px p)) fs lo hi -> spans co (round_axes fs) lo hi.
Proof.
  set (t := fun p : point => (py p, pz p, px p)).
  assert (PK : forall co fs h, peak (fun p => co (t p)) fs h -> peak co (round_axes fs) h).
  { intros co' fs' h (f & p & q & r & I & C & H). exists (Facet (t (v1 f)) (t (v2 f)) (t (v3 f)) (nz f)), (t p), (t q), (t r). split; [apply (in_map (fun f => Facet (t (v1 f)) (t (v2 f)) (t (v3 f)) (nz f))); exact I|]. split; [|exact H].
    unfold corners in *. cbn [v1 v2 v3]. destruct C as [C|[C|C]]; injection C as -> -> ->; tauto. }
  intros (B & P & Q). split; [|split; apply PK; assumption]. intros f p I J. unfold round_axes in I. apply in_map_iff in I. destruct I as (g & <- & I). cbv zeta in J. unfold corners in J. cbn [v1 v2 v3 In] in J.
  destruct J as [<-|[<-|[<-|[]]]]; refine (B g _ I _); cbn [corners In]; tauto.
Qed.

(* A voxel is what two of the three rays through its centre see. *)
Theorem C138_voxel : forall twice u fs lx hx ly hy lz hz nx ny nz_ i j k b,
  spans px fs lx hx -> spans py fs ly hy -> spans pz fs lz hz ->
  u_min u <= hx -> u_min u <= hy -> u_min u <= hz -> lx <= u_max u -> ly <= u_max u -> lz <= u_max u ->
  (forall d p q, j_flag (u_ray u d p q) = false) ->
  let x := centre lx hx nx i in let y := centre ly hy ny j in let z := centre lz hz nz_ k in
  let along_x := sees y z x (round_axes fs) b in let along_y := sees z x y (round_axes (round_axes fs)) b in let along_z := sees x y z fs b in
  (along_x /\ along_y) \/ (along_y /\ along_z) \/ (along_x /\ along_z) ->
  voxels twice u fs nx ny nz_ i j k = b.
Proof.
  intros twice u fs lx hx ly hy lz hz nx ny nz_ i j k b SX SY SZ A1 A2 A3 B1 B2 B3 FL x y z along_x along_y along_z H.
  assert (RX1 : spans px (round_axes fs) ly hy) by (apply spans_round; exact SY). assert (RY1 : spans py (round_axes fs) lz hz) by (apply spans_round; exact SZ). assert (RZ1 : spans pz (round_axes fs) lx hx) by (apply spans_round; exact SX).
  assert (RX2 : spans px (round_axes (round_axes fs)) lz hz) by (apply spans_round; exact RY1). assert (RY2 : spans py (round_axes (round_axes fs)) lx hx) by (apply spans_round; exact RZ1). assert (RZ2 : spans pz (round_axes (round_axes fs)) ly hy) by (apply spans_round; exact RX1).
  unfold voxels. cbv zeta. change (map turn_facet fs) with (round_axes fs). change (map turn_facet (round_axes fs)) with (round_axes (round_axes fs)).
  assert (GX : along_x -> (if twice then main_function (u_min u) (u_max u) (u_ray u 1%nat) (round_axes fs) ny nz_ nx (main_function (u_min u) (u_max u) (u_ray u 0%nat) (round_axes fs) ny nz_ nx (fun _ _ _ => false)) else main_function (u_min u) (u_max u) (u_ray u 0%nat) (round_axes fs) ny nz_ nx (fun _ _ _ => false)) (j + 1)%nat (k + 1)%nat (i + 1)%nat = b).
  { intros V. assert (G1 : main_function (u_min u) (u_max u) (u_ray u 0%nat) (round_axes fs) ny nz_ nx (fun _ _ _ => false) (j + 1)%nat (k + 1)%nat (i + 1)%nat = b) by (apply (run_sees _ _ _ _ ly hy lz hz lx hx); try assumption; [intros; apply FL|left; reflexivity]).
    destruct twice; [|exact G1]. apply (run_sees _ _ _ _ ly hy lz hz lx hx); try assumption; [intros; apply FL|right; exact G1]. }
  assert (GY : along_y -> main_function (u_min u) (u_max u) (u_ray u 2%nat) (round_axes (round_axes fs)) nz_ nx ny (fun _ _ _ => false) (k + 1)%nat (i + 1)%nat (j + 1)%nat = b) by (intros V; apply (run_sees _ _ _ _ lz hz lx hx ly hy); try assumption; [intros; apply FL|left; reflexivity]).
  assert (GZ : along_z -> main_function (u_min u) (u_max u) (u_ray u 3%nat) fs nx ny nz_ (fun _ _ _ => false) (i + 1)%nat (j + 1)%nat (k + 1)%nat = b) by (intros V; apply (run_sees _ _ _ _ lx hx ly hy lz hz); try assumption; [intros; apply FL|left; reflexivity]).
  clearbody along_x along_y along_z.
  destruct H as [[V W]|[[V W]|[V W]]];
    [rewrite (GX V), (GY W); generalize (main_function (u_min u) (u_max u) (u_ray u 3%nat) fs nx ny nz_ (fun _ _ _ => false) (i + 1)%nat (j + 1)%nat (k + 1)%nat) as o
    |rewrite (GY V), (GZ W); match goal with |- context [(if twice then ?p else ?q) ?a ?c ?d] => generalize ((if twice then p else q) a c d) as o end
    |rewrite (GX V), (GZ W); generalize (main_function (u_min u) (u_max u) (u_ray u 2%nat) (round_axes (round_axes fs)) nz_ nx ny (fun _ _ _ => false) (k + 1)%nat (i + 1)%nat (j + 1)%nat) as o];
    intros o; destruct b, o; reflexivity.
Qed.
Print Assumptions C138_voxel.

(* ---------- the cube ---------- *)

Ltac facets := cbn [v1 v2 v3 px py pz fst snd].
Ltac vertices I J := unfold cube, face_x, face_y, face_z in I; cbn [app In] in I; repeat (destruct I as [<-|I]; [cbn [v1 v2 v3 In corners] in J; repeat (destruct J as [<-|J]; [facets; try (split; lra); try tauto|]); contradiction J|]); contradiction I.

Lemma cube_round : round_axes cube = face_y 0 ++ face_y 1 ++ face_z 0 ++ face_z 1 ++ face_x 0 ++ face_x 1.
Proof. reflexivity. Qed.
Lemma cube_round2 : round_axes (round_axes cube) = face_x 0 ++ face_x 1 ++ face_y 0 ++ face_y 1 ++ face_z 0 ++ face_z 1.
Proof. reflexivity. Qed.
Lemma heights_app x y fs zs gs ws : heights x y fs zs -> heights x y gs ws -> heights x y (fs ++ gs) (zs ++ ws).
Proof. intros H G. induction H; [exact G| |]; cbn [app]; constructor; auto. Qed.
Lemma along_x x y l : heights x y (face_x l) [].
Proof. unfold face_x. repeat (constructor 3; [intros z [N _]; apply N; unfold double_area; facets; ring|]). constructor. Qed.
Lemma along_y x y l : heights x y (face_y l) [].
Proof. unfold face_y. repeat (constructor 3; [intros z [N _]; apply N; unfold double_area; facets; ring|]). constructor. Qed.
Lemma along_z_diagonal x l : heights x x (face_z l) [].
Proof. unfold face_z. repeat (constructor 3; [intros z (_ & a & b & c & A & B & C & E & X & Y & _); revert X Y; facets; intros; lra|]). constructor. Qed.
Lemma along_z x y l : 0 < x < 1 -> 0 < y < 1 -> x <> y -> heights x y (face_z l) [l].
Proof.
  intros X Y N. unfold face_z. destruct (Rlt_dec y x) as [L|L].
  - constructor 2; [|constructor 3; [intros z (_ & a & b & c & A & B & C & E & P & Q & _); revert P Q; facets; intros; lra|constructor]].
    split; [unfold double_area; facets; lra|]. exists (1 - x), (x - y), y. facets. repeat split; lra.
  - constructor 3; [intros z (_ & a & b & c & A & B & C & E & P & Q & _); revert P Q; facets; intros; lra|]. constructor 2; [|constructor].
    split; [unfold double_area; facets; lra|]. exists (1 - y), x, (y - x). facets. repeat split; lra.
Qed.
Lemma faces_area f : In f (face_x 0 ++ face_x 1 ++ face_y 0 ++ face_y 1 ++ face_z 0 ++ face_z 1) -> double_area f = 0 \/ double_area f = 1.
Proof. unfold face_x, face_y, face_z. cbn [app In]. intros I. repeat (destruct I as [<-|I]; [unfold double_area; facets; lra|]). contradiction. Qed.
Lemma faces_vertices x y f p : 0 < x < 1 -> In f (face_x 0 ++ face_x 1 ++ face_y 0 ++ face_y 1 ++ face_z 0 ++ face_z 1) -> In p [v1 f; v2 f; v3 f] -> ~ (px p = x /\ py p = y).
Proof.
  intros X I J [E _]. revert E. unfold face_x, face_y, face_z in I. cbn [app In] in I.
  repeat (destruct I as [<-|I]; [cbn [v1 v2 v3 In] in J; repeat (destruct J as [<-|J]; [facets; lra|]); contradiction J|]). contradiction I.
Qed.
Lemma small : / 10 ^ 14 <= 1.
Proof. rewrite <- Rinv_1. apply Rinv_le_contravar; [lra|]. apply pow_R1_Rle. lra. Qed.
Lemma cube_plain fs x y zs : (forall f, In f fs -> In f (face_x 0 ++ face_x 1 ++ face_y 0 ++ face_y 1 ++ face_z 0 ++ face_z 1)) -> 0 < x < 1 -> heights x y fs zs -> NoDup zs -> plain_ray x y fs zs.
Proof.
  intros IN X H N. split; [exact H|]. split; [exact N|]. split; [intros f p I; apply faces_vertices; [exact X|apply IN, I]|].
  intros f z I [D _]. destruct (faces_area f (IN f I)) as [E|E]; [contradiction|]. rewrite E, Rabs_R1. apply small.
Qed.
Lemma cube_sees fs x y z : (forall f, In f fs -> In f (face_x 0 ++ face_x 1 ++ face_y 0 ++ face_y 1 ++ face_z 0 ++ face_z 1)) -> 0 < x < 1 -> 0 < z < 1 -> heights x y fs [0; 1] -> sees x y z fs true.
Proof.
  intros IN X Z H. exists [0; 1]. split; [apply cube_plain; try assumption; repeat constructor; cbn [In]; lra|]. split; [reflexivity|]. split; [cbn [In]; lra|].
  unfold below. cbn [filter]. destruct (Rlt_dec 0 z); [|lra]. destruct (Rlt_dec 1 z); [lra|]. reflexivity.
Qed.
Lemma cube_blind fs x y z : (forall f, In f fs -> In f (face_x 0 ++ face_x 1 ++ face_y 0 ++ face_y 1 ++ face_z 0 ++ face_z 1)) -> 0 < x < 1 -> heights x y fs [] -> sees x y z fs false.
Proof.
  intros IN X H. exists []. split; [apply cube_plain; try assumption; constructor|]. split; [reflexivity|]. split; [cbn [In]; tauto|]. split; [reflexivity|]. intros c [].
Qed.
Lemma cube_spans : spans px cube 0 1 /\ spans py cube 0 1 /\ spans pz cube 0 1.
Proof.
  assert (IN : forall f, In f (face_z 0) -> In f cube) by (intros f I; unfold cube; apply in_or_app; left; exact I).
  assert (INX : forall f, In f (face_x 0) -> In f cube) by (intros f I; unfold cube; apply in_or_app; right; apply in_or_app; right; apply in_or_app; left; exact I).
  split; [|split]; (split; [intros f p I J; vertices I J|split]).
  - exists (Facet (0, 0, 0) (1, 1, 0) (0, 1, 0) 0), (1, 1, 0), (0, 0, 0), (0, 1, 0). split; [apply IN; right; left; reflexivity|]. split; [right; left; reflexivity|]. facets. lra.
  - exists (Facet (0, 0, 0) (1, 0, 0) (1, 1, 0) 0), (0, 0, 0), (1, 0, 0), (1, 1, 0). split; [apply IN; left; reflexivity|]. split; [left; reflexivity|]. facets. lra.
  - exists (Facet (0, 0, 0) (1, 0, 0) (1, 1, 0) 0), (1, 1, 0), (0, 0, 0), (1, 0, 0). split; [apply IN; left; reflexivity|]. split; [right; right; reflexivity|]. facets. lra.
  - exists (Facet (0, 0, 0) (1, 1, 0) (0, 1, 0) 0), (0, 0, 0), (1, 1, 0), (0, 1, 0). split; [apply IN; right; left; reflexivity|]. split; [left; reflexivity|]. facets. lra.
  - exists (Facet (0, 0, 0) (0, 1, 0) (0, 1, 1) 0), (0, 1, 1), (0, 0, 0), (0, 1, 0). split; [apply INX; left; reflexivity|]. split; [right; right; reflexivity|]. facets. lra.
  - exists (Facet (0, 0, 0) (0, 1, 1) (0, 0, 1) 0), (0, 0, 0), (0, 1, 1), (0, 0, 1). split; [apply INX; right; left; reflexivity|]. split; [left; reflexivity|]. facets. lra.
Qed.
Lemma centre_in n i : (i < n)%nat -> 0 < centre 0 1 n i < 1.
Proof.
  intros L. assert (N : 0 < INR n) by (apply lt_0_INR; lia). assert (I : 0 <= INR i) by apply pos_INR. assert (J : INR i + 1 <= INR n) by (rewrite <- S_INR; apply le_INR; lia).
  unfold centre. replace (0 + (INR i + / 2) * ((1 - 0) / INR n)) with ((INR i + / 2) / INR n) by (field; lra). split; [apply Rdiv_lt_0_compat; lra|].
  apply Rmult_lt_reg_r with (INR n); [exact N|]. unfold Rdiv. rewrite Rmult_assoc, Rinv_l by lra. lra.
Qed.
Lemma centre_inj n i j : (i < n)%nat -> centre 0 1 n i = centre 0 1 n j -> i = j.
Proof.
  intros L E. assert (N : 0 < INR n) by (apply lt_0_INR; lia). unfold centre in E. apply INR_eq. assert (K : (INR i - INR j) * / INR n = 0) by (unfold Rdiv in E; lra).
  apply Rmult_integral in K. destruct K as [K|K]; [lra|]. exfalso. pose proof (Rinv_0_lt_compat _ N). lra.
Qed.

(* A cube does not come out full: on any grid, with every face cut along the diagonal from the
   corner nearest the origin, the voxels (i, i, i) stay empty and all the others are filled. *)
Theorem C138_cube_refuted : forall twice u n i j k, (i < n)%nat -> (j < n)%nat -> (k < n)%nat ->
  u_min u <= 1 -> 0 <= u_max u -> (forall d p q, j_flag (u_ray u d p q) = false) ->
  (voxels twice u cube n n n i j k = false <-> i = j /\ j = k).
Proof.
  intros twice u n i j k I J K U1 U2 FL. destruct cube_spans as (SX & SY & SZ).
  pose proof (centre_in n i I) as X. pose proof (centre_in n j J) as Y. pose proof (centre_in n k K) as Z.
  set (x := centre 0 1 n i) in *. set (y := centre 0 1 n j) in *. set (z := centre 0 1 n k) in *.
  assert (V : forall b, let ax := sees y z x (round_axes cube) b in let ay := sees z x y (round_axes (round_axes cube)) b in let az := sees x y z cube b in (ax /\ ay) \/ (ay /\ az) \/ (ax /\ az) -> voxels twice u cube n n n i j k = b)
    by (intros b; apply (C138_voxel twice u cube 0 1 0 1 0 1); assumption).
  assert (I0 : forall f, In f cube -> In f (face_x 0 ++ face_x 1 ++ face_y 0 ++ face_y 1 ++ face_z 0 ++ face_z 1)) by (intros f; unfold cube; rewrite !in_app_iff; tauto).
  assert (I1 : forall f, In f (round_axes cube) -> In f (face_x 0 ++ face_x 1 ++ face_y 0 ++ face_y 1 ++ face_z 0 ++ face_z 1)) by (intros f; rewrite cube_round, !in_app_iff; tauto).
  assert (I2 : forall f, In f (round_axes (round_axes cube)) -> In f (face_x 0 ++ face_x 1 ++ face_y 0 ++ face_y 1 ++ face_z 0 ++ face_z 1)) by (intros f; rewrite cube_round2; tauto).
  assert (E0 : forall p q a b, heights p q (face_z 0) a -> heights p q (face_z 1) b -> heights p q cube (a ++ b)).
  { intros p q a b A B. unfold cube. apply heights_app; [exact A|]. rewrite <- (app_nil_r b). apply heights_app; [exact B|]. change (@nil R) with ([] ++ [] ++ [] ++ [] : list R). apply heights_app; [apply along_x|]. apply heights_app; [apply along_x|]. apply heights_app; [apply along_y|]. apply along_y. }
  assert (E1 : forall p q a b, heights p q (face_z 0) a -> heights p q (face_z 1) b -> heights p q (round_axes cube) (a ++ b)).
  { intros p q a b A B. rewrite cube_round. change (a ++ b) with ([] ++ [] ++ a ++ b). apply heights_app; [apply along_y|]. apply heights_app; [apply along_y|]. apply heights_app; [exact A|]. rewrite <- (app_nil_r b). apply heights_app; [exact B|]. change (@nil R) with ([] ++ [] : list R). apply heights_app; apply along_x. }
  assert (E2 : forall p q a b, heights p q (face_z 0) a -> heights p q (face_z 1) b -> heights p q (round_axes (round_axes cube)) (a ++ b)).
  { intros p q a b A B. rewrite cube_round2. change (a ++ b) with ([] ++ [] ++ [] ++ [] ++ a ++ b). apply heights_app; [apply along_x|]. apply heights_app; [apply along_x|]. apply heights_app; [apply along_y|]. apply heights_app; [apply along_y|]. apply heights_app; assumption. }
  assert (SZt : i <> j -> sees x y z cube true). { intros N. apply cube_sees; try assumption. assert (x <> y) by (intros E; apply N; exact (centre_inj n i j I E)). apply (E0 x y [0] [1]); apply along_z; assumption. }
  assert (SXt : j <> k -> sees y z x (round_axes cube) true). { intros N. apply cube_sees; try assumption. assert (y <> z) by (intros E; apply N; exact (centre_inj n j k J E)). apply (E1 y z [0] [1]); apply along_z; assumption. }
  assert (SYt : k <> i -> sees z x y (round_axes (round_axes cube)) true). { intros N. apply cube_sees; try assumption. assert (z <> x) by (intros E; apply N; exact (centre_inj n k i K E)). apply (E2 z x [0] [1]); apply along_z; assumption. }
  split.
  - intros F. destruct (Nat.eq_dec i j) as [<-|N1]; [destruct (Nat.eq_dec i k) as [E|N2]; [tauto|]|].
    + exfalso. rewrite (V true) in F; [discriminate|]. left. split; [apply SXt; exact N2|apply SYt; congruence].
    + exfalso. rewrite (V true) in F; [discriminate|]. destruct (Nat.eq_dec j k) as [<-|N2]; [right; left; split; [apply SYt; congruence|apply SZt; exact N1]|right; right; split; [apply SXt; exact N2|apply SZt; exact N1]].
  - intros [<- <-]. apply V. left. change y with x. change z with x. split; apply cube_blind; try assumption; [apply (E1 x x [] [])|apply (E2 x x [] [])]; apply along_z_diagonal.
Qed.
Print Assumptions C138_cube_refuted.

(* ---------- the file ---------- *)

Lemma nth_flat {A} (f : nat -> list A) m d : (forall i, length (f i) = m) -> forall n s q r, (q < n)%nat -> (r < m)%nat -> nth (r + m * q) (flat_map f (seq s n)) d = nth r (f (s + q)%nat) d.
Proof.
  intros L. induction n as [|n IH]; intros s q r Q R; [lia|]. cbn [seq flat_map]. destruct q as [|q].
  - rewrite app_nth1 by (rewrite L; lia). rewrite Nat.mul_0_r, !Nat.add_0_r. reflexivity.
  - rewrite app_nth2 by (rewrite L; nia). rewrite L. replace (r + m * S q - m)%nat with (r + m * q)%nat by lia. rewrite IH by lia. replace (S s + q)%nat with (s + S q)%nat by lia. reflexivity.
Qed.
Lemma length_flat {A} (f : nat -> list A) m : (forall i, length (f i) = m) -> forall n s, length (flat_map f (seq s n)) = (m * n)%nat.
Proof. intros L. induction n as [|n IH]; intros s; [cbn; lia|]. cbn [seq flat_map]. rewrite app_length, L, IH. lia. Qed.

(* The cells stand in the file with the first direction fastest; but the coordinates written
   without given lengths begin at zero and not where the surface does. *)
Theorem C138_file : forall g nx ny nz_ i j k d, (i < nx)%nat -> (j < ny)%nat -> (k < nz_)%nat ->
  length (cell_data g nx ny nz_) = (nx * ny * nz_)%nat /\ nth (i + nx * (j + ny * k)) (cell_data g nx ny nz_) d = g i j k.
Proof.
  intros g nx ny nz_ i j k d I J K. unfold cell_data.
  assert (L1 : forall b c, length (map (fun a => g a b c) (seq 0 nx)) = nx) by (intros; rewrite map_length, seq_length; reflexivity).
  assert (L2 : forall c, length (flat_map (fun b => map (fun a => g a b c) (seq 0 nx)) (seq 0 ny)) = (nx * ny)%nat) by (intros c; apply length_flat; intros; apply L1).
  split; [apply length_flat; exact L2|]. replace (i + nx * (j + ny * k))%nat with (i + nx * j + nx * ny * k)%nat by lia.
  rewrite (nth_flat _ (nx * ny)%nat) by (try assumption; nia). rewrite (nth_flat _ nx) by (intros; try apply L1; assumption). cbn [Nat.add].
  rewrite (nth_indep _ d (g 0%nat j k)) by (rewrite L1; exact I). rewrite (map_nth (fun a => g a j k)), seq_nth by exact I. reflexivity.
Qed.
Print Assumptions C138_file.
Theorem C138_place_refuted : forall lo hi len n i, (0 < n)%nat ->
  file_coordinate lo hi len false 0 n i = (lo + INR i * ((hi - lo) / INR n)) - lo
  /\ (file_coordinate lo hi len false 0 n i + file_coordinate lo hi len false 0 n (S i)) / 2 = centre lo hi n i - lo.
Proof.
  intros lo hi len n i N. assert (INR n <> 0) by (apply not_0_INR; lia). unfold file_coordinate, spacing, centre. rewrite S_INR. split; field; assumption.
Qed.
Print Assumptions C138_place_refuted.

(* A cube of three voxels a side: the middle one is empty, its neighbour is not. *)
Example C138_met : let u := Unset (-10) 10 (fun _ _ _ => Junk 0 0 false) in
  (voxels true u cube 3 3 3 1 1 1)%nat = false /\ (voxels true u cube 3 3 3 1 2 1)%nat = true /\ crossed (1 / 2) (1 / 3) (Facet (0, 0, 0) (1, 0, 0) (1, 1, 0) 0) = true.
Proof.
  intros u. assert (C : forall i j k, (i < 3)%nat -> (j < 3)%nat -> (k < 3)%nat -> ((voxels true u cube 3 3 3 i j k)%nat = false <-> i = j /\ j = k)) by (intros; apply C138_cube_refuted; try assumption; try (cbn [u u_min u_max]; lra); reflexivity).
  split; [apply C; repeat constructor|]. split; [apply not_false_iff_true; rewrite C by (repeat constructor); lia|].
  apply crossed_iff. exists 0. split; [unfold double_area; facets; lra|]. exists (1 / 2), (1 / 6), (1 / 3). facets. repeat split; lra.
Qed.
