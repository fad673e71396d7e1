(** Areas, stages, steps and runs of the thermal solver. *)
From Verif Require Import BaseReal BaseArr GeomModel GeomSpec GeomProofs SghModel SghSpec SghProofs BdyProofs SetupProofs TiptonProofs TableModel TableSpec TableProofs ThermModel ThermSpec ThermProofs.
Local Open Scope R_scope.

(** ** Areas *)

Lemma tri_area3_eq a b c : tri_area3 a b c = triangle_area a b c.
Proof.
  unfold tri_area3, triangle_area, norm. cbn [sumn]. unfold cross, vsub.
  set (X := _ + _ + _ : R) at 1.
  match goal with |- sqrt ?u = / 2 * sqrt ?v => replace u with ((/ 2) ^ 2 * v) by (unfold X; field) end.
  rewrite sqrt_mult_alt by lra. rewrite sqrt_pow2 by lra. reflexivity.
Qed.

Lemma quarter_area_eq P B p : quarter_area (h_x P) (tb_nip B p) = patch_area P B p / 4.
Proof. unfold quarter_area, patch_area. rewrite !tri_area3_eq. reflexivity. Qed.

Lemma norm_ext u v : (forall d, (d < 3)%nat -> u d = v d) -> norm u = norm v.
Proof. intros H. unfold norm. f_equal. apply sumn_ext. intros d Hd. now rewrite H. Qed.
Lemma norm_scal t u : 0 <= t -> norm (fun d => t * u d) = t * norm u.
Proof.
  intros Ht. unfold norm. rewrite (sumn_ext 3 _ (fun d => t ^ 2 * u d ^ 2)) by (intros; ring). rewrite sumn_scal, sqrt_mult_alt by nra.
  now rewrite sqrt_pow2.
Qed.
Lemma norm_opp u v : (forall d, (d < 3)%nat -> u d = - v d) -> norm u = norm v.
Proof. intros H. unfold norm. f_equal. apply sumn_ext. intros d Hd. rewrite H by exact Hd. ring. Qed.

Lemma tri_rotate a b c : triangle_area a b c = triangle_area b c a.
Proof. unfold triangle_area. f_equal. apply norm_ext. intros [|[|[|]]] Hd; unfold cross, vsub; try ring; lia. Qed.

Lemma quad_split a b c e : diagonal_splits a b c e -> triangle_area a b c + triangle_area c e a = quad_area a b c e.
Proof.
  intros (t & Ht & H). rewrite <- (tri_rotate a c e). unfold triangle_area, quad_area.
  set (u := cross (vsub b a) (vsub c a)) in *. set (v := cross (vsub c a) (vsub e a)) in *.
  assert (E : norm (cross (vsub c a) (vsub e b)) = norm (fun d => u d + v d)).
  { apply norm_ext. intros [|[|[|]]] Hd; unfold u, v, cross, vsub; try ring; lia. }
  rewrite E. destruct H as [H|H].
  - rewrite (norm_ext v (fun d => t * u d)) by exact H. rewrite norm_scal by exact Ht.
    rewrite (norm_ext (fun d => u d + v d) (fun d => (1 + t) * u d)) by (intros d Hd; rewrite H by exact Hd; ring). rewrite norm_scal by lra. ring.
  - rewrite (norm_ext u (fun d => t * v d)) by exact H. rewrite norm_scal by exact Ht.
    rewrite (norm_ext (fun d => u d + v d) (fun d => (1 + t) * v d)) by (intros d Hd; rewrite H by exact Hd; ring). rewrite norm_scal by lra. ring.
Qed.

Lemma triangle_nonneg a b c : 0 <= triangle_area a b c.
Proof. unfold triangle_area, norm. pose proof (sqrt_pos (sumn 3 (fun d => cross (vsub b a) (vsub c a) d ^ 2))). lra. Qed.
Lemma patch_area_nonneg P B p : 0 <= patch_area P B p.
Proof. unfold patch_area. pose proof (triangle_nonneg (h_x P (tb_nip B p 0)) (h_x P (tb_nip B p 1)) (h_x P (tb_nip B p 2))).
  pose proof (triangle_nonneg (h_x P (tb_nip B p 2)) (h_x P (tb_nip B p 3)) (h_x P (tb_nip B p 0))). lra. Qed.

Lemma node_gain_ext B f g ps n : (forall p, f p n = g p n) -> node_gain B f ps n = node_gain B g ps n.
Proof. intros H. unfold node_gain. apply suml_ext. intros p _. apply sumn_ext. intros l _. now rewrite H. Qed.
Lemma node_gain_nil B f n : node_gain B f [] n = 0.
Proof. reflexivity. Qed.

Lemma suml_sumn_exchange {A} N (f : nat -> A -> R) l : sumn N (fun n => suml (f n) l) = suml (fun p => sumn N (fun n => f n p)) l.
Proof.
  induction l as [|p l IH]; [unfold suml; cbn; apply sumn_0|]. rewrite suml_cons, <- IH, <- sumn_plus. apply sumn_ext. intros. apply suml_cons.
Qed.

(** ** Materials of an element *)

Lemma holds_dec L e mat : {exists sid, (sid < num_mat_elems L mat)%nat /\ elem_in_mat L mat sid = e} + {forall sid, (sid < num_mat_elems L mat)%nat -> elem_in_mat L mat sid <> e}.
Proof.
  destruct (in_dec Nat.eq_dec e (map (elem_in_mat L mat) (seq 0 (num_mat_elems L mat)))) as [H|H].
  - left. apply in_map_iff in H. destruct H as (sid & E & Hs). apply in_seq in Hs. exists sid. split; [lia|exact E].
  - right. intros sid Hs E. apply H. apply in_map_iff. exists sid. split; [exact E|]. apply in_seq. lia.
Qed.

Lemma last_exists L e mat sid : holds L e mat sid -> exists mat' sid', last_material L e mat' sid'.
Proof.
  intros H0.
  assert (G : forall k, (k <= num_mats L)%nat -> (exists mat' sid', holds L e mat' sid' /\ (mat' < k)%nat /\ forall m2 s2, holds L e m2 s2 -> (m2 < k)%nat -> (m2 <= mat')%nat)
     \/ (forall m2 s2, holds L e m2 s2 -> ~ (m2 < k)%nat)).
  { induction k as [|k IH]; intros Hk; [right; intros; lia|].
    destruct (holds_dec L e k) as [(sid' & A & Bq)|Hn].
    - left. exists k, sid'. split; [repeat split; auto|]. split; [lia|]. intros; lia.
    - destruct IH as [(m' & s' & A & Bq & C)|IH]; [lia| |].
      + left. exists m', s'. split; [exact A|]. split; [lia|]. intros m2 s2 H2 H3. apply (C m2 s2 H2).
        assert (m2 <> k); [|lia]. intros ->. destruct H2 as (_ & X & Y). exact (Hn _ X Y).
      + right. intros m2 s2 H2 H3. apply (IH m2 s2 H2). assert (m2 <> k); [|lia]. intros ->. destruct H2 as (_ & X & Y). exact (Hn _ X Y). }
  destruct (G (num_mats L) (le_n _)) as [(m' & s' & A & Bq & C)|Hn].
  - exists m', s'. split; [exact A|]. intros m2 s2 H2. apply (C m2 s2 H2). apply H2.
  - exfalso. apply (Hn mat sid H0). apply H0.
Qed.

Section Flow.
Variable P : thermal.
Hypothesis HP : thermal_ok P.
Let m := h_mesh P.
Let L := h_L P.
Let Hm : corners_ok 8 m := proj1 HP.
Let HE : elems_ok P := proj1 (proj2 HP).
Let HL : layout_ok (num_elems m) L := proj1 (proj2 (proj2 HP)).
Let HD : distinct_elems L := proj2 (proj2 (proj2 HP)).

(** ** When the stage is defined *)

Lemma rows_cover : (0 < num_mats L)%nat -> mat_in_row P 0 = true -> (forall e, (e < num_elems m)%nat -> (e < num_mat_elems L 0)%nat) -> first_covers P.
Proof.
  intros H0 Hrow Hall e He. fold m in He.
  set (l := map (elem_in_mat L 0) (seq 0 (num_mat_elems L 0))).
  assert (Hincl : incl l (seq 0 (num_mat_elems L 0))).
  { intros x Hx. apply in_map_iff in Hx. destruct Hx as (sid & <- & Hs). unfold mat_in_row in Hrow. rewrite forallb_forall in Hrow.
    specialize (Hrow sid Hs). unfold elem_in_row in Hrow. apply Nat.ltb_lt in Hrow. apply in_seq. fold L in Hrow. lia. }
  assert (Hrev : incl (seq 0 (num_mat_elems L 0)) l).
  { apply NoDup_length_incl; [apply HD; exact H0| |exact Hincl]. unfold l. rewrite map_length. lia. }
  assert (In e l) by (apply Hrev, in_seq; specialize (Hall e He); lia).
  apply in_map_iff in H. destruct H as (sid & E & Hs). apply in_seq in Hs. exists sid. repeat split; auto; fold L; lia.
Qed.

Lemma update_covers alpha dt s s' : (0 < num_elems m)%nat -> update_temperature P alpha dt s = Some s' ->
  (0 < num_mats L)%nat /\ (forall e, (e < num_elems m)%nat -> (e < num_mat_elems L 0)%nat) /\ forall n, (n < num_nodes m)%nat -> capacity P n <> 0.
Proof.
  intros Hne H. rewrite update_temperature_eq in H. destruct (forallb _ _) eqn:G; [|easy].
  rewrite forallb_forall in G. fold m in G.
  assert (K : forall e, (e < num_elems m)%nat -> (0 < num_mats L /\ e < num_mat_elems L 0)%nat).
  { intros e He. pose proof (ok_range _ _ Hm) as Hin. assert (Hn : (nodes_in m e 0 < num_nodes m)%nat) by (apply Hin; [exact He|lia]).
    pose proof (G (nodes_in m e 0) ltac:(apply in_seq; lia)) as K. apply node_ok_true in K. destruct K as [K _]. apply (K e).
    apply HE; [exact Hn|]. split; [exact He|]. exists 0%nat. split; [lia|reflexivity]. }
  split; [apply (K 0%nat Hne)|]. split; [intros e He; apply (K e He)|].
  intros n Hn. specialize (G n ltac:(apply in_seq; lia)). apply node_ok_true in G. apply G.
Qed.

(** ** One stage *)

Lemma stage_inv B src alpha dt s s' : therm_stage P B src alpha dt s = Some s' ->
  exists s1 s2, corner_heat P src (set_nq (fun _ => 0) s) = Some s1 /\
    update_temperature P alpha dt (boundary_radiation P B (boundary_convection P B s1)) = Some s2 /\
    s' = set_tvol (elem_vol m (h_x P)) (boundary_temperature B s2).
Proof.
  unfold therm_stage. cbv zeta. destruct (corner_heat P src _) as [s1|] eqn:E1; [|easy]. cbn [obind].
  destruct (update_temperature P alpha dt _) as [s2|] eqn:E2; [|easy]. cbn [obind]. intros E. injection E as <-.
  exists s1, s2. auto.
Qed.

Lemma stage_covers B src alpha dt s s' : (0 < num_elems m)%nat -> therm_stage P B src alpha dt s = Some s' ->
  first_covers P /\ forall n, (n < num_nodes m)%nat -> capacity P n <> 0.
Proof.
  intros Hne H. destruct (stage_inv _ _ _ _ _ _ H) as (s1 & s2 & E1 & E2 & _).
  destruct (update_covers _ _ _ _ Hne E2) as (K1 & K2 & K3). split; [|exact K3].
  rewrite corner_heat_eq in E1 by assumption. destruct (forallb (mat_in_row P) _) eqn:G; [|easy].
  rewrite forallb_forall in G. apply rows_cover; auto. apply G, in_seq. fold L; lia.
Qed.

(** heat that arrives at a node per unit time *)
Definition arrives (B : tbc) (T : nat -> R) (cq : nat -> R) (n : nat) : R :=
  node_gain B (fun p n => - 100 * (T n - 293.15) * (patch_area P B p / 4)) (patches_of B ConvTemp) n +
  node_gain B (fun p n => - (0.2 * 5.67037442e-8) * T n ^ 4 * (patch_area P B p / 4)) (patches_of B RadTemp) n +
  suml cq (corners_in_node m n).

Lemma stage_spec B src alpha dt s s' : (0 < num_elems m)%nat -> therm_stage P B src alpha dt s = Some s' ->
  exists cq T1,
    (forall e c mat sid, (e < num_elems m)%nat -> (c < 8)%nat -> last_material L e mat sid ->
       cq (corners_in_elem m e c) = conducted P (h_cond P mat sid) (t_temp s) (t_vol s e) e c + deposit P src (t_vol s e) e) /\
    (forall n, (n < num_nodes m)%nat -> T1 n = t_temp0 s n + alpha * dt * arrives B (t_temp s) cq n / capacity P n) /\
    t_temp s' = t_temp (boundary_temperature B (set_temp T1 s)) /\ t_temp0 s' = t_temp0 s /\ t_vol s' = elem_vol m (h_x P) /\ t_cq s' = cq.
Proof.
  intros Hne H. destruct (stage_inv _ _ _ _ _ _ H) as (s1 & s2 & E1 & E2 & ->).
  destruct (corner_heat_spec P Hm HL HD _ _ _ E1) as (Sn & Hc & _).
  destruct Sn as (S1 & S2 & S3 & S4). cbn [set_nq t_temp t_temp0 t_nq t_vol] in S1, S2, S3, S4.
  rewrite update_temperature_eq in E2. destruct (forallb _ _); [|easy]. injection E2 as <-.
  set (sb := boundary_radiation P B (boundary_convection P B s1)) in *. fold m.
  destruct (nodes_fold P alpha dt sb (num_nodes m)) as (A & B1 & C & D & F & G & H1 & H2). fold m in A, B1, C, D, F, G, H1, H2.
  set (s2 := fold_left _ _ sb) in *.
  assert (Ecq : t_cq sb = t_cq s1) by reflexivity. assert (Et0 : t_temp0 sb = t_temp0 s) by (change (t_temp0 s1 = t_temp0 s); congruence).
  exists (t_cq s1), (t_temp s2). split; [|split; [|split; [|split; [|split]]]].
  - intros e c mat sid He Hc8 Hlast. exact (Hc e c mat sid He Hc8 Hlast).
  - intros n Hn. rewrite H2. apply Nat.ltb_lt in Hn. rewrite Hn, Et0. do 3 f_equal. unfold node_heat. fold m. rewrite Ecq. unfold arrives. f_equal.
    unfold sb, boundary_radiation, boundary_convection. rewrite boundary_flux_eq.
    rewrite boundary_flux_eq. rewrite S3. destruct (boundary_flux_same P B ConvTemp convection_flux s1) as (-> & _). rewrite S1.
    rewrite Rplus_0_l. f_equal; apply node_gain_ext; intros p; rewrite quarter_area_eq; unfold convection_flux, radiation_flux; generalize 293.15 0.2 5.67037442e-8; intros; ring.
  - unfold boundary_temperature. cbn [t_temp set_temp set_tvol]. reflexivity.
  - cbn [t_temp0 set_tvol set_temp boundary_temperature]. now rewrite A.
  - reflexivity.
  - cbn [t_cq set_tvol set_temp boundary_temperature]. now rewrite B1.
Qed.

Lemma deposit_total src V : sumn (num_elems m) (fun e => sumn 8 (fun _ => deposit P src (V e) e)) = source_rate P src V.
Proof.
  unfold source_rate. destruct src as [[pos power]|]; cbn [deposit].
  - unfold covered_volume. fold m. rewrite <- sumn_scal. apply sumn_ext. intros e _. rewrite sumn_const.
    pose proof (in_source_spec P pos e) as K. unfold covered in K.
    destruct (Rle_dec _ _) as [Hle|Hle]; destruct (in_source P pos e) eqn:Ei; replace (INR 8) with 8 by (cbn; ring); try field.
    + exfalso. rewrite <- K in Hle. easy.
    + exfalso. apply Hle, K. reflexivity.
  - rewrite (sumn_ext _ _ (fun _ => 0)); [apply sumn_0|]. intros; apply sumn_0.
Qed.

Lemma corner_total cq : sumn (num_nodes m) (fun n => suml cq (corners_in_node m n)) = sumn (num_elems m) (fun e => sumn 8 (fun l => cq (corners_in_elem m e l))).
Proof. apply (node_corner_sum 8 m (fun _ c => cq c) Hm). Qed.

Lemma stage_balance B src alpha dt s s' : (0 < num_elems m)%nat -> no_const B -> therm_stage P B src alpha dt s = Some s' ->
  heat_content P (t_temp s') = heat_content P (t_temp0 s) + alpha * dt * (boundary_rate P B (t_temp s) + source_rate P src (t_vol s)).
Proof.
  intros Hne Hnc H. destruct (stage_covers _ _ _ _ _ _ Hne H) as [Hcov Hcap].
  destruct (stage_spec _ _ _ _ _ _ Hne H) as (cq & T1 & Hcq & HT & E1 & _).
  rewrite boundary_temperature_none in E1 by exact Hnc. cbn [t_temp set_temp] in E1. rewrite E1.
  unfold heat_content. fold m.
  rewrite (sumn_ext (num_nodes m) (fun n => capacity P n * T1 n) (fun n => capacity P n * t_temp0 s n + alpha * dt * arrives B (t_temp s) cq n))
    by (intros n Hn; rewrite HT by exact Hn; field; apply Hcap; exact Hn).
  rewrite sumn_plus, sumn_scal. do 2 f_equal. unfold arrives. rewrite sumn_plus. unfold boundary_rate. fold m. f_equal.
  rewrite corner_total, <- deposit_total. apply sumn_ext. intros e He.
  destruct (Hcov e He) as (sid0 & Hh). destruct (last_exists _ _ _ _ Hh) as (mat & sid & Hlast).
  rewrite (sumn_ext 8 _ (fun l => conducted P (h_cond P mat sid) (t_temp s) (t_vol s e) e l + deposit P src (t_vol s e) e))
    by (intros l Hl; apply Hcq; auto).
  rewrite sumn_plus, conducted_balance. ring.
Qed.

(** ** Steps *)

Lemma rk_alpha_last N : rk_alpha (S N) N = 1.
Proof. unfold rk_alpha. rewrite S_INR. replace (INR N + 1 - INR N) with 1 by ring. field. Qed.

Lemma stage_keeps B src alpha dt s s' : therm_stage P B src alpha dt s = Some s' -> t_temp0 s' = t_temp0 s /\ t_vol s' = elem_vol m (h_x P).
Proof.
  intros H. destruct (stage_inv _ _ _ _ _ _ H) as (s1 & s2 & E1 & E2 & ->). split; [|reflexivity].
  destruct (corner_heat_spec P Hm HL HD _ _ _ E1) as ((_ & S2 & _) & _). cbn [set_nq t_temp0] in S2.
  rewrite update_temperature_eq in E2. destruct (forallb _ _); [|easy]. injection E2 as <-.
  cbn [t_temp0 set_tvol set_temp boundary_temperature]. destruct (nodes_fold P alpha dt (boundary_radiation P B (boundary_convection P B s1)) (num_nodes m)) as (A & _).
  fold m. rewrite A. exact S2.
Qed.

Lemma stages_keep B src N dt k : forall s s', for_up 0 k (fun k s => therm_stage P B src (rk_alpha N k) dt s) s = Some s' ->
  t_temp0 s' = t_temp0 s /\ (t_vol s = elem_vol m (h_x P) -> t_vol s' = elem_vol m (h_x P)).
Proof.
  induction k as [|k IH]; intros s s' H; [cbn in H; injection H as <-; auto|].
  unfold for_up in *. rewrite seq_S, for_each_app in H. destruct (for_each (seq 0 k) _ s) as [s1|] eqn:E1; [|easy].
  cbn [obind for_each Nat.add] in H. destruct (IH _ _ E1) as [A C].
  destruct (therm_stage P B src (rk_alpha N k) dt s1) as [s2|] eqn:E2; [|easy]. injection H as <-.
  destruct (stage_keeps _ _ _ _ _ _ E2) as [D F]. split; [congruence|auto].
Qed.

Lemma step_last B src N dt s s' : therm_step P B src (S N) dt s = Some s' ->
  exists s1, therm_stage P B src 1 dt s1 = Some s' /\ t_temp0 s1 = t_temp s /\ (t_vol s = elem_vol m (h_x P) -> t_vol s1 = elem_vol m (h_x P)).
Proof.
  unfold therm_step, for_up. rewrite seq_S, for_each_app. intros H. destruct (for_each (seq 0 N) _ _) as [s1|] eqn:E1; [|easy].
  cbn [obind for_each Nat.add] in H. rewrite rk_alpha_last in H.
  destruct (therm_stage P B src 1 dt s1) as [s2|] eqn:E2; [|easy]. injection H as <-.
  exists s1. split; [exact E2|]. pose proof (stages_keep B src (S N) dt N (set_temp0 (t_temp s) s) s1) as K. unfold for_up in K.
  apply K in E1. exact E1.
Qed.

Lemma boundary_rate_insulated B T : insulated B -> boundary_rate P B T = 0.
Proof.
  intros H. unfold boundary_rate. rewrite !patches_insulated by (auto; discriminate). rewrite (sumn_ext _ _ (fun _ => 0)); [apply sumn_0|].
  intros. unfold node_gain, suml. cbn. ring.
Qed.
Lemma insulated_no_const B : insulated B -> no_const B.
Proof. intros H set Hs. rewrite H by exact Hs. discriminate. Qed.

Lemma step_balance B src N dt s s' : (0 < num_elems m)%nat -> insulated B -> t_vol s = elem_vol m (h_x P) -> therm_step P B src (S N) dt s = Some s' ->
  heat_content P (t_temp s') = heat_content P (t_temp s) + dt * source_rate P src (elem_vol m (h_x P)) /\ t_vol s' = elem_vol m (h_x P).
Proof.
  intros Hne Hi HV H. destruct (step_last _ _ _ _ _ _ H) as (s1 & E & E0 & EV).
  rewrite (stage_balance _ _ _ _ _ _ Hne (insulated_no_const _ Hi) E), E0, (EV HV), boundary_rate_insulated by exact Hi.
  split; [ring|]. apply (stage_keeps _ _ _ _ _ _ E).
Qed.
End Flow.

(** ** Element lists of the nodes *)

Section BuildElems.
Variables (nnodes ne nn : nat) (nodes : nat -> nat -> nat).
Let key (p : nat * nat) : nat := nodes (fst p) (snd p).
Let at_node (n : nat) (l : list (nat * nat)) := filter (fun p => Nat.eqb (key p) n) l.

Lemma fill_elems_loop stride l done ein saved :
  (forall n, saved n = length (at_node n done)) ->
  (forall n, map (ein n) (seq 0 (saved n)) = map fst (at_node n done)) ->
  (forall p, In p l -> (key p < nnodes)%nat) ->
  (forall n, stride n = length (at_node n (done ++ l))) ->
  exists ein' saved', for_each l (fun '(e, l) '(ein, saved) =>
       let n := nodes e l in
       let j := saved n in
       if Nat.ltb n nnodes && Nat.ltb j (stride n) then Some (fupd2 ein n j e, fupd saved n (saved n + 1)%nat) else None) (ein, saved) = Some (ein', saved') /\
  (forall n, saved' n = length (at_node n (done ++ l))) /\
  (forall n, map (ein' n) (seq 0 (saved' n)) = map fst (at_node n (done ++ l))).
Proof.
  revert done ein saved. induction l as [|[e k] l IH]; intros done ein saved Hs Hc Hr Hst; cbn [for_each].
  - exists ein, saved. rewrite app_nil_r. repeat split; auto.
  - assert (Hk := Hr (e, k) (or_introl eq_refl)). unfold key in Hk. cbn [fst snd] in Hk.
    assert (Hj : (saved (nodes e k) < stride (nodes e k))%nat).
    { rewrite Hs, Hst. unfold at_node. rewrite filter_app, app_length. cbn [filter]. unfold key at 3. cbn [fst snd].
      rewrite Nat.eqb_refl. cbn [length]. lia. }
    cbv zeta. rewrite (proj2 (Nat.ltb_lt _ _) Hk), (proj2 (Nat.ltb_lt _ _) Hj). cbn [andb obind].
    destruct (IH (done ++ [(e, k)]) (fupd2 ein (nodes e k) (saved (nodes e k)) e) (fupd saved (nodes e k) (saved (nodes e k) + 1)%nat)) as (c' & s' & E & H1 & H2).
    + intros n. unfold at_node. rewrite filter_app, app_length. cbn [filter]. unfold key at 2. cbn [fst snd].
      unfold fupd. rewrite (Nat.eqb_sym n). destruct (Nat.eqb_spec (nodes e k) n) as [->|Hn]; cbn [length];
      rewrite Hs; unfold at_node; lia.
    + intros n. unfold at_node. rewrite filter_app, map_app. cbn [filter]. unfold key at 2. cbn [fst snd].
      unfold fupd. rewrite (Nat.eqb_sym n). destruct (Nat.eqb_spec (nodes e k) n) as [->|Hn].
      * rewrite seq_app, map_app. cbn [seq map Nat.add fst]. f_equal.
        -- transitivity (map (ein n) (seq 0 (saved n))); [|apply Hc]. apply map_ext_in. intros j Hj'. apply in_seq in Hj'. unfold fupd2.
           replace (Nat.eqb j (saved n)) with false by (symmetry; apply Nat.eqb_neq; lia). now rewrite andb_false_r.
        -- unfold fupd2. now rewrite !Nat.eqb_refl.
      * rewrite app_nil_r. transitivity (map (ein n) (seq 0 (saved n))); [|apply Hc]. apply map_ext_in. intros j _. unfold fupd2.
        now rewrite (proj2 (Nat.eqb_neq n (nodes e k))) by auto.
    + intros p Hp. apply Hr. right; easy.
    + intros n. rewrite Hst, <- app_assoc. easy.
    + exists c', s'. rewrite <- app_assoc in H1, H2. split; [exact E|]. auto.
Qed.

Lemma build_elems_some : table_in_range nnodes ne nn nodes ->
  exists el, build_elems nnodes ne nn nodes = Some el /\ forall n, el n = map fst (at_node n (elem_corners ne nn)).
Proof.
  intros Hr.
  assert (Hr' : forall p, In p (elem_corners ne nn) -> (key p < nnodes)%nat).
  { intros [e l] Hp. apply elem_corners_in in Hp. apply Hr; tauto. }
  destruct (count_loop nnodes nodes (elem_corners ne nn) [] (fun _ => O)) as (stride & E1 & Hst); [easy|exact Hr'|].
  destruct (fill_elems_loop stride (elem_corners ne nn) [] (fun _ _ => O) (fun _ => O)) as (ein & saved & E2 & H1 & H2); try easy.
  change (count_corners nnodes ne nn nodes = Some stride) in E1.
  change (fill_elems nnodes ne nn nodes stride = Some (ein, saved)) in E2.
  unfold build_elems. rewrite E1. cbn [obind]. rewrite E2. cbn [obind].
  eexists. split; [reflexivity|]. intros n. rewrite <- H2. f_equal. rewrite Hst, H1. easy.
Qed.
End BuildElems.

Lemma build_elems_ok nnodes ne nodes : table_in_range nnodes ne 8 nodes ->
  exists mesh el, build_corners nnodes ne 8 nodes = Some mesh /\ build_elems nnodes ne 8 nodes = Some el /\
    num_nodes mesh = nnodes /\ num_elems mesh = ne /\ nodes_in mesh = nodes /\ corners_ok 8 mesh /\
    forall L x mass cond cp, elems_ok (mkThermal mesh el L x mass cond cp).
Proof.
  intros Hr. destruct (build_corners_spec nnodes ne 8 nodes Hr) as (mesh & E1 & Hok & En & Ee & Ei & _).
  destruct (build_corners_some nnodes ne 8 nodes Hr) as (mesh' & E1' & _ & _ & _ & _ & Hc). rewrite E1 in E1'. injection E1' as <-.
  destruct (build_elems_some nnodes ne 8 nodes Hr) as (el & E2 & Hel).
  exists mesh, el. repeat (split; [assumption|]). intros L x mass cond cp n Hn. cbn [h_mesh h_elems] in *. split.
  - rewrite Hel, Hc, !map_length. reflexivity.
  - intros e. rewrite Hel, in_map_iff, Ee, Ei. split.
    + intros ([e' l] & <- & H). apply filter_In in H. cbn [fst snd] in *. destruct H as [H1 H2]. apply elem_corners_in in H1. apply Nat.eqb_eq in H2.
      split; [tauto|]. exists l. tauto.
    + intros (He & l & Hl & E). exists (e, l). split; [reflexivity|]. apply filter_In. split; [apply elem_corners_in; tauto|]. cbn [fst snd]. now apply Nat.eqb_eq.
Qed.

(** ** When a stage runs at all *)

Section Defined.
Variable P : thermal.
Hypothesis HP : thermal_ok P.
Let m := h_mesh P.
Let L := h_L P.

Lemma corner_heat_defined src s : (exists s', corner_heat P src s = Some s') <->
  forall mat sid, (mat < num_mats L)%nat -> (sid < num_mat_elems L mat)%nat -> (elem_in_mat L mat sid < num_mat_elems L mat)%nat.
Proof.
  rewrite corner_heat_eq by apply HP. fold L. destruct (forallb _ _) eqn:G.
  - split; [|eauto]. intros _ mat sid Hm Hs. rewrite forallb_forall in G.
    specialize (G mat ltac:(apply in_seq; lia)). unfold mat_in_row in G. rewrite forallb_forall in G. specialize (G sid ltac:(apply in_seq; fold L; lia)).
    now apply Nat.ltb_lt in G.
  - split; [intros (? & ?); easy|]. intros H. exfalso. assert (K : forallb (mat_in_row P) (seq 0 (num_mats L)) = true); [|congruence].
    apply forallb_forall. intros mat Hm. apply in_seq in Hm. apply forallb_forall. intros sid Hs. apply in_seq in Hs. apply Nat.ltb_lt. apply H; fold L in Hs; lia.
Qed.

Lemma update_defined alpha dt s : (exists s', update_temperature P alpha dt s = Some s') <->
  forall n, (n < num_nodes m)%nat -> capacity P n <> 0 /\ forall e, In e (h_elems P n) -> (0 < num_mats L /\ e < num_mat_elems L 0)%nat.
Proof.
  rewrite update_temperature_eq. fold m. destruct (forallb _ _) eqn:G.
  - split; [|eauto]. intros _ n Hn. rewrite forallb_forall in G. specialize (G n ltac:(apply in_seq; lia)). apply node_ok_true in G. tauto.
  - split; [intros (? & ?); easy|]. intros H. exfalso. assert (K : forallb (node_ok P) (seq 0 (num_nodes m)) = true); [|congruence].
    apply forallb_forall. intros n Hn. apply in_seq in Hn. apply node_ok_true. split; [intros e He; apply (H n); auto; lia|apply H; lia].
Qed.

Lemma stage_defined B src alpha dt s : (exists s', therm_stage P B src alpha dt s = Some s') <->
  (forall mat sid, (mat < num_mats L)%nat -> (sid < num_mat_elems L mat)%nat -> (elem_in_mat L mat sid < num_mat_elems L mat)%nat) /\
  (forall n, (n < num_nodes m)%nat -> capacity P n <> 0 /\ forall e, In e (h_elems P n) -> (0 < num_mats L /\ e < num_mat_elems L 0)%nat).
Proof.
  unfold therm_stage. cbv zeta. rewrite <- (corner_heat_defined src (set_nq (fun _ => 0) s)). destruct (corner_heat P src _) as [s1|].
  - cbn [obind]. rewrite <- (update_defined alpha dt (boundary_radiation P B (boundary_convection P B s1))). destruct (update_temperature P alpha dt _) as [s2|]; cbn [obind].
    + split; eauto.
    + split; [intros (? & ?); easy|intros (_ & ? & ?); easy].
  - cbn [obind]. split; [intros (? & ?); easy|intros ((? & ?) & _); easy].
Qed.
End Defined.

(** ** Uniform temperatures *)

Section Uniform.
Variable P : thermal.
Hypothesis HP : thermal_ok P.
Let m := h_mesh P.
Let L := h_L P.

Lemma stage_uniform B alpha dt s s' a : (0 < num_elems m)%nat ->
  (forall n, (n < num_nodes m)%nat -> arrives P B (t_temp s) (fun _ => 0) n = 0) ->
  no_const B -> (forall n, (n < num_nodes m)%nat -> t_temp s n = a /\ t_temp0 s n = a) ->
  therm_stage P B None alpha dt s = Some s' -> forall n, (n < num_nodes m)%nat -> t_temp s' n = a /\ t_temp0 s' n = a.
Proof.
  intros Hne Hb Hnc Hu H n Hn.
  destruct (stage_covers P HP _ _ _ _ _ _ Hne H) as [Hcov Hcap].
  destruct (stage_spec P HP _ _ _ _ _ _ Hne H) as (cq & T1 & Hcq & HT & E1 & E0 & _). fold m L in Hcq, HT.
  rewrite boundary_temperature_none in E1 by exact Hnc. cbn [t_temp set_temp] in E1. rewrite E1, E0.
  split; [|apply Hu; exact Hn]. rewrite HT by exact Hn. rewrite (proj2 (Hu n Hn)).
  assert (E : arrives P B (t_temp s) cq n = arrives P B (t_temp s) (fun _ => 0) n).
  { unfold arrives. f_equal. apply suml_ext. intros c Hc. apply (ok_node _ _ (proj1 HP)) in Hc. destruct Hc as (e & l & He & Hl & -> & _).
    destruct (Hcov e He) as (sid0 & Hh). destruct (last_exists _ _ _ _ Hh) as (mat & sid & Hlast).
    fold m. rewrite (Hcq e l mat sid He Hl Hlast). cbn [deposit]. rewrite (conducted_uniform P _ _ _ _ _ a); [ring|].
    intros k Hk. apply Hu. apply (ok_range _ _ (proj1 HP)); auto. }
  rewrite E, (Hb n Hn). unfold Rdiv. ring.
Qed.
End Uniform.

(** ** What conduction stores at the material points *)

Section Stored.
Variable P : thermal.
Hypothesis HP : thermal_ok P.
Let m := h_mesh P.
Let L := h_L P.
Let HD : distinct_elems L := proj2 (proj2 (proj2 HP)).


Lemma avg_temp_eq T e : avg_temp m T e = element_mean P T e.
Proof. unfold avg_temp, element_mean. fold m. rewrite fold_sumn. unfold Rdiv. rewrite <- sumn_scal_r. ring. Qed.

Definition stored (s s' : tstate) (mat sid : nat) : Prop :=
  let e := elem_in_mat L mat sid in
  (t_eroded s' mat sid = true <-> t_eroded s mat sid = true \/ 900 <= element_mean P (t_temp s) e) /\
  (forall d, t_grad s' mat e d = gradient P (t_temp s) (t_vol s e) e d) /\
  (forall d, t_flux s' mat sid d = - h_cond P mat sid * gradient P (t_temp s) (t_vol s e) e d).

Lemma heat_stored mat l : (mat < num_mats L)%nat -> NoDup l -> (forall i, In i l -> (i < num_mat_elems L mat)%nat) -> forall s,
  let s' := fold_left (fun s sid => heat_elem' P mat sid s) l s in
  (forall sid, In sid l -> stored s s' mat sid) /\
  (forall mat' sid, mat' <> mat \/ ~ In sid l -> t_eroded s' mat' sid = t_eroded s mat' sid /\ t_flux s' mat' sid = t_flux s mat' sid) /\
  (forall mat' e, mat' <> mat \/ (forall sid, In sid l -> elem_in_mat L mat sid <> e) -> t_grad s' mat' e = t_grad s mat' e).
Proof.
  intros Hk. induction l as [|x l IH]; intros N Hl s; [split; [intros ? []|split; [auto|reflexivity]]|]. cbn [fold_left].
  apply NoDup_cons_iff in N. destruct N as [Nx N]. set (s1 := heat_elem' P mat x s).
  specialize (IH N (fun i Hi => Hl i (or_intror Hi)) s1). cbv zeta in IH. destruct IH as (I1 & I2 & I3).
  set (s2 := fold_left _ l s1) in *.
  assert (Hne : forall sid, In sid l -> elem_in_mat L mat sid <> elem_in_mat L mat x).
  { intros y Hy E. apply Nx. rewrite (elem_inj P HD mat x y); auto; apply Hl; [now left|now right]. }
  assert (ET : t_temp s1 = t_temp s) by reflexivity. assert (EV : t_vol s1 = t_vol s) by reflexivity.
  split; [|split].
  - intros sid [<-|Hin].
    + destruct (I2 mat x (or_intror Nx)) as [A B]. pose proof (I3 mat (elem_in_mat L mat x) (or_intror Hne)) as C.
      unfold stored. rewrite A, B, C. cbv zeta. unfold s1, heat_elem'. cbv zeta. cbn [t_eroded t_grad t_flux set_cq set_flux set_grad set_melt]. split; [|split].
      * change (avg_temp (h_mesh P)) with (avg_temp m). rewrite avg_temp_eq. fold L. destruct (Rle_dec 900 _) as [H|H]; [|tauto]. unfold fupd2. rewrite !Nat.eqb_refl. cbn [andb]. tauto.
      * intros d. unfold fupd2. fold L. rewrite !Nat.eqb_refl. cbn [andb]. apply gradient_eq.
      * intros d. unfold fupd2. rewrite !Nat.eqb_refl. cbn [andb]. unfold point_flux. rewrite gradient_eq. fold L. ring.
    + specialize (I1 sid Hin). unfold stored in *. rewrite ET, EV in I1. cbv zeta in *. destruct I1 as (A & B & C). split; [|auto].
      rewrite A. assert (E : t_eroded s1 mat sid = t_eroded s mat sid); [|rewrite E; tauto].
      unfold s1, heat_elem'. cbv zeta. cbn [t_eroded set_cq set_flux set_grad set_melt]. destruct (Rle_dec _ _); [|reflexivity]. unfold fupd2.
      replace (Nat.eqb sid x) with false by (symmetry; apply Nat.eqb_neq; intros ->; tauto). now rewrite andb_false_r.
  - intros mat' sid H. assert (H' : mat' <> mat \/ ~ In sid l) by (destruct H; [tauto|right; intros ?; apply H; now right]).
    destruct (I2 mat' sid H') as [-> ->].
    assert (E : Nat.eqb mat' mat && Nat.eqb sid x = false).
    { destruct H as [H|H]; [rewrite (proj2 (Nat.eqb_neq _ _) H); reflexivity|]. rewrite (proj2 (Nat.eqb_neq sid x)); [apply andb_false_r|]. intros ->. apply H. now left. }
    unfold s1, heat_elem'. cbv zeta. cbn [t_eroded t_flux set_cq set_flux set_grad set_melt]. split; [destruct (Rle_dec _ _)|]; unfold fupd2; rewrite ?E; reflexivity.
  - intros mat' e H. rewrite (I3 mat' e) by (destruct H; [tauto|right; intros; apply H; now right]).
    unfold s1, heat_elem'. cbv zeta. cbn [t_grad set_cq set_flux set_grad set_melt]. unfold fupd2. fold L.
    destruct H as [H|H]; [rewrite (proj2 (Nat.eqb_neq _ _) H); reflexivity|]. rewrite (proj2 (Nat.eqb_neq e (elem_in_mat L mat x))); [now rewrite andb_false_r|].
    intros E. apply (H x); [now left|auto].
Qed.

Lemma moving_keeps pos power mat s : let s' := moving_flux P pos power mat s in t_eroded s' = t_eroded s /\ t_flux s' = t_flux s /\ t_grad s' = t_grad s /\ t_temp s' = t_temp s /\ t_vol s' = t_vol s.
Proof.
  unfold moving_flux. cbv zeta. revert s. induction (seq 0 (num_mat_elems (h_L P) mat)) as [|x l IH]; intros s; [auto|]. cbn [fold_left].
  destruct (in_source P pos _); [|apply IH]. match goal with |- context [fold_left ?f l ?a] => destruct (IH a) as (-> & -> & -> & -> & ->) end. auto.
Qed.

Lemma corner_heat_stored src s s' : corner_heat P src s = Some s' ->
  forall mat sid, (mat < num_mats L)%nat -> (sid < num_mat_elems L mat)%nat -> stored s s' mat sid.
Proof.
  rewrite corner_heat_eq by apply HP. destruct (forallb _ _); [|easy]. intros E. injection E as <-. fold L.
  assert (G : forall k, (k <= num_mats L)%nat -> let s' := fold_left (fun s mat => mat_step P src mat s) (seq 0 k) s in
    t_temp s' = t_temp s /\ t_vol s' = t_vol s /\
    (forall mat sid, (mat < k)%nat -> (sid < num_mat_elems L mat)%nat -> stored s s' mat sid) /\
    (forall mat sid, (k <= mat)%nat -> t_eroded s' mat sid = t_eroded s mat sid)).
  { induction k as [|k IH]; intros Hk; cbv zeta; [repeat split; intros; lia|].
    rewrite seq_S, fold_left_app. cbn [fold_left Nat.add]. destruct IH as (I0 & I0' & I1 & I2); [lia|]. set (s1 := fold_left _ (seq 0 k) s) in *.
    destruct (heat_stored k (seq 0 (num_mat_elems L k))) with (s := s1) as (H1 & H2 & H3); [lia|apply seq_NoDup|intros i Hi; apply in_seq in Hi; lia|].
    change (fold_left (fun s sid => heat_elem' P k sid s) (seq 0 (num_mat_elems L k)) s1) with (heat_mat P k s1) in *.
    destruct (heat_mat_same P k s1) as (T1 & _ & _ & V1).
    assert (K : t_temp (mat_step P src k s1) = t_temp s1 /\ t_vol (mat_step P src k s1) = t_vol s1 /\ t_eroded (mat_step P src k s1) = t_eroded (heat_mat P k s1) /\
      t_flux (mat_step P src k s1) = t_flux (heat_mat P k s1) /\ t_grad (mat_step P src k s1) = t_grad (heat_mat P k s1)).
    { unfold mat_step. destruct src as [[pos power]|]; [|auto]. destruct (moving_keeps pos power k (heat_mat P k s1)) as (-> & -> & -> & -> & ->). auto. }
    destruct K as (KT & KV & KE & KF & KG).
    split; [congruence|]. split; [congruence|]. split.
    - intros mat sid Hm Hs. destruct (Nat.eq_dec mat k) as [->|Hne].
      + specialize (H1 sid ltac:(apply in_seq; lia)). unfold stored in *. rewrite KE, KF, KG. rewrite I0, I0', I2 in H1 by lia. exact H1.
      + specialize (I1 mat sid ltac:(lia) Hs). unfold stored in *. rewrite KE, KF, KG.
        destruct (H2 mat sid (or_introl Hne)) as [-> ->]. rewrite (H3 mat _ (or_introl Hne)). exact I1.
    - intros mat sid Hm. rewrite KE. destruct (H2 mat sid) as [-> _]; [left; lia|]. apply I2. lia. }
  intros mat sid Hm Hs. apply (G (num_mats L) (le_n _)); auto.
Qed.

Lemma boundary_flux_eroded B k f s : t_eroded (boundary_flux P B k f s) = t_eroded s.
Proof. reflexivity. Qed.

Lemma stage_stored B src alpha dt s s' : therm_stage P B src alpha dt s = Some s' ->
  forall mat sid, (mat < num_mats L)%nat -> (sid < num_mat_elems L mat)%nat -> stored s s' mat sid.
Proof.
  intros H mat sid Hm Hs. destruct (stage_inv P _ _ _ _ _ _ H) as (s1 & s2 & E1 & E2 & ->).
  pose proof (corner_heat_stored _ _ _ E1 mat sid Hm Hs) as K.
  rewrite update_temperature_eq in E2. destruct (forallb _ _); [|easy]. injection E2 as <-.
  destruct (nodes_fold P alpha dt (boundary_radiation P B (boundary_convection P B s1)) (num_nodes (h_mesh P))) as (_ & _ & _ & EG & EF & EE & _).
  unfold stored in *. cbn [t_eroded t_grad t_flux set_tvol set_temp boundary_temperature]. rewrite EG, EF, EE. exact K.
Qed.
End Stored.

(** ** Cycles *)

Section Cycles.
Variable P : thermal.
Hypothesis HP : thermal_ok P.
Let m := h_mesh P.

Lemma cycle_inv B use N dt s t pos s' t' pos' : therm_cycle P B use N dt (s, t, pos) = Some (s', t', pos') ->
  exists tab power p, tool_path tool_points = Some tab /\ get_power tab t = Some power /\
    therm_step P B (if use then Some (pos, power) else None) N dt s = Some s' /\ t' = t + dt /\ get_position tab t' = Some p /\ pos' = (if use then xyz p else pos).
Proof.
  unfold therm_cycle. destruct (tool_path tool_points) as [tab|]; [|easy]. cbn [obind]. destruct (get_power tab t) as [power|] eqn:E1; [|easy]. cbn [obind].
  destruct (therm_step P B _ N dt s) as [s1|] eqn:E2; [|easy]. cbn [obind]. destruct (get_position tab (t + dt)) as [p|] eqn:E3; [|easy]. cbn [obind].
  intros E. injection E as <- <- <-. exists tab, power, p. auto 10.
Qed.

Lemma for_each_inv {A S} (I : S -> Prop) (f : A -> S -> option S) l : (forall a s s', In a l -> I s -> f a s = Some s' -> I s') ->
  forall s s', I s -> for_each l f s = Some s' -> I s'.
Proof.
  intros H. induction l as [|a l IH]; intros s s' Hs E; [cbn in E; injection E as <-; exact Hs|]. cbn [for_each] in E.
  destruct (f a s) as [s1|] eqn:E1; [|easy]. cbn [obind] in E. apply (IH) with (s := s1); [intros; eapply H; eauto; now right|eapply H; eauto; now left|exact E].
Qed.

Lemma run_conserves B N t0 dts s s' t' pos' : (0 < num_elems m)%nat -> insulated B -> t_vol s = elem_vol m (h_x P) ->
  therm_run P B false (S N) t0 dts s = Some (s', t', pos') -> heat_content P (t_temp s') = heat_content P (t_temp s).
Proof.
  intros Hne Hi HV H. unfold therm_run in H. rewrite boundary_temperature_none in H by (apply insulated_no_const; exact Hi).
  set (I := fun st : tstate * R * (nat -> R) => heat_content P (t_temp (fst (fst st))) = heat_content P (t_temp s) /\ t_vol (fst (fst st)) = elem_vol m (h_x P)).
  assert (K : I (s', t', pos')); [|apply K].
  eapply (for_each_inv I); [| |exact H].
  - intros dt [[s1 t1] p1] [[s2 t2] p2] _ [A V] E. cbn [fst snd] in *. destruct (cycle_inv _ _ _ _ _ _ _ _ _ _ E) as (tab & power & p & _ & _ & E2 & _).
    destruct (step_balance P HP B None N dt s1 s2 Hne Hi V E2) as [A2 V2]. split; [|exact V2]. cbn [fst snd source_rate] in *. rewrite A2, A. ring.
  - split; [reflexivity|exact HV].
Qed.

Lemma step_uniform B N dt s s' a : (0 < num_elems m)%nat -> no_const B ->
  (forall T n, (forall n, (n < num_nodes m)%nat -> T n = a) -> (n < num_nodes m)%nat -> arrives P B T (fun _ => 0) n = 0) ->
  (forall n, (n < num_nodes m)%nat -> t_temp s n = a) ->
  therm_step P B None N dt s = Some s' -> forall n, (n < num_nodes m)%nat -> t_temp s' n = a.
Proof.
  intros Hne Hnc Hb Hu H. unfold therm_step in H.
  assert (K : forall n, (n < num_nodes m)%nat -> t_temp s' n = a /\ t_temp0 s' n = a); [|intros; apply K; auto].
  eapply (for_each_inv (fun s => forall n, (n < num_nodes m)%nat -> t_temp s n = a /\ t_temp0 s n = a)); [| |exact H].
  - intros k s1 s2 _ I E. apply (stage_uniform P HP B (rk_alpha N k) dt s1 s2 a); auto. intros n Hn. apply Hb; auto. intros; apply I; auto.
  - intros n Hn. cbn [t_temp t_temp0 set_temp0]. auto.
Qed.

Lemma run_uniform B N t0 dts s s' t' pos' a : (0 < num_elems m)%nat -> no_const B ->
  (forall T n, (forall n, (n < num_nodes m)%nat -> T n = a) -> (n < num_nodes m)%nat -> arrives P B T (fun _ => 0) n = 0) ->
  (forall n, (n < num_nodes m)%nat -> t_temp s n = a) ->
  therm_run P B false N t0 dts s = Some (s', t', pos') -> forall n, (n < num_nodes m)%nat -> t_temp s' n = a.
Proof.
  intros Hne Hnc Hb Hu H. unfold therm_run in H. rewrite boundary_temperature_none in H by exact Hnc.
  change (forall n, (n < num_nodes m)%nat -> t_temp (fst (fst (s', t', pos'))) n = a).
  eapply (for_each_inv (fun st : tstate * R * (nat -> R) => forall n, (n < num_nodes m)%nat -> t_temp (fst (fst st)) n = a)); [| |exact H].
  - intros dt [[s1 t1] p1] [[s2 t2] p2] _ I E. cbn [fst snd] in *. destruct (cycle_inv _ _ _ _ _ _ _ _ _ _ E) as (tab & power & p & _ & _ & E2 & _).
    eapply step_uniform; eauto.
  - exact Hu.
Qed.

(** a surface at the ambient temperature exchanges nothing by convection *)
Lemma arrives_ambient B T n : (patches_of B RadTemp = []) -> T n = 293.15 -> arrives P B T (fun _ => 0) n = 0.
Proof.
  intros HR HT. unfold arrives. rewrite HR, node_gain_nil. rewrite (suml_ext _ (fun _ => 0 * 0)) by (intros; ring). rewrite (suml_scal 0 (fun _ => 0)).
  assert (E : node_gain B (fun p n0 => - 100 * (T n0 - 293.15) * (patch_area P B p / 4)) (patches_of B ConvTemp) n = 0); [|rewrite E; ring].
  unfold node_gain. rewrite (suml_ext _ (fun _ => 0 * 0)). rewrite (suml_scal 0 (fun _ => 0)); ring.
  intros p _. rewrite (sumn_ext 4 _ (fun _ => 0)); [rewrite sumn_0; ring|]. intros l _. destruct (Nat.eqb _ _); [|reflexivity]. rewrite HT. ring.
Qed.
Lemma arrives_insulated B T n : insulated B -> arrives P B T (fun _ => 0) n = 0.
Proof.
  intros Hi. unfold arrives. rewrite !patches_insulated by (auto; discriminate). rewrite !node_gain_nil.
  rewrite (suml_ext _ (fun _ => 0 * 0)) by (intros; ring). rewrite (suml_scal 0 (fun _ => 0)). ring.
Qed.
End Cycles.

(** the specific heat of the other materials is never read *)
Lemma stage_cp mesh el L x mass cond cp cp' B src alpha dt s : (forall sid, cp' 0%nat sid = cp 0%nat sid) ->
  therm_stage (mkThermal mesh el L x mass cond cp') B src alpha dt s = therm_stage (mkThermal mesh el L x mass cond cp) B src alpha dt s.
Proof.
  intros H. set (P := mkThermal mesh el L x mass cond cp). set (P' := mkThermal mesh el L x mass cond cp').
  assert (E1 : corner_heat P' = corner_heat P) by reflexivity. assert (E2 : boundary_convection P' = boundary_convection P) by reflexivity.
  assert (E3 : boundary_radiation P' = boundary_radiation P) by reflexivity.
  assert (E4 : forall s, update_temperature P' alpha dt s = update_temperature P alpha dt s).
  { intros s1. unfold update_temperature, for_up. apply for_each_ext. intros n s2 _. unfold node_update.
    change (cp_in_range P' n) with (cp_in_range P n). assert (E : node_cp P' n = node_cp P n); [|rewrite E; reflexivity].
    unfold node_cp. cbn [P P' h_cp h_elems]. apply fold_left_ext. intros a e _. now rewrite H. }
  unfold therm_stage. rewrite E1, E2, E3. cbv zeta. destruct (corner_heat P src _) as [s1|]; [|reflexivity]. cbn [obind]. rewrite E4. reflexivity.
Qed.
