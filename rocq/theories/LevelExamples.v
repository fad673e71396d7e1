(** A mesh of two separate cubes, of side 1 and 2, carrying the same level set value. *)
From Verif Require Import BaseReal BaseArr GeomModel GeomSpec GeomProofs SghModel SghSpec SghProofs SghExamples MarsModel MarsSpec MarsProofs ThermModel ThermProofs ThermFlow LevelModel LevelSpec LevelProofs LevelFlow LevelGrid.
Local Open Scope R_scope.

Definition cubes_nodes (e l : nat) : nat := (8 * e + l)%nat.
Definition side (e : nat) : R := match e with O => 1 | _ => 2 end.
Definition cubes_x (n d : nat) : R := if Nat.testbit (n mod 8) d then side (n / 8) else 0.
Definition cubes (L : layout) (sp : nat -> R) : lset :=
  mkLset 3 (mesh_of 16 2 cubes_nodes) (elems_of 16 2 cubes_nodes) L cubes_x (fun e => side e * side e * side e) (fun _ => EvolveFront) sp.

Lemma side_pos e : 0 < side e.
Proof. destruct e; cbn; lra. Qed.

Section Cubes.
Variables (L : layout) (sp : nat -> R).
Hypothesis HL : layout_ok 2 L.
Hypothesis HD : forall mat i j, (mat < num_mats L)%nat -> (i < num_mat_elems L mat)%nat -> (j < num_mat_elems L mat)%nat -> elem_in_mat L mat i = elem_in_mat L mat j -> i = j.
Let P := cubes L sp.

Lemma cubes_ok : num_nodes (v_mesh P) = 16%nat /\ num_elems (v_mesh P) = 2%nat /\ nodes_in (v_mesh P) = cubes_nodes /\ lset_ok P.
Proof.
  apply mesh_of_ok; [|exact HL|exact HD|].
  - intros e l He Hl. unfold cubes_nodes. lia.
  - intros e _. pose proof (side_pos e). apply Rmult_lt_0_compat; [apply Rmult_lt_0_compat|]; lra.
Qed.

Lemma cubes_sum f e l : (e < 2)%nat -> (l < 8)%nat -> at_node_sum P (8 * e + l) f = f e l.
Proof.
  intros He Hl. destruct cubes_ok as (_ & A2 & A3 & _). unfold at_node_sum. rewrite A2, A3. change (v_nn P) with 8%nat.
  rewrite (sumn_ext 2 _ (fun e' => if Nat.eqb e' e then f e l else 0)); [now apply sumn_delta|]. intros e' He'.
  destruct (Nat.eqb e' e) eqn:Ee.
  - apply Nat.eqb_eq in Ee. subst e'. rewrite (sumn_ext 8 _ (fun l' => if Nat.eqb l' l then f e l else 0)); [now apply sumn_delta|].
    intros l' Hl'. unfold cubes_nodes. destruct (Nat.eqb l' l) eqn:El; [apply Nat.eqb_eq in El; subst; now rewrite Nat.eqb_refl|].
    apply Nat.eqb_neq in El. rewrite (proj2 (Nat.eqb_neq _ _)); [easy|lia].
  - apply Nat.eqb_neq in Ee. rewrite (sumn_ext 8 _ (fun _ => 0)); [apply sumn_0|]. intros l' Hl'. unfold cubes_nodes.
    rewrite (proj2 (Nat.eqb_neq _ _)); [easy|lia].
Qed.

Lemma cubes_normal e l d : (e < 2)%nat -> (l < 8)%nat -> (d < 3)%nat -> area_normal P e l d = box_normals (fun _ => side e * side e / 4) l d.
Proof.
  intros He Hl Hd. destruct cubes_ok as (_ & _ & A3 & _). unfold area_normal. change (v_dims P) with 3%nat. cbn [Nat.eqb]. unfold elem_bmat.
  rewrite (bmat_ext _ _ _ (fun i => if Nat.testbit i 0 then side e else 0) (fun i => if Nat.testbit i 1 then side e else 0) (fun i => if Nat.testbit i 2 then side e else 0)); [|intros i Hi|easy|easy].
  - rewrite box_normals_bmat by assumption. unfold box_normals. destruct d as [|[|[|d]]]; [reflexivity..|lia].
  - unfold gather. rewrite A3. change (v_x P) with cubes_x. unfold cubes_x, cubes_nodes.
    replace ((8 * e + i) mod 8)%nat with i by (rewrite Nat.add_comm, Nat.mul_comm, Nat.mod_add, Nat.mod_small; lia).
    replace ((8 * e + i) / 8)%nat with e by (rewrite Nat.add_comm, Nat.mul_comm, Nat.div_add, Nat.div_small; lia). auto.
Qed.

Variable c : R.
Hypothesis Hc : 0 < c.
Hypothesis Hc2 : 12 * (c * c) = 1.

Lemma cubes_gradient phi e l d : (e < 2)%nat -> (l < 8)%nat -> (d < 3)%nat -> phi e = c ->
  stored_gradient P phi (8 * e + l) d = box_normals (fun _ => 2 * c / side e) l d.
Proof.
  intros He Hl Hd Hp. unfold stored_gradient, node_volume. rewrite !cubes_sum by assumption. rewrite cubes_normal by assumption. rewrite Hp.
  change (elem_size P e) with (side e * side e * side e). change (INR (v_nn P)) with (INR 8). replace (INR 8) with 8 by (cbn; lra). pose proof (side_pos e).
  unfold box_normals. destruct (Nat.testbit l d); field; lra.
Qed.

Lemma cubes_volume e l : (e < 2)%nat -> (l < 8)%nat -> node_volume P (8 * e + l) <> 0.
Proof.
  intros He Hl. unfold node_volume. rewrite cubes_sum by assumption. change (elem_size P e) with (side e * side e * side e). change (INR (v_nn P)) with (INR 8).
  replace (INR 8) with 8 by (cbn; lra). pose proof (side_pos e). assert (0 < side e * side e) by nra. assert (0 < side e * side e * side e) by nra. lra.
Qed.

Lemma cubes_length phi e l : (e < 2)%nat -> (l < 8)%nat -> phi e = c -> length_of P (stored_gradient P phi (8 * e + l)) = 1 / side e.
Proof.
  intros He Hl Hp. pose proof (side_pos e). unfold length_of. change (v_dims P) with 3%nat.
  rewrite (sumn_ext 3 _ (fun _ => (2 * c / side e) * (2 * c / side e))).
  - cbn [sumn]. replace (0 + 2 * c / side e * (2 * c / side e) + 2 * c / side e * (2 * c / side e) + 2 * c / side e * (2 * c / side e)) with (12 * (c * c) / (side e * side e)) by (field; lra).
    rewrite Hc2. replace (1 / (side e * side e)) with ((1 / side e) * (1 / side e)) by (field; lra). apply sqrt_square. apply Rlt_le, Rdiv_lt_0_compat; lra.
  - intros d Hd. rewrite (cubes_gradient phi e l d) by assumption. unfold box_normals. destruct (Nat.testbit l d); ring.
Qed.

(** the state in which the elements are updated *)
Definition cubes_ready (phi : nat -> R) (s : lstate) : Prop := node_ready P s /\ forall e l d, (e < 2)%nat -> (l < 8)%nat -> (d < 3)%nat ->
  l_grad s (8 * e + l) d = box_normals (fun _ => 2 * c / side e) l d /\ l_vel s (8 * e + l) d = box_normals (fun _ => 2 * c) l d.

Lemma cubes_nodal s : (forall e, (e < 2)%nat -> l_phi s e = c) -> exists s1, nodal_gradient P 0 s = Some s1 /\ l_phi s1 = l_phi s /\ l_phi0 s1 = l_phi0 s /\ cubes_ready (l_phi s) s1.
Proof.
  intros Hs. destruct cubes_ok as (A1 & A2 & A3 & A4).
  assert (F : forall n, (n < num_nodes (v_mesh P))%nat -> node_fine P 0 (l_phi s) n).
  { intros n Hn. rewrite A1 in Hn. assert (En : n = (8 * (n / 8) + n mod 8)%nat) by (apply Nat.div_mod; lia).
    assert (He : (n / 8 < 2)%nat) by (apply Nat.div_lt_upper_bound; lia). assert (Hl : (n mod 8 < 8)%nat) by (apply Nat.mod_upper_bound; lia). rewrite En. split.
    - now apply cubes_volume.
    - rewrite cubes_length by auto. pose proof (side_pos (n / 8)). assert (0 < 1 / side (n / 8)) by (apply Rdiv_lt_0_compat; lra). lra. }
  destruct (proj2 (nodal_gradient_spec P A4 0 s) F) as (s1 & E1). exists s1. split; [exact E1|].
  destruct (proj1 (nodal_gradient_spec P A4 0 s) s1 E1) as (_ & B1 & B2 & B3 & B4). split; [easy|]. split; [easy|]. split; [easy|].
  intros e l d He Hl Hd. assert (Hn : (8 * e + l < num_nodes (v_mesh P))%nat) by (rewrite A1; lia).
  destruct (B4 _ Hn d) as [-> ->]. rewrite (cubes_gradient _ e l d) by auto. split; [reflexivity|]. rewrite cubes_length by auto. pose proof (side_pos e).
  unfold box_normals. destruct (Nat.testbit l d); field; lra.
Qed.

Lemma cubes_weight phi s a e l : cubes_ready phi s -> (e < 2)%nat -> (l < 8)%nat -> 0 < a -> corner_weight P s a e l = a * (3 / 2 * c * (side e * side e)).
Proof.
  intros [Hr Hs] He Hl Ha. destruct cubes_ok as (A1 & A2 & A3 & A4). unfold corner_weight, fmax. change (v_dims P) with 3%nat. rewrite A3. unfold cubes_nodes.
  rewrite (sumn_ext 3 _ (fun _ => a * (c * (side e * side e) / 2))).
  - cbn [sumn]. pose proof (side_pos e). assert (0 < side e * side e) by nra. assert (0 < c * (side e * side e)) by nra. rewrite Rmax_right; [field|].
    assert (0 < a * (c * (side e * side e) / 2)) by (apply Rmult_lt_0_compat; lra). lra.
  - intros d Hd. rewrite (proj2 (Hs e l d He Hl Hd)). destruct (Hr e l) as [En _]; [rewrite A2; lia|exact Hl|]. rewrite En, cubes_normal by assumption.
    unfold box_normals. destruct (Nat.testbit l d); field.
Qed.

Lemma cubes_hj phi s a e : cubes_ready phi s -> (e < 2)%nat -> 0 < a -> sumn 8 (fun l => corner_weight P s a e l) + 0 <> 0 /\ hj P s 0 a e = 1 / side e.
Proof.
  intros Hs He Ha. pose proof (side_pos e). destruct cubes_ok as (A1 & A2 & A3 & A4).
  assert (W : sumn 8 (fun l => corner_weight P s a e l) = 8 * (a * (3 / 2 * c * (side e * side e)))).
  { rewrite (sumn_ext 8 _ (fun _ => a * (3 / 2 * c * (side e * side e)))) by (intros; now apply (cubes_weight phi)). rewrite sumn_const. f_equal. cbn. lra. }
  assert (Wp : 0 < 8 * (a * (3 / 2 * c * (side e * side e)))).
  { assert (0 < side e * side e) by nra. assert (0 < c * (side e * side e)) by nra. assert (0 < a * (3 / 2 * c * (side e * side e))) by (apply Rmult_lt_0_compat; lra). lra. }
  split; [lra|]. unfold hj. change (v_nn P) with 8%nat. rewrite W.
  rewrite (sumn_ext 8 _ (fun _ => a * (3 / 2 * c * (side e * side e)) * (1 / side e))).
  - rewrite sumn_const. replace (INR 8) with 8 by (cbn; lra). set (q := a * (3 / 2 * c * (side e * side e))) in *. field. split; lra.
  - intros l Hl. rewrite (cubes_weight phi) by assumption. f_equal. unfold node_HJ. change (v_dims P) with 3%nat. rewrite A3. unfold cubes_nodes.
    rewrite (sumn_ext 3 _ (fun _ => 4 * (c * c) / side e)).
    + cbn [sumn]. replace (0 + 4 * (c * c) / side e + 4 * (c * c) / side e + 4 * (c * c) / side e) with (12 * (c * c) / side e) by (field; lra). now rewrite Hc2.
    + intros d Hd. destruct (proj2 Hs e l d He Hl Hd) as [-> ->]. unfold box_normals. destruct (Nat.testbit l d); field; lra.
Qed.

Lemma cubes_update phi s alpha dt mat : cubes_ready phi s -> (mat < num_mats L)%nat -> 0 <= sp mat -> (forall e, (e < 2)%nat -> 0 < l_phi s e) ->
  exists s', update_level_set P 0 alpha dt mat s = Some s' /\ like s s' /\
  (forall e, ~ in_mat P mat e -> l_phi s' e = l_phi s e) /\
  forall e, in_mat P mat e -> l_phi s' e = l_phi0 s e - front_move (sp mat) (signum P (l_phi s e) e) (1 / side e) alpha dt.
Proof.
  intros Hs Hm Hsp Hp. destruct cubes_ok as (A1 & A2 & A3 & A4).
  assert (Hr : forall e, in_mat P mat e -> (e < 2)%nat).
  { intros e He. apply in_mat_spec in He. destruct He as (sid & H1 & <-). apply (HL (mat, sid)). apply points_in. auto. }
  assert (Hsg : forall e, in_mat P mat e -> 0 < sp mat + signum P (l_phi s e) e /\ elem_fine P s 0 mat e (l_phi s e)).
  { intros e He. assert (Hv : 0 < v_vol P e) by (apply (lo_vol P A4); rewrite A2; now apply Hr). pose proof (Hp e (Hr e He)) as Hpe.
    destruct (signum_range P (l_phi s e) e Hv) as (S1 & S2 & S3). assert (Ha : 0 < sp mat + signum P (l_phi s e) e).
    { assert (0 <= signum P (l_phi s e) e) by (apply (Rmult_le_reg_l (l_phi s e)); [easy|]; lra).
      destruct (Req_dec (signum P (l_phi s e) e) 0) as [E0|E0]; [specialize (S3 E0); lra|lra]. }
    split; [exact Ha|]. split.
    - assert (0 < l_phi s e * l_phi s e + delta_x P e * delta_x P e) by nra. intros E. apply sqrt_eq_0 in E; lra.
    - apply (cubes_hj phi); [exact Hs|now apply Hr|exact Ha]. }
  destruct (elems_loop P 0 alpha dt mat (seq 0 (num_mat_elems L mat)) (mat_nodup P A4 mat Hm) s) as [H1 H2].
  destruct H2 as (s' & E); [intros e He; now apply Hsg|]. exists s'. split; [exact E|]. destruct (H1 s' E) as (B1 & B2 & B3). split; [easy|]. split; [exact B2|].
  intros e He. rewrite (proj2 (B3 e He)). unfold moved. cbv zeta. change (v_speed P mat) with (sp mat).
  destruct (cubes_hj phi s (sp mat + signum P (l_phi s e) e) e Hs (Hr e He) (proj1 (Hsg e He))) as [_ ->]. reflexivity.
Qed.
End Cubes.

Lemma update_keeps_cv P fuzz alpha dt mat s s' : update_level_set P fuzz alpha dt mat s = Some s' -> l_cv s' = l_cv s.
Proof.
  intros E. unfold update_level_set, for_up in E. refine (for_each_inv (fun t => l_cv t = l_cv s) _ _ _ s s' eq_refl E).
  intros a t t' _ Hs Et. unfold update_elem in Et. destruct (Req_EM_T _ 0); [easy|]. destruct (Req_EM_T _ 0); [easy|]. injection Et as <-. exact Hs.
Qed.

Definition c12 : R := / sqrt 12.
Lemma c12_pos : 0 < c12. Proof. apply Rinv_0_lt_compat, sqrt_lt_R0. lra. Qed.
Lemma c12_sq : 12 * (c12 * c12) = 1.
Proof. unfold c12. rewrite <- Rinv_mult. rewrite sqrt_sqrt by lra. lra. Qed.

Definition flat_state : lstate := mkLs (fun _ => c12) (fun _ => c12) (fun _ _ => 0) (fun _ _ => 0) (fun _ _ => 0) (fun _ => 0).

Lemma one_mat_ok ne : layout_ok ne (one_mat ne).
Proof. intros [mat sid] Hp. apply points_in in Hp. exact (proj2 Hp). Qed.

(** two materials that both fill the first cube *)
Definition both : layout := mkLayout 2 (fun _ => 1%nat) (fun _ _ => O).
Lemma both_ok : layout_ok 2 both.
Proof. intros [mat sid] _. cbn. lia. Qed.

Lemma flat_init L sp : l_phi (ls_rk_init (cubes L sp) flat_state) = l_phi flat_state /\ forall e, l_phi0 (ls_rk_init (cubes L sp) flat_state) e = c12.
Proof.
  destruct (init_outer (cubes L sp) (seq 0 (num_mats L)) flat_state) as (A1 & _ & _ & A4). split; [exact A1|]. intros e. destruct (proj1 (A4 e)) as [H|H]; exact H.
Qed.

(** a uniform field does not stay uniform, and changes although there is no front anywhere *)
Lemma uniform_witness dt small : 0 < dt -> exists s', ls_step (cubes (one_mat 2) (fun _ => 1)) [] 0 small 1 dt flat_state = Some s' /\
  l_phi s' 0%nat = c12 - dt /\ l_phi s' 1%nat <> l_phi s' 0%nat.
Proof.
  intros Hdt. set (P := cubes (one_mat 2) (fun _ => 1)).
  assert (HL : layout_ok 2 (one_mat 2)) by apply one_mat_ok.
  assert (HD : forall mat i j, (mat < num_mats (one_mat 2))%nat -> (i < num_mat_elems (one_mat 2) mat)%nat -> (j < num_mat_elems (one_mat 2) mat)%nat ->
    elem_in_mat (one_mat 2) mat i = elem_in_mat (one_mat 2) mat j -> i = j) by (intros mat i j _ _ _ H; exact H).
  destruct (flat_init (one_mat 2) (fun _ => 1)) as [I1 I2]. fold P in I1, I2.
  destruct (cubes_nodal (one_mat 2) (fun _ => 1) HL HD c12 c12_sq (ls_rk_init P flat_state)) as (s1 & E1 & B1 & B2 & B3).
  { intros e _. now rewrite I1. }
  fold P in E1, B3.
  destruct (cubes_update (one_mat 2) (fun _ => 1) HL HD c12 c12_pos c12_sq _ s1 1 dt 0 B3) as (s' & E2 & C1 & C2 & C3); [cbn; lia|lra|intros e _; rewrite B1, I1; apply c12_pos|].
  fold P in E2, C2, C3. exists s'.
  assert (Hi : forall e, (e < 2)%nat -> in_mat P 0 e) by (intros e He; apply in_mat_spec; exists e; split; [exact He|reflexivity]).
  split; [|split].
  - unfold ls_step, for_up. cbn [seq for_each]. unfold ls_stage. rewrite E1. cbn [obind].
    change (num_mats (v_L P)) with 1%nat. unfold for_up. cbn [seq for_each]. unfold evolving. cbn [v_type P cubes]. unfold boundary_velocity. cbn [for_each obind].
    replace (rk_alpha 1 0) with 1 by (unfold rk_alpha; cbn; lra). fold P. rewrite E2. reflexivity.
  - rewrite C3 by (apply Hi; lia). rewrite B2, I2. unfold front_move. cbn [side]. field.
  - rewrite !C3 by (apply Hi; lia). rewrite B2, !I2. unfold front_move. rewrite B1, I1. cbn [side flat_state l_phi].
    assert (Hv : 0 < v_vol P 1) by (cbn; lra). destruct (signum_range P c12 1 Hv) as ((S1 & S2) & _). set (g := signum P c12 1) in *. set (h := signum P c12 0). intros E.
    replace (1 * dt * (1 * (1 / 2) + g * (1 / 2 - 1))) with (dt * ((1 - g) / 2)) in E by field.
    replace (1 * dt * (1 * (1 / 1) + h * (1 / 1 - 1))) with (dt * 1) in E by field.
    assert (dt * ((1 - g) / 2) < dt * 1) by (apply Rmult_lt_compat_l; lra). lra.
Qed.

(** in an element with two evolving materials only the velocity of the second one counts *)
Lemma shared_witness dt small v0 v1 : 0 < dt < c12 -> 0 <= v0 <= 1 -> 0 <= v1 <= 1 ->
  exists s', ls_step (cubes both (fun mat => match mat with O => v0 | _ => v1 end)) [] 0 small 1 dt flat_state = Some s' /\ l_phi s' 0%nat = c12 - dt * v1.
Proof.
  intros Hdt Hv0 Hv1. set (sp := fun mat => match mat with O => v0 | _ => v1 end). set (P := cubes both sp).
  assert (HD : forall mat i j, (mat < num_mats both)%nat -> (i < num_mat_elems both mat)%nat -> (j < num_mat_elems both mat)%nat ->
    elem_in_mat both mat i = elem_in_mat both mat j -> i = j) by (cbn; intros; lia).
  destruct (flat_init both sp) as [I1 I2]. fold P in I1, I2.
  destruct (cubes_nodal both sp both_ok HD c12 c12_sq (ls_rk_init P flat_state)) as (s1 & E1 & B1 & B2 & B3).
  { intros e _. now rewrite I1. }
  fold P in E1, B3.
  destruct (cubes_update both sp both_ok HD c12 c12_pos c12_sq _ s1 1 dt 0 B3) as (s2 & E2 & C1 & C2 & C3); [cbn; lia|cbn; lra|intros e _; rewrite B1, I1; apply c12_pos|].
  fold P in E2, C2, C3.
  assert (B3' : cubes_ready both sp c12 (l_phi (ls_rk_init P flat_state)) s2).
  { destruct C1 as (D1 & D2 & D3 & D4). destruct B3 as [F1 F2]. split; [|intros e l d He Hl Hd; rewrite D2, D3; now apply F2].
    intros e l He Hl. destruct (F1 e l He Hl) as [G1 G2]. rewrite D4. split; [exact G1|].
    now rewrite (update_keeps_cv _ _ _ _ _ _ _ E2). }
  assert (Hi : forall k, in_mat P k 0) by (intros k; apply in_mat_spec; exists O; split; [cbn; lia|reflexivity]).
  assert (Hm : forall e, (e < 2)%nat -> 0 < l_phi s2 e).
  { intros e He. destruct e as [|[|e]]; [| |lia].
    - rewrite C3 by apply Hi. rewrite B2, I2. unfold front_move. cbn [side sp].
      replace (1 * dt * (v0 * (1 / 1) + signum P (l_phi s1 0%nat) 0 * (1 / 1 - 1))) with (dt * v0) by field. assert (dt * v0 <= dt * 1) by (apply Rmult_le_compat_l; lra). lra.
    - rewrite C2; [rewrite B1, I1; apply c12_pos|]. intros H. apply in_mat_spec in H. destruct H as (sid & _ & H). discriminate H. }
  destruct (cubes_update both sp both_ok HD c12 c12_pos c12_sq _ s2 1 dt 1 B3') as (s3 & E3 & G1 & G2 & G3); [cbn; lia|cbn; lra|exact Hm|].
  fold P in E3, G2, G3. exists s3. split.
  - unfold ls_step, for_up. cbn [seq for_each]. unfold ls_stage. rewrite E1. cbn [obind].
    change (num_mats (v_L P)) with 2%nat. unfold for_up. cbn [seq for_each]. unfold evolving. cbn [v_type P cubes]. unfold boundary_velocity. cbn [for_each obind].
    replace (rk_alpha 1 0) with 1 by (unfold rk_alpha; cbn; lra). fold P. rewrite E2. cbn [obind]. rewrite E3. reflexivity.
  - rewrite G3 by apply Hi. destruct C1 as (D1 & _). rewrite D1, B2, I2. unfold front_move. cbn [side sp]. field.
Qed.
