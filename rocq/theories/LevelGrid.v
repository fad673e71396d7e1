From Verif Require Import BaseReal BaseArr GeomModel GeomSpec GeomProofs SghModel SghSpec SghProofs SghExamples MarsModel MarsSpec MarsProofs ThermModel ThermProofs ThermFlow LevelModel LevelSpec LevelProofs LevelFlow.
Local Open Scope R_scope.

(** ** A stage runs whenever every node has volume around it *)

Section Runs.
Variable P : lset.
Hypothesis HP : lset_ok P.
Let m := v_mesh P.
Let L := v_L P.

Lemma for_each_runs {A S} (f : A -> S -> option S) l : (forall a s, In a l -> exists s', f a s = Some s') -> forall s, exists s', for_each l f s = Some s'.
Proof.
  induction l as [|a l IH]; intros H s; [exists s; reflexivity|]. destruct (H a s (or_introl eq_refl)) as (s1 & E1). cbn [for_each]. rewrite E1. cbn [obind].
  apply IH. intros b t Hb. apply H. now right.
Qed.

Lemma update_runs fuzz alpha dt mat s : 0 < fuzz -> (mat < num_mats L)%nat -> exists s', update_level_set P fuzz alpha dt mat s = Some s'.
Proof.
  intros Hf Hm. apply (elems_loop P fuzz alpha dt mat (seq 0 (num_mat_elems L mat)) (mat_nodup P HP mat Hm) s).
  intros e He. apply in_mat_spec in He. destruct He as (sid & Hs & <-).
  assert (Hr : (elem_in_mat L mat sid < num_elems m)%nat) by (apply (lo_layout P HP (mat, sid)); apply points_in; auto).
  split.
  - assert (Hd : 0 < delta_x P (elem_in_mat L mat sid)).
    { unfold delta_x. destruct (Nat.eqb (v_dims P) 3).
      - assert (0 < cbrt (v_vol P (elem_in_mat L mat sid))) by apply exp_pos. lra.
      - assert (0 < sqrt (v_vol P (elem_in_mat L mat sid))) by (apply sqrt_lt_R0; now apply (lo_vol P HP)). lra. }
    intros E. fold L in E. set (h := delta_x P (elem_in_mat L mat sid)) in *. set (p := l_phi s (elem_in_mat L mat sid)) in *.
    assert (0 < p * p + h * h) by nra. apply sqrt_eq_0 in E; lra.
  - assert (0 <= sumn (v_nn P) (fun l => corner_weight P s (v_speed P mat + signum P (l_phi s (elem_in_mat L mat sid)) (elem_in_mat L mat sid)) (elem_in_mat L mat sid) l))
      by (apply sumn_nonneg; intros; apply weight_nonneg). fold L. lra.
Qed.

Lemma stage_runs bcs fuzz small alpha dt s : 0 < fuzz -> 0 < small -> (forall n, (n < num_nodes m)%nat -> node_volume P n <> 0) ->
  exists s', ls_stage P bcs fuzz small alpha dt s = Some s'.
Proof.
  intros Hf Hs Hv. unfold ls_stage.
  destruct (proj2 (nodal_gradient_spec P HP fuzz s)) as (s1 & E1).
  { intros n Hn. split; [now apply Hv|]. pose proof (length_nonneg P (stored_gradient P (l_phi s) n)). lra. }
  rewrite E1. cbn [obind].
  destruct (for_each_runs (fun mat s => if evolving P mat then boundary_velocity P small bcs s else Some s) (seq 0 (num_mats L))) with (s := s1) as (s2 & E2).
  { intros mat t _. destruct (evolving P mat); [|eauto]. apply for_each_runs. intros b t' _. apply for_each_runs. intros n t'' _. unfold bdy_node.
    assert (0 <= mag (v_dims P) (vs_fn b n (l_vel t'' n))) by apply sqrt_pos. destruct (Req_EM_T _ 0); [lra|eauto]. }
  unfold for_up. fold L. rewrite E2. cbn [obind]. apply for_each_runs. intros mat t Hm. apply in_seq in Hm.
  destruct (evolving P mat); [|eauto]. apply update_runs; [easy|exact (proj2 Hm)].
Qed.

Lemma step_runs bcs fuzz small N dt s : 0 < fuzz -> 0 < small -> (forall n, (n < num_nodes m)%nat -> node_volume P n <> 0) ->
  exists s', ls_step P bcs fuzz small N dt s = Some s'.
Proof. intros Hf Hs Hv. apply for_each_runs. intros k t _. now apply stage_runs. Qed.

Lemma run_runs fuzz small N cycles s : 0 < fuzz -> 0 < small -> (forall n, (n < num_nodes m)%nat -> node_volume P n <> 0) ->
  exists s', ls_run P fuzz small N cycles s = Some s'.
Proof. intros Hf Hs Hv. apply for_each_runs. intros [dt bcs] t _. now apply step_runs. Qed.
End Runs.

(** ** Order of the parallel loops *)

Section Order.
Variable P : lset.
Hypothesis HP : lset_ok P.

Lemma update_any_order fuzz alpha dt mat order s s' : (mat < num_mats (v_L P))%nat -> Permutation order (seq 0 (num_mat_elems (v_L P) mat)) ->
  update_level_set P fuzz alpha dt mat s = Some s' -> exists t,
  for_each order (fun sid => update_elem P fuzz alpha dt mat (elem_in_mat (v_L P) mat sid)) s = Some t /\
  l_phi0 t = l_phi0 s' /\ l_grad t = l_grad s' /\ l_vel t = l_vel s' /\ l_cn t = l_cn s' /\ forall e, l_phi t e = l_phi s' e.
Proof.
  intros Hm Hp E. pose proof (mat_nodup P HP mat Hm) as Hd.
  assert (Hpm : Permutation (map (elem_in_mat (v_L P) mat) order) (map (elem_in_mat (v_L P) mat) (seq 0 (num_mat_elems (v_L P) mat)))) by now apply Permutation_map.
  destruct (update_level_set_spec P HP fuzz alpha dt mat s s' Hm E) as (A1 & A2 & A3).
  destruct (elems_loop P fuzz alpha dt mat order (Permutation_NoDup (Permutation_sym Hpm) Hd) s) as [H1 H2].
  destruct H2 as (t & Et).
  { intros e He. apply A3. exact (Permutation_in _ Hpm He). }
  exists t. split; [exact Et|]. destruct (H1 t Et) as (B1 & B2 & B3). destruct A1 as (C1 & C2 & C3 & C4). destruct B1 as (D1 & D2 & D3 & D4).
  do 4 (split; [congruence|]). intros e. destruct (in_mat_dec P mat e) as [Hi|Hi].
  - rewrite (proj2 (A3 e Hi)). apply B3. exact (Permutation_in _ (Permutation_sym Hpm) Hi).
  - rewrite (A2 e Hi). apply B2. intros H. apply Hi. exact (Permutation_in _ Hpm H).
Qed.

Lemma gradient_any_order fuzz order s s' : Permutation order (seq 0 (num_nodes (v_mesh P))) -> nodal_gradient P fuzz s = Some s' -> exists t,
  for_each order (node_gradient P fuzz) (corner_loop P s) = Some t /\ l_phi t = l_phi s' /\ l_phi0 t = l_phi0 s' /\
  forall n d, (n < num_nodes (v_mesh P))%nat -> l_grad t n d = l_grad s' n d /\ l_vel t n d = l_vel s' n d.
Proof.
  intros Hp E. destruct (corner_loop_spec P HP s) as (A1 & A2 & A3 & A4 & A5).
  destruct (proj1 (nodal_gradient_spec P HP fuzz s) s' E) as (F & B1 & B2 & B3 & B4).
  destruct (nodes_loop P HP fuzz order (corner_loop P s) A5) as [H1 H2]. cbv zeta in A1, A2. rewrite A1 in H1, H2.
  destruct H2 as (t & Et).
  { intros n Hn. apply F. apply (Permutation_in _ Hp) in Hn. apply in_seq in Hn. lia. }
  exists t. split; [exact Et|]. destruct (H1 t Et) as (_ & C1 & C2 & _ & _ & _ & C3). split; [congruence|]. split; [congruence|].
  intros n d Hn. assert (Hi : In n order) by (apply (Permutation_in _ (Permutation_sym Hp)), in_seq; lia).
  destruct (C3 n Hi d) as [-> ->]. destruct (B4 n Hn d) as [-> ->]. easy.
Qed.
End Order.

(** ** Meshes from the connectivity routine *)

Lemma built_ring nnodes ne nn nodes mesh el : table_in_range nnodes ne nn nodes -> build_corners nnodes ne nn nodes = Some mesh -> build_elems nnodes ne nn nodes = Some el ->
  num_nodes mesh = nnodes /\ num_elems mesh = ne /\ nodes_in mesh = nodes /\ corners_ok nn mesh /\
  forall dims L x vol ty sp, (if Nat.eqb dims 3 then 8 else 4)%nat = nn -> ring_ok (mkLset dims mesh el L x vol ty sp).
Proof.
  intros Hr E1 E2. destruct (build_corners_spec nnodes ne nn nodes Hr) as (mesh0 & E0 & Hok & En & Ee & Ei & _). rewrite E1 in E0. injection E0 as <-.
  destruct (build_corners_some nnodes ne nn nodes Hr) as (mesh' & E1' & _ & _ & _ & Hce & Hc). rewrite E1 in E1'. injection E1' as <-.
  destruct (build_elems_some nnodes ne nn nodes Hr) as (el0 & E2' & Hel). rewrite E2 in E2'. injection E2' as <-.
  repeat (split; [assumption|]). intros dims L x vol ty sp Hnn n. unfold v_nn. cbn [v_mesh v_elems v_dims].
  exists (filter (fun p => Nat.eqb (nodes (fst p) (snd p)) n) (elem_corners ne nn)).
  split; [apply NoDup_filter, elem_corners_nodup|]. split; [|split].
  - intros e l. rewrite filter_In, elem_corners_in, Ee, Ei, Nat.eqb_eq. cbn [fst snd]. rewrite Hnn. tauto.
  - rewrite Hc. apply map_ext_in. intros [e l] Hp. apply filter_In in Hp. destruct Hp as [Hp _]. apply elem_corners_in in Hp. cbn [fst snd]. symmetry. apply Hce; tauto.
  - apply Hel.
Qed.

(** ** Interior nodes of a rectilinear grid *)

Section Grid.
Variable P : lset.
Hypothesis HP : lset_ok P.
Variables (n : nat) (E : nat -> nat) (X lo hi : nat -> R).
Hypothesis HG : grid_node P n E X lo hi.

Lemma grid_sum f : at_node_sum P n f = sumn 8 (fun k => f (E k) (7 - k)%nat).
Proof.
  rewrite <- suml_seq. rewrite <- (suml_map (fun p => f (fst p) (snd p)) (fun k => (E k, (7 - k)%nat))). symmetry.
  assert (Hnn : v_nn P = 8%nat) by (unfold v_nn; now rewrite (gn_dims _ _ _ _ _ _ HG)).
  apply pairs_sum.
  - apply MeshIndexProofs.NoDup_map_in; [apply seq_NoDup|]. intros j k Hj Hk Ee. apply in_seq in Hj, Hk. injection Ee as Ee _. apply (gn_inj _ _ _ _ _ _ HG); [lia|lia|easy].
  - intros e l. rewrite Hnn, in_map_iff. split.
    + intros (k & Ek & Hk). apply in_seq in Hk. pose proof (f_equal fst Ek) as Ek1. pose proof (f_equal snd Ek) as Ek2. cbn [fst snd] in Ek1, Ek2. subst e l. clear Ek. assert (Ek : (E k < num_elems (v_mesh P))%nat) by (apply (gn_elems _ _ _ _ _ _ HG); lia).
      split; [easy|]. split; [lia|]. apply (gn_around _ _ _ _ _ _ HG); [easy|lia|]. exists k. split; [lia|]. auto.
    + intros (He & Hl & Hn). apply (gn_around _ _ _ _ _ _ HG e l He Hl) in Hn. destruct Hn as (k & Hk & -> & ->). exists k. split; [easy|]. apply in_seq. lia.
Qed.

Definition others (k d : nat) : R :=
  let s c := if Nat.testbit k c then hi c else lo c in
  match d with O => s 1%nat * s 2%nat | 1%nat => s 0%nat * s 2%nat | _ => s 0%nat * s 1%nat end.

Lemma grid_normal k d : (k < 8)%nat -> (d < 3)%nat -> area_normal P (E k) (7 - k) d = (if Nat.testbit k d then -1 else 1) * (others k d / 4).
Proof.
  intros Hk Hd. unfold area_normal. rewrite (gn_dims _ _ _ _ _ _ HG). cbn [Nat.eqb]. unfold elem_bmat.
  rewrite (bmat_ext _ _ _ (fun l => box_around X lo hi k l 0) (fun l => box_around X lo hi k l 1) (fun l => box_around X lo hi k l 2)); [|intros i Hi|lia|easy].
  - destruct d as [|[|[|d]]]; [| | |lia];
    (do 8 (destruct k as [|k]; [unfold others, box_around, bmat, bmat0, bmat1, bmat2, twelth; cbn [Nat.sub Nat.testbit Nat.odd Nat.even Nat.div2 negb]; field|])); lia.
  - unfold gather. rewrite !(gn_coords _ _ _ _ _ _ HG) by (assumption || lia). auto.
Qed.

Lemma grid_volume : node_volume P n = (lo 0%nat + hi 0%nat) * (lo 1%nat + hi 1%nat) * (lo 2%nat + hi 2%nat) / 8.
Proof.
  unfold node_volume. rewrite grid_sum. unfold elem_size. rewrite (gn_dims _ _ _ _ _ _ HG). cbn [Nat.eqb].
  unfold v_nn. rewrite (gn_dims _ _ _ _ _ _ HG). cbn [Nat.eqb].
  rewrite (sumn_ext 8 _ (fun k => box_volume lo hi k / 8)).
  - unfold box_volume. cbn [sumn Nat.testbit Nat.odd Nat.even Nat.div2 negb]. field.
  - intros k Hk. rewrite (gn_vol _ _ _ _ _ _ HG k Hk). f_equal. cbn. lra.
Qed.

Lemma grid_gradient phi a g d : linear_around phi E X lo hi a g -> (d < 3)%nat -> stored_gradient P phi n d = - g d.
Proof.
  intros Hlin Hd. unfold stored_gradient. rewrite grid_sum, grid_volume.
  rewrite (sumn_ext 8 _ (fun k => (if Nat.testbit k d then -1 else 1) * (others k d / 4) * (a + sumn 3 (fun c => g c * box_centre X lo hi k c)))).
  2: { intros k Hk. rewrite (grid_normal k d Hk Hd), (Hlin k Hk). reflexivity. }
  destruct (gn_sizes _ _ _ _ _ _ HG 0%nat) as [A0 B0]. destruct (gn_sizes _ _ _ _ _ _ HG 1%nat) as [A1 B1]. destruct (gn_sizes _ _ _ _ _ _ HG 2%nat) as [A2 B2].
  destruct d as [|[|[|d]]]; [| | |lia]; unfold others, box_centre; cbn [sumn Nat.testbit Nat.odd Nat.even Nat.div2 negb]; field; lra.
Qed.

(** the same for a uniform field: zero at interior nodes *)
Lemma grid_uniform phi c d : (forall k, (k < 8)%nat -> phi (E k) = c) -> (d < 3)%nat -> stored_gradient P phi n d = 0.
Proof.
  intros Hc Hd. rewrite (grid_gradient phi c (fun _ => 0)); [ring| |exact Hd]. intros k Hk. rewrite (Hc k Hk). cbn [sumn]. ring.
Qed.
End Grid.

(** ** Example: 2 x 2 x 2 unit cells *)

Definition grid2_nodes (e l : nat) : nat := ((e mod 2 + l mod 2) + 3 * ((e / 2) mod 2 + (l / 2) mod 2) + 9 * (e / 4 + l / 4))%nat.
Definition grid2_x (n d : nat) : R := match d with O => INR (n mod 3) | 1%nat => INR ((n / 3) mod 3) | _ => INR (n / 9) end.
Definition no_mesh : mesh3 := mkMesh3 0 0 (fun _ _ => O) (fun _ _ => O) (fun _ => []).
Definition mesh_of (nnodes ne : nat) nodes : mesh3 := match build_corners nnodes ne 8 nodes with Some x => x | None => no_mesh end.
Definition elems_of (nnodes ne : nat) nodes : nat -> list nat := match build_elems nnodes ne 8 nodes with Some x => x | None => fun _ => [] end.
Definition one_mat (ne : nat) : layout := mkLayout 1 (fun _ => ne) (fun _ sid => sid).

Lemma mesh_of_ok nnodes ne nodes L x vol ty sp : table_in_range nnodes ne 8 nodes -> layout_ok ne L ->
  (forall mat i j, (mat < num_mats L)%nat -> (i < num_mat_elems L mat)%nat -> (j < num_mat_elems L mat)%nat -> elem_in_mat L mat i = elem_in_mat L mat j -> i = j) ->
  (forall e, (e < ne)%nat -> 0 < vol e) ->
  num_nodes (mesh_of nnodes ne nodes) = nnodes /\ num_elems (mesh_of nnodes ne nodes) = ne /\ nodes_in (mesh_of nnodes ne nodes) = nodes /\
  lset_ok (mkLset 3 (mesh_of nnodes ne nodes) (elems_of nnodes ne nodes) L x vol ty sp).
Proof.
  intros Hr HL Hd Hv. unfold mesh_of, elems_of.
  destruct (build_corners_spec nnodes ne 8 nodes Hr) as (mesh & E1 & _). destruct (build_elems_some nnodes ne 8 nodes Hr) as (el & E2 & _).
  destruct (built_ring nnodes ne 8 nodes mesh el Hr E1 E2) as (A1 & A2 & A3 & A4 & A5). rewrite E1, E2.
  split; [easy|]. split; [easy|]. split; [easy|]. constructor; unfold v_nn; cbn [v_dims v_mesh v_L v_vol Nat.eqb]; [now right|exact A4|now apply A5|now rewrite A2|exact Hd|now rewrite A2].
Qed.

Definition grid2 (ty : nat -> ls_type) (sp : nat -> R) : lset :=
  mkLset 3 (mesh_of 27 8 grid2_nodes) (elems_of 27 8 grid2_nodes) (one_mat 8) grid2_x (fun _ => 1) ty sp.

Lemma grid2_range : table_in_range 27 8 8 grid2_nodes.
Proof.
  intros e l He Hl. do 8 (destruct e as [|e]; [do 8 (destruct l as [|l]; [cbn; lia|]); lia|]). lia.
Qed.

Lemma grid2_ok ty sp : num_nodes (v_mesh (grid2 ty sp)) = 27%nat /\ num_elems (v_mesh (grid2 ty sp)) = 8%nat /\ nodes_in (v_mesh (grid2 ty sp)) = grid2_nodes /\ lset_ok (grid2 ty sp).
Proof.
  apply mesh_of_ok; [apply grid2_range| |intros mat i j _ _ _ H; exact H|intros; lra].
  intros [mat sid] Hp. apply points_in in Hp. exact (proj2 Hp).
Qed.

Lemma grid2_centre ty sp : grid_node (grid2 ty sp) 13 (fun k => k) (fun _ => 1) (fun _ => 1) (fun _ => 1).
Proof.
  destruct (grid2_ok ty sp) as (A1 & A2 & A3 & A4). constructor.
  - reflexivity.
  - intros; lra.
  - intros k Hk. rewrite A2. exact Hk.
  - easy.
  - intros e l He Hl. rewrite A2 in He. rewrite A3. split.
    + intros H. do 8 (destruct e as [|e]; [do 8 (destruct l as [|l]; [first [discriminate H|match goal with |- exists k, (k < 8)%nat /\ ?a = k /\ _ => exists a end; split; [lia|split; reflexivity]]|]); lia|]). lia.
    + intros (k & Hk & -> & ->). do 8 (destruct k as [|k]; [reflexivity|]). lia.
  - intros k l d Hk Hl Hd. rewrite A3. cbn [v_x grid2].
    destruct d as [|[|[|d]]]; [| | |lia];
    (do 8 (destruct k as [|k]; [do 8 (destruct l as [|l]; [unfold grid2_x, box_around; cbn; lra|]); lia|])); lia.
  - intros k Hk. unfold box_volume. cbn [v_vol grid2]. destruct (Nat.testbit k 0), (Nat.testbit k 1), (Nat.testbit k 2); ring.
Qed.
