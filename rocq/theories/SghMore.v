(** Further lemmas on the 3D staggered-grid solver: meshes built by the connectivity routine, momentum with a nearly
    balanced artificial viscosity, single stages, rigid motions. *)
From Coq Require Import Reals Lra Lia List Arith Permutation.
Import ListNotations.
From Verif Require Import BaseReal BaseArr GeomModel GeomSpec GeomProofs SghModel SghSpec SghProofs.
Local Open Scope R_scope.

Lemma count_in_range nnodes (nodes : nat -> nat -> nat) (l : list (nat * nat)) cnt cnt' :
  for_each l (fun '(e, l) cnt => if Nat.ltb (nodes e l) nnodes
                 then Some (fupd cnt (nodes e l) (cnt (nodes e l) + 1)%nat) else None) cnt = Some cnt' ->
  forall e k, In (e, k) l -> (nodes e k < nnodes)%nat.
Proof.
  revert cnt. induction l as [|[e k] l IH]; intros cnt H e' k' Hin; [easy|]. cbn [for_each obind] in H.
  destruct (Nat.ltb_spec (nodes e k) nnodes) as [Hlt|]; [|discriminate]. cbn [obind] in H.
  destruct Hin as [[= -> ->]|Hin]; [exact Hlt|]. exact (IH _ H e' k' Hin).
Qed.

Lemma build_corners_ok nnodes ne nn nodes m : build_corners nnodes ne nn nodes = Some m ->
  corners_ok nn m /\ num_nodes m = nnodes /\ num_elems m = ne /\ nodes_in m = nodes /\
  (forall e k, (e < ne)%nat -> (k < nn)%nat -> corners_in_elem m e k = (e * nn + k)%nat).
Proof.
  intros H. assert (Hr : table_in_range nnodes ne nn nodes).
  { intros e l He Hl. unfold build_corners in H. destruct (count_corners nnodes ne nn nodes) as [st|] eqn:E; [|discriminate].
    apply (count_in_range nnodes nodes _ _ _ E). apply elem_corners_in. auto. }
  destruct (build_corners_spec nnodes ne nn nodes Hr) as (m' & E & H1 & H2 & H3 & H4 & H5).
  rewrite E in H. injection H as <-. auto.
Qed.

Lemma build_corners_iff nnodes ne nn nodes :
  (exists m, build_corners nnodes ne nn nodes = Some m) <-> table_in_range nnodes ne nn nodes.
Proof.
  split.
  - intros (m & H). destruct (build_corners_ok _ _ _ _ _ H) as (A & <- & <- & <- & _). exact (ok_range _ _ A).
  - intros H. destruct (build_corners_spec nnodes ne nn nodes H) as (m & E & _). eauto.
Qed.

(** *** nearly balanced forces *)

Section Nearly.
Variables (m : mesh3) (L : layout) (M : models).
Hypothesis (Hok : corners_ok 8 m) (HL : layout_ok (num_elems m) L).

Lemma contribution_net s p d : sumn 8 (fun l => contribution m L M s p l d) =
  if s_eroded s (fst p) (snd p) then 0 else s_volfrac s (fst p) (snd p) * s_geo s (fst p) (snd p) * net_dissipation M s p d.
Proof.
  unfold contribution, net_dissipation. destruct (s_eroded s (fst p) (snd p)); [apply sumn_0|].
  rewrite sumn_scal, sumn_minus.
  rewrite (sumn_exchange 8 3 (fun l k => elem_bmat m (s_x s) (point_elem L p) l k * cauchy M s p k d)).
  rewrite (sumn_ext 3 _ (fun _ => 0)); [rewrite sumn_0; ring|].
  intros k _. rewrite sumn_scal_r. unfold elem_bmat. rewrite bmat_closure. ring.
Qed.

Lemma forces_nearly s e d eps : (e < num_elems m)%nat -> (d < 3)%nat ->
  (forall t f p, In p (points L) -> Rabs (net_dissipation M (set_stress t (set_cforce f s)) p d) <= eps p) ->
  Rabs (sumn 8 (fun l => s_cforce (forces_and_stress m L M s) (corners_in_elem m e l) d)) <=
  suml (fun p => if Nat.eqb (point_elem L p) e then Rabs (s_volfrac s (fst p) (snd p) * s_geo s (fst p) (snd p)) * eps p else 0) (points L).
Proof.
  intros He Hd HM.
  assert (Heps : forall p, In p (points L) -> 0 <= Rabs (s_volfrac s (fst p) (snd p) * s_geo s (fst p) (snd p)) * eps p).
  { intros p Hp. apply Rmult_le_pos; [apply Rabs_pos|]. eapply Rle_trans; [apply Rabs_pos|apply (HM (s_stress s) (s_cforce s, s_mcforce s) p Hp)]. }
  destruct (forces_ind m L M (fun done st => Rabs (sumn 8 (fun l => fst st (corners_in_elem m e l) d)) <=
    suml (fun p => if Nat.eqb (point_elem L p) e then Rabs (s_volfrac s (fst p) (snd p) * s_geo s (fst p) (snd p)) * eps p else 0) done) s)
    as (t & f & E & HP).
  - cbn [fst]. rewrite sumn_0, Rabs_R0. apply Rle_refl.
  - intros done mat sid rest st t f E Ht IH. assert (Hin := split_in L _ _ _ E). assert (Hp := HL _ Hin).
    unfold point_elem in Hp. cbn [fst snd] in Hp.
    rewrite suml_app, suml_cons. change (suml _ []) with 0. unfold point_elem at 2. cbn [fst snd].
    set (s' := set_stress t (set_cforce f s)). destruct (Nat.eq_dec e (elem_in_mat L mat sid)) as [->|Hne].
    + rewrite Nat.eqb_refl.
      rewrite (sumn_ext 8 _ _ (fun l Hl => elem_force_cf_in m L M Hok s' mat sid st l d Hp Hl Hd)).
      assert (Hn := HM t f _ Hin). fold s' in Hn. cbn [fst snd] in Hn.
      assert (Hge := Heps _ Hin). cbn [fst snd] in Hge.
      assert (C := contribution_net s' (mat, sid) d). cbn [fst snd] in C. destruct (s_eroded s' mat sid) eqn:Er.
      * rewrite sumn_0, Rabs_R0. assert (0 <= suml (fun p => if Nat.eqb (point_elem L p) (elem_in_mat L mat sid) then Rabs (s_volfrac s (fst p) (snd p) * s_geo s (fst p) (snd p)) * eps p else 0) done).
        { eapply Rle_trans; [apply Rabs_pos|exact IH]. } lra.
      * rewrite sumn_plus. rewrite (sumn_ext 8 _ _ (fun l _ => value_contribution m L M s' mat sid l d)), C.
        eapply Rle_trans; [apply Rabs_triang|]. apply Rplus_le_compat; [exact IH|]. rewrite Rplus_0_r.
        rewrite Rabs_mult. apply Rmult_le_compat_l; [apply Rabs_pos|exact Hn].
    + rewrite (proj2 (Nat.eqb_neq _ _)) by auto. rewrite !Rplus_0_r.
      rewrite (sumn_ext 8 _ (fun l => fst st (corners_in_elem m e l) d)); [exact IH|]. intros l Hl. now apply elem_force_cf_out.
  - rewrite E. exact HP.
Qed.

Lemma sumn_abs n f : Rabs (sumn n f) <= sumn n (fun i => Rabs (f i)).
Proof.
  induction n as [|n IH]; cbn [sumn]; [rewrite Rabs_R0; lra|]. eapply Rle_trans; [apply Rabs_triang|]. lra.
Qed.

Lemma points_by_elem (g : nat * nat -> R) :
  sumn (num_elems m) (fun e => suml (fun p => if Nat.eqb (point_elem L p) e then g p else 0) (points L)) = suml g (points L).
Proof.
  rewrite <- (suml_by_key g (point_elem L) (num_elems m) (points L)) by (intros; now apply HL).
  apply sumn_ext. intros e _. now rewrite suml_filter.
Qed.

Lemma internal_nearly alpha dt s d eps : (d < 3)%nat ->
  (forall s' p, s_v s' = s_v s -> s_x s' = s_x s -> s_den s' = s_den s -> s_sspd s' = s_sspd s -> s_vol s' = s_vol s ->
     s_velgrad s' = get_velgrad m (s_x s) (s_v s) (s_vol s) -> In p (points L) -> Rabs (net_dissipation M s' p d) <= eps p) ->
  Rabs (sumn (num_nodes m) (fun n => internal_force m (rk_stage m L M alpha dt s) n d)) <=
  suml (fun p => Rabs (s_volfrac s (fst p) (snd p) * s_geo s (fst p) (snd p)) * eps p) (points L).
Proof.
  intros Hd HM. unfold internal_force.
  rewrite (node_corner_sum 8 m (fun _ c => s_cforce (rk_stage m L M alpha dt s) c d) Hok).
  eapply Rle_trans; [apply sumn_abs|]. rewrite <- points_by_elem. apply sumn_le. intros e He.
  rewrite (sf_cforce _ _ _ _ _ _ _ (stage_spec m L M alpha dt s)).
  eapply Rle_trans; [apply (forces_nearly (before_forces m s) e d eps He Hd)|].
  - intros t f p Hp. apply HM; try reflexivity. exact Hp.
  - apply Rle_refl.
Qed.

Lemma stage_momentum_nearly alpha dt s d F eps : (d < 3)%nat -> nodes_have_mass m s ->
  (forall s' p, s_v s' = s_v s -> s_x s' = s_x s -> s_den s' = s_den s -> s_sspd s' = s_sspd s -> s_vol s' = s_vol s ->
     s_velgrad s' = get_velgrad m (s_x s) (s_v s) (s_vol s) -> In p (points L) -> Rabs (net_dissipation M s' p d) <= eps p) ->
  (forall s' n, bdy_velocity M s' n d = s_v s' n d) ->
  (forall s' n, external_force M s' n d = F n) ->
  Rabs (momentum m (rk_stage m L M alpha dt s) d - (momentum_start m s d + alpha * dt * sumn (num_nodes m) F)) <=
  Rabs (alpha * dt) * suml (fun p => Rabs (s_volfrac s (fst p) (snd p) * s_geo s (fst p) (snd p)) * eps p) (points L).
Proof.
  intros Hd Hm HD HB HF. assert (Hf := stage_spec m L M alpha dt s).
  destruct (sf_v _ _ _ _ _ _ _ Hf) as (s4 & E4 & _ & s3 & E3). destruct (sf_const _ _ _ _ _ _ _ Hf) as (_ & _ & Em & _).
  assert (G : momentum m (rk_stage m L M alpha dt s) d =
    momentum_start m s d + alpha * dt * (sumn (num_nodes m) F + sumn (num_nodes m) (fun n => internal_force m (rk_stage m L M alpha dt s) n d))).
  { unfold momentum, momentum_start. rewrite <- sumn_plus, <- sumn_scal, <- sumn_plus. apply sumn_ext.
    intros n Hn. rewrite E4, HB, E3, Em, HF. field. now apply Hm. }
  rewrite G. match goal with |- Rabs ?a <= _ => replace a with (alpha * dt * sumn (num_nodes m) (fun n => internal_force m (rk_stage m L M alpha dt s) n d)) by ring end.
  rewrite Rabs_mult. apply Rmult_le_compat_l; [apply Rabs_pos|]. now apply internal_nearly.
Qed.

Lemma stage_momentum alpha dt s d F : (d < 3)%nat -> nodes_have_mass m s -> dissipation_balanced M ->
  (forall s' n, bdy_velocity M s' n d = s_v s' n d) ->
  (forall s' n, external_force M s' n d = F n) ->
  momentum m (rk_stage m L M alpha dt s) d = momentum_start m s d + alpha * dt * sumn (num_nodes m) F.
Proof.
  intros Hd Hm HD HB HF. assert (H := stage_momentum_nearly alpha dt s d F (fun _ => 0) Hd Hm).
  rewrite (suml_ext _ (fun _ => 0)), suml_0, Rmult_0_r in H by (intros; ring).
  assert (Z : forall x, Rabs x <= 0 -> x = 0) by (intros x Hx; destruct (Req_dec x 0) as [E|E]; [exact E|apply Rabs_pos_lt in E; lra]).
  apply Rminus_diag_uniq, Z, H; auto. intros. unfold net_dissipation. rewrite HD, Rabs_R0. lra.
Qed.
End Nearly.

(** *** stages *)

Lemma rk_alpha_val N k : (k < N)%nat -> rk_alpha N k = / INR (N - k).
Proof. intros H. unfold rk_alpha. rewrite minus_INR by lia. unfold Rdiv. ring. Qed.

Lemma stage_k m L Ms N dt s k : (k < N)%nat ->
  let t := after_stages m L Ms N dt s (S k) in
  (forall n d, s_x t n d = s_x s n d + dt / INR (N - k) * ((s_v t n d + s_v s n d) / 2)) /\
  (exists s4 s3, forall n d, s_v t n d = bdy_velocity (Ms k) s4 n d /\
     s_v s4 n d = s_v s n d + dt / INR (N - k) * (external_force (Ms k) s3 n d + internal_force m t n d) / s_nmass s n) /\
  (forall p, In p (points L) -> s_sie t (fst p) (snd p) = s_sie s (fst p) (snd p) - dt / INR (N - k) / (s_mass s (fst p) (snd p) + 1e-20) *
      sumn 8 (fun l => sumn 3 (fun d => s_mcforce t (fst p) (corner_in_mat (snd p) l) d *
         ((s_v t (nodes_in m (point_elem L p) l) d + s_v s (nodes_in m (point_elem L p) l) d) / 2)))).
Proof.
  intros Hk. cbv zeta. unfold after_stages. rewrite seq_S, fold_left_app. cbn [Nat.add fold_left].
  assert (Hs := stages_start m L Ms N dt s k). revert Hs.
  generalize (fold_left (fun s k => rk_stage m L (Ms k) (rk_alpha N k) dt s) (seq 0 k) (set_start s)).
  intros s' Hs. set (t := rk_stage m L (Ms k) (rk_alpha N k) dt s'). assert (Hf := stage_spec m L (Ms k) (rk_alpha N k) dt s'). fold t in Hf.
  destruct Hs as (Ex & Ev & Ee & _ & En & Em & _). rewrite (rk_alpha_val N k Hk) in Hf.
  assert (HN : INR (N - k) <> 0) by (apply not_0_INR; lia).
  split; [|split].
  - intros n d. rewrite (sf_x _ _ _ _ _ _ _ Hf), Ex, Ev. field. exact HN.
  - destruct (sf_v _ _ _ _ _ _ _ Hf) as (s4 & E4 & _ & s3 & E3). exists s4, s3. intros n d. rewrite E4, E3, Ev, En.
    split; [reflexivity|]. unfold Rdiv. ring.
  - intros p Hp. rewrite (sf_sie _ _ _ _ _ _ _ Hf p Hp), Ee, Em, Ev. f_equal. f_equal; [unfold Rdiv; ring|].
    apply sumn_ext. intros l _. apply sumn_ext. intros d _. field.
Qed.

Lemma alphas N k : (k < N)%nat -> rk_alpha N k = 1 / INR (N - k) /\ 0 < rk_alpha N k <= 1 /\ (S k = N -> rk_alpha N k = 1) /\
  ((S k < N)%nat -> rk_alpha N k < rk_alpha N (S k)).
Proof.
  intros H. rewrite rk_alpha_val by auto. assert (H1 : 1 <= INR (N - k)) by (apply (le_INR 1); lia).
  split; [unfold Rdiv; ring|]. split; [|split].
  - split; [apply Rinv_0_lt_compat; lra|]. rewrite <- Rinv_1. apply Rinv_le_contravar; lra.
  - intros <-. replace (S k - k)%nat with 1%nat by lia. apply Rinv_1.
  - intros Hk. rewrite rk_alpha_val by auto. apply Rinv_lt_contravar.
    + apply Rmult_lt_0_compat; apply lt_0_INR; lia.
    + apply lt_INR. lia.
Qed.

(** the node force of the last stage drives a free node over the whole step *)
Lemma constant_force m L Ms N dt s n d F : (1 <= N)%nat ->
  (forall s', bdy_velocity (Ms (N - 1)%nat) s' n d = s_v s' n d) ->
  s_nforce (rk_step m L Ms N dt s) n d = F ->
  s_v (rk_step m L Ms N dt s) n d = s_v s n d + dt * F / s_nmass s n /\
  s_x (rk_step m L Ms N dt s) n d = s_x s n d + dt * s_v s n d + / 2 * (dt * dt) * F / s_nmass s n.
Proof.
  intros HN HB HF. assert (Hk : (N - 1 < N)%nat) by lia.
  destruct (stage_k m L Ms N dt s (N - 1) Hk) as (A & _).
  assert (E : after_stages m L Ms N dt s (S (N - 1)) = rk_step m L Ms N dt s).
  { unfold after_stages, rk_step. now replace (S (N - 1)) with N by lia. }
  rewrite E in A. replace (N - (N - 1))%nat with 1%nat in A by lia. change (INR 1) with 1 in A.
  destruct (step_last m L Ms N dt s HN) as (s' & (_ & Ev & _ & _ & En & _) & E' & _).
  assert (V : s_v (rk_step m L Ms N dt s) n d = s_v s n d + dt * F / s_nmass s n).
  { rewrite <- HF, E'. destruct (sf_free _ _ _ _ _ _ _ (stage_spec m L (Ms (N - 1)%nat) 1 dt s')) as (s4 & B1 & B2).
    rewrite B1, HB, B2, Ev, En. unfold Rdiv. ring. }
  split; [exact V|]. rewrite A, V. unfold Rdiv. rewrite Rinv_1. generalize (/ s_nmass s n). intros i. field.
Qed.

(** free flight: no material, no external force *)
Lemma free_flight m L Ms N dt s n d : (1 <= N)%nat -> num_mats L = 0%nat ->
  (forall s', bdy_velocity (Ms (N - 1)%nat) s' n d = s_v s' n d) ->
  (forall s', external_force (Ms (N - 1)%nat) s' n d = 0) ->
  s_v (rk_step m L Ms N dt s) n d = s_v s n d /\ s_x (rk_step m L Ms N dt s) n d = s_x s n d + dt * s_v s n d.
Proof.
  intros HN HL HB HF. destruct (constant_force m L Ms N dt s n d 0 HN HB) as [A B].
  - destruct (step_last m L Ms N dt s HN) as (s' & _ & E' & _). rewrite E'.
    assert (Hf := stage_spec m L (Ms (N - 1)%nat) 1 dt s').
    destruct (sf_nforce _ _ _ _ _ _ _ Hf) as (s3 & _ & _ & B). rewrite B, HF. unfold internal_force.
    rewrite (sf_cforce _ _ _ _ _ _ _ Hf). unfold forces_and_stress. rewrite HL. cbn [seq fold_left s_cforce set_cforce fst].
    rewrite suml_0. ring.
  - rewrite A, B. unfold Rdiv. split; ring.
Qed.

(** *** rigid motions *)

Lemma velgrad_rigid m x v vol e (c w : nat -> R) : 
  vol e = elem_vol m x e -> 1e-14 <= vol_hex_raw (gather m x e 0) (gather m x e 1) (gather m x e 2) ->
  (forall l, (l < 8)%nat -> 
     v (nodes_in m e l) 0%nat = c 0%nat + (w 1%nat * x (nodes_in m e l) 2%nat - w 2%nat * x (nodes_in m e l) 1%nat) /\
     v (nodes_in m e l) 1%nat = c 1%nat + (w 2%nat * x (nodes_in m e l) 0%nat - w 0%nat * x (nodes_in m e l) 2%nat) /\
     v (nodes_in m e l) 2%nat = c 2%nat + (w 0%nat * x (nodes_in m e l) 1%nat - w 1%nat * x (nodes_in m e l) 0%nat)) ->
  (forall i j, (i < 3)%nat -> (j < 3)%nat -> get_velgrad m x v vol e i j + get_velgrad m x v vol e j i = 0) /\
  get_divergence m x v vol e = 0 /\
  get_velgrad m x v vol e 2 1 - get_velgrad m x v vol e 1 2 = 2 * w 0%nat /\
  get_velgrad m x v vol e 0 2 - get_velgrad m x v vol e 2 0 = 2 * w 1%nat /\
  get_velgrad m x v vol e 1 0 - get_velgrad m x v vol e 0 1 = 2 * w 2%nat.
Proof.
  intros Hv Hp H.
  set (A := fun i j => match i, j with
     | O, S O => - w 2%nat | O, S (S O) => w 1%nat | S O, O => w 2%nat | S O, S (S O) => - w 0%nat
     | S (S O), O => - w 1%nat | S (S O), S O => w 0%nat | _, _ => 0 end).
  assert (G : forall i j, (i < 3)%nat -> (j < 3)%nat -> get_velgrad m x v vol e i j = A i j).
  { intros i j Hi Hj. apply (velgrad_linear m x v vol e A c i j Hi Hj Hv Hp). intros l Hl. destruct (H l Hl) as (H0 & H1 & H2).
    destruct i as [|[|[|i]]]; [| | |lia]; cbn [sumn A]; rewrite ?H0, ?H1, ?H2; ring. }
  split; [|rewrite divergence_trace; repeat split; rewrite !G by lia; cbn [A]; ring].
  intros i j Hi Hj. rewrite !G by auto.
  destruct i as [|[|[|i]]]; [| | |lia]; (destruct j as [|[|[|j]]]; [| | |lia]); cbn [A]; ring.
Qed.

Lemma velgrad_translation m x v vol e (c : nat -> R) i j : (i < 3)%nat -> (j < 3)%nat ->
  (forall l, (l < 8)%nat -> v (nodes_in m e l) i = c i) -> get_velgrad m x v vol e i j = 0.
Proof.
  intros Hi Hj H. rewrite velgrad_sum.
  rewrite (sumn_ext 8 _ (fun l => c i * elem_bmat m x e l j)) by (intros l Hl; rewrite H; auto).
  rewrite sumn_scal. unfold elem_bmat. rewrite bmat_closure. unfold Rdiv. ring.
Qed.

Lemma basic_keeps M T D : uses_basic_erosion M T D -> keeps_eroded M.
Proof.
  intros H mat sid s' _ E. rewrite H. unfold basic_erosion. destruct (Rle_dec _ _); [easy|]. destruct (Rle_dec _ _); [easy|exact E].
Qed.

Lemma mass_setup m L mass : corners_ok 8 m -> layout_ok (num_elems m) L ->
  sumn (num_nodes m) (calc_node_mass m (setup_corner_mass m L mass)) = suml (fun p => mass (fst p) (snd p)) (points L) /\
  sumn (num_elems m) (fun e => sumn 8 (fun l => setup_corner_mass m L mass (corners_in_elem m e l))) = suml (fun p => mass (fst p) (snd p)) (points L).
Proof. intros Hok HL. rewrite node_mass_sum by auto. split; now apply setup_mass_total. Qed.

Lemma node_mass_ge m L mass n : (forall p, In p (points L) -> 0 <= mass (fst p) (snd p)) ->
  0 <= calc_node_mass m (setup_corner_mass m L mass) n.
Proof.
  intros H. unfold calc_node_mass. rewrite fold_left_suml, Rplus_0_l. apply suml_nonneg. intros c _. now apply setup_mass_ge.
Qed.

Lemma tallies m L s : total_mass L s = suml (fun p => s_mass s (fst p) (snd p)) (points L) /\
  total_energy m L s = internal_energy L s + kinetic_energy m s.
Proof.
  unfold total_mass, total_energy, internal_energy, kinetic_energy. rewrite !suml_points. split; [reflexivity|]. f_equal.
  replace 0.5 with (/ 2) by lra. f_equal. apply sumn_ext. intros n _. f_equal. apply sumn_ext. intros d _. ring.
Qed.

Lemma run_masses m L N cycles s : corners_ok 8 m -> layout_ok (num_elems m) L ->
  (forall n, s_nmass s n = calc_node_mass m (setup_corner_mass m L (s_mass s)) n) ->
  node_mass_total m (run m L N cycles s) = total_mass L (run m L N cycles s) /\
  total_mass L (run m L N cycles s) = total_mass L s.
Proof.
  intros Hok HL H. destruct (run_const m L N cycles s) as [A B]. unfold node_mass_total. rewrite A.
  rewrite !(proj1 (tallies m L _)), B. split; [|reflexivity].
  rewrite (sumn_ext _ _ _ (fun n _ => H n)). now apply mass_setup.
Qed.

Lemma run_criterion m L N dt Ms s p T D peos : (1 <= N)%nat -> In p (points L) ->
  (forall k, has_erosion (Ms k) (fst p) = true /\ decoupled (Ms k) (fst p) = true /\ uses_basic_erosion (Ms k) T D /\
     (forall s', calc_pressure (Ms k) s' (fst p) (snd p) = peos (s_den s' (fst p) (snd p)) (s_sie s' (fst p) (snd p)))) ->
  s_eroded s (fst p) (snd p) = false -> s_eroded (rk_step m L Ms N dt s) (fst p) (snd p) = true ->
  exists k, (k < N)%nat /\ let t := after_stages m L Ms N dt s (S k) in
    let rho := s_mass s (fst p) (snd p) / (s_vol t (point_elem L p) * s_volfrac s (fst p) (snd p) * s_geo s (fst p) (snd p) + 1e-20) in
    peos rho (s_sie t (fst p) (snd p)) <= T (fst p) \/ rho <= D (fst p).
Proof.
  intros HN Hp HM H0. change (rk_step m L Ms N dt s) with (after_stages m L Ms N dt s N). clear HN.
  assert (G : forall j, (j <= N)%nat -> s_eroded (after_stages m L Ms N dt s j) (fst p) (snd p) = true ->
    exists k, (k < j)%nat /\ let t := after_stages m L Ms N dt s (S k) in
    let rho := s_mass s (fst p) (snd p) / (s_vol t (point_elem L p) * s_volfrac s (fst p) (snd p) * s_geo s (fst p) (snd p) + 1e-20) in
    peos rho (s_sie t (fst p) (snd p)) <= T (fst p) \/ rho <= D (fst p)).
  { induction j as [|j IH]; intros Hj E; [cbn in E; congruence|].
    destruct (s_eroded (after_stages m L Ms N dt s j) (fst p) (snd p)) eqn:Ej.
    - destruct (IH ltac:(lia) eq_refl) as (k & Hk & C). exists k. split; [lia|exact C].
    - exists j. split; [lia|]. cbv zeta. destruct (HM j) as (H1 & H2 & H3 & H4).
      assert (Es : after_stages m L Ms N dt s (S j) = rk_stage m L (Ms j) (rk_alpha N j) dt (after_stages m L Ms N dt s j)).
      { unfold after_stages. rewrite seq_S, fold_left_app. reflexivity. }
      assert (C := stage_criterion m L (Ms j) (rk_alpha N j) dt (after_stages m L Ms N dt s j) p (T (fst p)) (D (fst p)) peos Hp H1 H2
        (fun s' => H3 s' (fst p) (snd p)) H4). cbv zeta in C. rewrite <- Es in C. apply C in E.
      destruct (stages_start m L Ms N dt s (S j)) as (_ & _ & _ & _ & _ & Em & Ef & Eg). fold (after_stages m L Ms N dt s (S j)) in Em, Ef, Eg.
      rewrite Em, Ef, Eg in E. destruct E as [E|E]; [congruence|exact E]. }
  intros E. exact (G N (le_n _) E).
Qed.
