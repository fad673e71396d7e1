(** Steps and runs of the axisymmetric solver: energy, axial momentum, equilibrium, kinematics, densities. *)
From Coq Require Import Permutation.
From Verif Require Import BaseReal BaseArr GeomModel GeomSpec GeomProofs SghModel SghSpec SghProofs SghMore RzModel RzSpec RzProofs RzForces.
Local Open Scope R_scope.

(** ** Stages of a step *)

Definition same_start_rz (s s' : sgh) : Prop :=
  s_x0 s' = s_x s /\ s_v0 s' = s_v s /\ s_sie0 s' = s_sie s /\ s_stress0 s' = s_stress s /\
  s_mass s' = s_mass s /\ s_volfrac s' = s_volfrac s /\ s_geo s' = s_geo s.

Lemma stages_start_rz mr L Ms tiny ext N dt s k : same_start_rz s (after_stages_rz mr L Ms tiny ext N dt s k).
Proof.
  unfold after_stages_rz. induction k as [|k IH]; [repeat split|]. rewrite seq_S, fold_left_app. cbn [Nat.add fold_left].
  revert IH. generalize (fold_left (fun s k => rk_stage_rz mr L (Ms k) tiny ext (rk_alpha N k) dt s) (seq 0 k) (set_start s)).
  intros s' IH. assert (H := rf_const _ _ _ _ _ _ _ _ _ (stage_spec_rz mr L (Ms k) tiny ext (rk_alpha N k) dt s')).
  unfold same_start_rz in *. intuition congruence.
Qed.

Lemma stages_eroded_rz mr L Ms tiny ext N dt s k mat sid : (forall j, has_erosion (Ms j) mat = false) ->
  s_eroded (after_stages_rz mr L Ms tiny ext N dt s k) mat sid = s_eroded s mat sid.
Proof.
  intros H. unfold after_stages_rz. induction k as [|k IH]; [reflexivity|]. rewrite seq_S, fold_left_app. cbn [Nat.add fold_left].
  rewrite (rf_eroded _ _ _ _ _ _ _ _ _ (stage_spec_rz mr L (Ms k) tiny ext (rk_alpha N k) dt _)); auto.
Qed.

Lemma after_stages_S mr L Ms tiny ext N dt s k :
  after_stages_rz mr L Ms tiny ext N dt s (S k) = rk_stage_rz mr L (Ms k) tiny ext (rk_alpha N k) dt (after_stages_rz mr L Ms tiny ext N dt s k).
Proof. unfold after_stages_rz. rewrite seq_S, fold_left_app. reflexivity. Qed.

Lemma step_last_rz mr L Ms tiny ext N dt s : (1 <= N)%nat ->
  rk_step_rz mr L Ms tiny ext N dt s = rk_stage_rz mr L (Ms (N - 1)%nat) tiny ext 1 dt (after_stages_rz mr L Ms tiny ext N dt s (N - 1)).
Proof.
  intros HN. change (rk_step_rz mr L Ms tiny ext N dt s) with (after_stages_rz mr L Ms tiny ext N dt s N).
  replace N with (S (N - 1)) at 2 by lia. rewrite after_stages_S, alpha_last by auto. reflexivity.
Qed.

Lemma step_mass_rz mr L Ms tiny ext N dt s : s_mass (rk_step_rz mr L Ms tiny ext N dt s) = s_mass s.
Proof. destruct (stages_start_rz mr L Ms tiny ext N dt s N) as (_ & _ & _ & _ & A & _). exact A. Qed.

Lemma step_share_rz mr L Ms tiny ext N dt s :
  s_volfrac (rk_step_rz mr L Ms tiny ext N dt s) = s_volfrac s /\ s_geo (rk_step_rz mr L Ms tiny ext N dt s) = s_geo s.
Proof. destruct (stages_start_rz mr L Ms tiny ext N dt s N) as (_ & _ & _ & _ & _ & A). exact A. Qed.

Lemma step_eroded_rz mr L Ms tiny ext N dt s mat sid : (forall j, has_erosion (Ms j) mat = false) ->
  s_eroded (rk_step_rz mr L Ms tiny ext N dt s) mat sid = s_eroded s mat sid.
Proof. intros H. exact (stages_eroded_rz mr L Ms tiny ext N dt s N mat sid H). Qed.

(** ** Energy *)

Lemma stage_work_rz mr L M tiny ext dt s t : let m := rz_mesh mr in corners_ok 4 m -> layout_ok (num_elems m) L ->
  (forall p q, In p (points L) -> In q (points L) -> before p q -> point_elem L p = point_elem L q -> s_eroded s (fst q) (snd q) = false) ->
  (forall p, In p (points L) -> s_mass s (fst p) (snd p) <> 0) ->
  t = rk_stage_rz mr L M tiny ext 1 dt s ->
  suml (fun p => s_mass s (fst p) (snd p) * (s_sie t (fst p) (snd p) - s_sie0 s (fst p) (snd p))) (points L) =
  - dt * sumn (num_nodes m) (fun n => sumn 2 (fun d => internal_force m t n d * (radius s n * (/ 2 * (s_v t n d + s_v0 s n d))))).
Proof.
  intros m Hok HL Hers Hmass Et. assert (Hf := stage_spec_rz mr L M tiny ext 1 dt s). rewrite <- Et in Hf. fold m in Hf.
  set (hv := fun n d => radius s n * (/ 2 * (s_v t n d + s_v0 s n d))).
  rewrite (suml_ext _ (fun p => - dt * sumn 4 (fun l => sumn 2 (fun d => s_mcforce t (fst p) (corner_in_mat_rz (snd p) l) d * hv (nodes_in m (point_elem L p) l) d)))).
  2:{ intros p Hp. rewrite (rf_sie _ _ _ _ _ _ _ _ _ Hf p Hp). fold m.
      rewrite (sumn_ext 4 (fun l => sumn 2 (fun d => s_mcforce t (fst p) (corner_in_mat_rz (snd p) l) d * radius s (nodes_in m (point_elem L p) l) * _))
         (fun l => sumn 2 (fun d => s_mcforce t (fst p) (corner_in_mat_rz (snd p) l) d * hv (nodes_in m (point_elem L p) l) d)))
        by (intros; apply sumn_ext; intros; unfold hv; ring).
      field. now apply Hmass. }
  rewrite suml_scal. f_equal.
  rewrite <- (suml_by_key _ (point_elem L) (num_elems m) (points L)) by (intros; now apply HL).
  assert (A : forall n, sumn 2 (fun d => internal_force m t n d * hv n d) =
              suml (fun c => sumn 2 (fun d => s_cforce t c d * hv n d)) (corners_in_node m n)).
  { intros n. unfold internal_force. cbn [sumn]. rewrite !suml_plus.
    rewrite (suml_ext (fun c => 0) (fun c => 0 * 0)) by (intros; ring).
    assert (B : forall d, suml (fun c => s_cforce t c d) (corners_in_node m n) * hv n d = suml (fun c => s_cforce t c d * hv n d) (corners_in_node m n)).
    { intros d. rewrite Rmult_comm, <- suml_scal. apply suml_ext. intros; ring. }
    rewrite !B, suml_scal. ring. }
  fold hv. rewrite (sumn_ext (num_nodes m) (fun n => sumn 2 (fun d => internal_force m t n d * (radius s n * (/ 2 * (s_v t n d + s_v0 s n d))))) _ (fun n _ => A n)).
  rewrite (node_corner_sum 4 m (fun n c => sumn 2 (fun d => s_cforce t c d * hv n d)) Hok).
  apply sumn_ext. intros e He. rewrite suml_filter.
  rewrite (suml_ext _ (fun p => suml (fun l => if Nat.eqb (point_elem L p) e then sumn 2 (fun d => s_mcforce t (fst p) (corner_in_mat_rz (snd p) l) d * hv (nodes_in m e l) d) else 0) (seq 0 4))).
  2:{ intros p _. rewrite suml_seq. destruct (Nat.eqb_spec (point_elem L p) e) as [->|]; [easy|]. now rewrite sumn_0. }
  rewrite suml_exchange, suml_seq. apply sumn_ext. intros l Hl.
  rewrite (suml_ext _ (fun p => suml (fun d => (if Nat.eqb (point_elem L p) e then s_mcforce t (fst p) (corner_in_mat_rz (snd p) l) d else 0) * hv (nodes_in m e l) d) (seq 0 2))).
  2:{ intros p _. rewrite suml_seq. destruct (Nat.eqb_spec (point_elem L p) e) as [_|]; [easy|]. cbn [sumn]. ring. }
  rewrite suml_exchange, suml_seq. apply sumn_ext. intros d Hd.
  rewrite (suml_ext _ (fun p => hv (nodes_in m e l) d * (if Nat.eqb (point_elem L p) e then s_mcforce t (fst p) (corner_in_mat_rz (snd p) l) d else 0))) by (intros; ring).
  rewrite suml_scal, Rmult_comm. f_equal.
  rewrite (rf_cforce _ _ _ _ _ _ _ _ _ Hf), (rf_mcforce _ _ _ _ _ _ _ _ _ Hf). symmetry. apply forces_are_sums_rz; auto.
Qed.

Lemma kinetic_diff_rz N (mass : nat -> R) (v v0 : nat -> nat -> R) :
  / 2 * sumn N (fun n => mass n * sumn 2 (fun d => v n d ^ 2)) - / 2 * sumn N (fun n => mass n * sumn 2 (fun d => v0 n d ^ 2)) =
  sumn N (fun n => sumn 2 (fun d => mass n * (v n d - v0 n d) * (/ 2 * (v n d + v0 n d)))).
Proof. rewrite <- !sumn_scal, <- sumn_minus. apply sumn_ext. intros n _. cbn [sumn]. field. Qed.

Lemma step_energy_rz mr L Ms tiny ext N dt s : let m := rz_mesh mr in corners_ok 4 m -> layout_ok (num_elems m) L -> (1 <= N)%nat ->
  erosion_safe_step L Ms s -> (forall p, In p (points L) -> s_mass s (fst p) (snd p) <> 0) ->
  let t := rk_step_rz mr L Ms tiny ext N dt s in
  total_energy_rz m L ext t - total_energy_rz m L ext s =
  sumn (num_nodes m) (fun n => sumn 2 (fun d =>
     (ext n * (s_v t n d - s_v s n d) - dt * radius (after_stages_rz mr L Ms tiny ext N dt s (N - 1)) n * internal_force m t n d)
       * ((s_v t n d + s_v s n d) / 2))).
Proof.
  intros m Hok HL HN Hers Hmass t. assert (E := step_last_rz mr L Ms tiny ext N dt s HN). fold t in E.
  assert (Hs := stages_start_rz mr L Ms tiny ext N dt s (N - 1)).
  assert (Her := fun mat sid => stages_eroded_rz mr L Ms tiny ext N dt s (N - 1) mat sid).
  set (s' := after_stages_rz mr L Ms tiny ext N dt s (N - 1)) in *.
  destruct Hs as (Ex & Ev & Es & _ & Em & _).
  assert (W := stage_work_rz mr L (Ms (N - 1)%nat) tiny ext dt s' t). cbv zeta in W. fold m in W. rewrite Em, Ev, Es in W.
  assert (HH : forall p q, In p (points L) -> In q (points L) -> before p q -> point_elem L p = point_elem L q -> s_eroded s' (fst q) (snd q) = false).
  { intros p q Hp Hq Hb He. destruct (Hers p q Hp Hq Hb He) as [H1 H2]. rewrite Her; auto. }
  specialize (W Hok HL HH Hmass E).
  assert (Hc : s_mass t = s_mass s) by apply step_mass_rz.
  unfold total_energy_rz. rewrite Hc.
  assert (A : suml (fun p => s_mass s (fst p) (snd p) * (s_sie t (fst p) (snd p) - s_sie s (fst p) (snd p))) (points L) =
    suml (fun p => s_mass s (fst p) (snd p) * s_sie t (fst p) (snd p)) (points L)
    - suml (fun p => s_mass s (fst p) (snd p) * s_sie s (fst p) (snd p)) (points L)).
  { rewrite <- !suml_minus. apply suml_ext. intros; ring. }
  rewrite A in W; clear A.
  assert (KD := kinetic_diff_rz (num_nodes m) ext (s_v t) (s_v s)).
  rewrite (sumn_ext (num_nodes m) (fun n => sumn 2 (fun d =>
     (ext n * (s_v t n d - s_v s n d) - dt * radius s' n * internal_force m t n d) * ((s_v t n d + s_v s n d) / 2)))
    (fun n => sumn 2 (fun d => ext n * (s_v t n d - s_v s n d) * (/ 2 * (s_v t n d + s_v s n d)))
              + - dt * sumn 2 (fun d => internal_force m t n d * (radius s' n * (/ 2 * (s_v t n d + s_v s n d)))))).
  - rewrite sumn_plus, sumn_scal. lra.
  - intros n _. cbn [sumn]. field.
Qed.

Lemma step_velocity_rz mr L Ms tiny ext N dt s : (1 <= N)%nat -> exists s4, forall n d,
  s_v (rk_step_rz mr L Ms tiny ext N dt s) n d = bdy_velocity (Ms (N - 1)%nat) s4 n d /\
  s_v s4 n d = s_v s n d + dt * internal_force (rz_mesh mr) (rk_step_rz mr L Ms tiny ext N dt s) n d / s_nmass (after_stages_rz mr L Ms tiny ext N dt s (N - 1)) n.
Proof.
  intros HN. rewrite (step_last_rz mr L Ms tiny ext N dt s HN).
  assert (Hs := stages_start_rz mr L Ms tiny ext N dt s (N - 1)).
  set (s' := after_stages_rz mr L Ms tiny ext N dt s (N - 1)) in *.
  assert (Hf := stage_spec_rz mr L (Ms (N - 1)%nat) tiny ext 1 dt s').
  destruct (rf_v _ _ _ _ _ _ _ _ _ Hf) as (s4 & E4 & _ & E3). exists s4. intros n d. rewrite E4, E3.
  destruct Hs as (_ & Ev & _). rewrite Ev. split; [reflexivity|]. now rewrite Rmult_1_l.
Qed.

Lemma step_energy_free_rz mr L Ms tiny ext N dt s : let m := rz_mesh mr in corners_ok 4 m -> layout_ok (num_elems m) L -> (1 <= N)%nat ->
  erosion_safe_step L Ms s -> (forall p, In p (points L) -> s_mass s (fst p) (snd p) <> 0) ->
  axis_ok m ext (after_stages_rz mr L Ms tiny ext N dt s (N - 1)) ->
  let t := rk_step_rz mr L Ms tiny ext N dt s in
  (forall n d, (forall s', bdy_velocity (Ms (N - 1)%nat) s' n d = s_v s' n d) \/ s_v t n d + s_v s n d = 0) ->
  total_energy_rz m L ext t = total_energy_rz m L ext s.
Proof.
  intros m Hok HL HN Hers Hmass Hax t HB. assert (E := step_energy_rz mr L Ms tiny ext N dt s Hok HL HN Hers Hmass). cbv zeta in E. fold m t in E.
  rewrite (sumn_ext _ _ (fun _ => 0)), sumn_0 in E; [lra|]. intros n Hn.
  rewrite (sumn_ext _ _ (fun _ => 0)), sumn_0; [easy|]. intros d _. destruct (HB n d) as [H|H].
  - destruct (step_velocity_rz mr L Ms tiny ext N dt s HN) as (s4 & Hv). fold t m in Hv. destruct (Hv n d) as [E1 E2].
    rewrite H, E2 in E1. destruct (Hax n Hn) as [Hne Hex].
    assert (E3 : ext n * (s_v t n d - s_v s n d) = dt * radius (after_stages_rz mr L Ms tiny ext N dt s (N - 1)) n * internal_force m t n d).
    { rewrite E1, Hex. field. exact Hne. }
    rewrite E3. ring.
  - rewrite H. unfold Rdiv. ring.
Qed.

Lemma stage_start_head mr L tiny ext N dt Ms cs s k : (k < N)%nat ->
  stage_start mr L tiny ext N ((dt, Ms) :: cs) s (after_stages_rz mr L Ms tiny ext N dt s k).
Proof. intros Hk. exists [], dt, Ms, cs, k. repeat split; auto. Qed.

Lemma stage_start_tail mr L tiny ext N dt Ms cs s t :
  stage_start mr L tiny ext N cs (rk_step_rz mr L Ms tiny ext N dt s) t -> stage_start mr L tiny ext N ((dt, Ms) :: cs) s t.
Proof.
  intros (pre & dt' & Ms' & post & k & E & Hk & Et). exists ((dt, Ms) :: pre), dt', Ms', post, k. repeat split; auto.
  cbn [app]. now rewrite E.
Qed.

Lemma erosion_safe_next_rz mr L tiny ext N dt Ms cs s : erosion_safe L ((dt, Ms) :: cs) s -> erosion_safe L cs (rk_step_rz mr L Ms tiny ext N dt s).
Proof.
  intros H p q Hp Hq Hb He. destruct (H p q Hp Hq Hb He) as [H1 H2]. split.
  - rewrite step_eroded_rz; [exact H1|]. intros k. apply (H2 dt Ms k). left; easy.
  - intros dt' Ms' k Hin. apply (H2 dt' Ms' k). right; easy.
Qed.

Lemma run_energy_rz mr L tiny ext N cycles s : let m := rz_mesh mr in corners_ok 4 m -> layout_ok (num_elems m) L -> (1 <= N)%nat ->
  erosion_safe L cycles s -> (forall p, In p (points L) -> s_mass s (fst p) (snd p) <> 0) ->
  (forall t, stage_start mr L tiny ext N cycles s t -> axis_ok m ext t) ->
  (forall n d, (forall dt Ms s', In (dt, Ms) cycles -> bdy_velocity (Ms (N - 1)%nat) s' n d = s_v s' n d) \/
     (s_v s n d = 0 /\ forall dt Ms s', In (dt, Ms) cycles -> bdy_velocity (Ms (N - 1)%nat) s' n d = 0)) ->
  total_energy_rz m L ext (run_rz mr L tiny ext N cycles s) = total_energy_rz m L ext s.
Proof.
  intros m Hok HL HN. revert s. induction cycles as [|[dt Ms] cs IH]; intros s Hers Hmass Hax HB; [reflexivity|].
  set (t := rk_step_rz mr L Ms tiny ext N dt s).
  change (total_energy_rz m L ext (run_rz mr L tiny ext N cs t) = total_energy_rz m L ext s).
  destruct (step_velocity_rz mr L Ms tiny ext N dt s HN) as (s4 & Hv). fold t in Hv.
  transitivity (total_energy_rz m L ext t).
  - apply IH.
    + now apply (erosion_safe_next_rz mr L tiny ext N dt Ms cs s).
    + unfold t. rewrite step_mass_rz. exact Hmass.
    + intros u Hu. apply Hax. now apply stage_start_tail.
    + intros n d. destruct (HB n d) as [H|[H0 H]]; [left|right].
      * intros dt' Ms' s' Hin. apply (H dt'). right; easy.
      * split; [rewrite (proj1 (Hv n d)); apply (H dt); left; easy|]. intros dt' Ms' s' Hin. apply (H dt'). right; easy.
  - apply step_energy_free_rz; auto.
    + exact (erosion_safe_cons _ _ _ _ _ Hers).
    + apply Hax. apply stage_start_head. lia.
    + intros n d. destruct (HB n d) as [H|[H0 H]]; [left|right].
      * intros s'. apply (H dt). left; easy.
      * fold t. rewrite (proj1 (Hv n d)), (H dt), H0 by (left; easy). ring.
Qed.

(** ** Where the areal masses come from *)

Lemma areal_axis_ok mr tiny ext s : 0 < tiny -> clear_or_on_axis mr tiny ext (s_x s) -> s_nmass s = areal_mass mr tiny (s_x s) ext ->
  axis_ok (rz_mesh mr) ext s.
Proof.
  intros Ht Hc Hn n Hlt. rewrite Hn, areal_spec. unfold radius. destruct (Hc n Hlt) as [[Hr He]|(Hr & He & Hb & k & Hk & Hrk & Hek)].
  - destruct (Rlt_dec tiny (s_x s n 1%nat)) as [_|]; [|easy]. split; [|field; lra].
    unfold Rdiv. apply Rmult_integral_contrapositive_currified; [exact He|]. apply Rinv_neq_0_compat. lra.
  - destruct (Rlt_dec tiny (s_x s n 1%nat)) as [|_]; [lra|]. destruct (Rlt_dec (s_x s n 1%nat) tiny) as [_|]; [|lra].
    destruct (in_dec Nat.eq_dec n (bdy_nodes mr)); [|easy]. rewrite Hr, He. split; [|ring].
    assert (A := proj1 (proj2 (nb_max_spec mr tiny (s_x s) ext n 0)) k Hk Hrk).
    assert (0 < ext k / s_x s k 1%nat / 2) by (apply Rdiv_lt_0_compat; [apply Rdiv_lt_0_compat; lra|lra]). lra.
Qed.

Lemma stage_start_cases mr L tiny ext N cycles s t : (1 <= N)%nat -> stage_start mr L tiny ext N cycles s t ->
  (s_nmass t = areal_mass mr tiny (s_x t) ext /\ forall e, s_vol t e = quad_vol (rz_mesh mr) (s_x t) e) \/ t = set_start s.
Proof.
  intros HN (pre & dt & Ms & post & k & _ & Hk & Et). destruct k as [|k].
  - destruct pre as [|c pre]; [right; exact Et|]. left.
    destruct (@exists_last _ (c :: pre)) as [pre' [[dt' Ms'] E]]; [easy|]. rewrite E in Et. subst t. cbn [after_stages_rz seq fold_left].
    unfold run_rz. rewrite fold_left_app. cbn [fold_left].
    match goal with |- context [rk_step_rz mr L Ms' tiny ext N dt' ?u] => set (u0 := u) end.
    unfold after_stages_rz. cbn [seq fold_left]. rewrite step_last_rz by auto.
    assert (H := stage_spec_rz mr L (Ms' (N - 1)%nat) tiny ext 1 dt' (after_stages_rz mr L Ms' tiny ext N dt' u0 (N - 1))).
    split; [exact (rf_nmass _ _ _ _ _ _ _ _ _ H)|exact (rf_vol _ _ _ _ _ _ _ _ _ H)].
  - left. rewrite Et, after_stages_S.
    match goal with |- context [rk_stage_rz mr L (Ms k) tiny ext ?a dt ?u] => assert (H := stage_spec_rz mr L (Ms k) tiny ext a dt u) end.
    split; [exact (rf_nmass _ _ _ _ _ _ _ _ _ H)|exact (rf_vol _ _ _ _ _ _ _ _ _ H)].
Qed.
