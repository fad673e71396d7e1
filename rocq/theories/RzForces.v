(** Forces and stages of the axisymmetric solver. *)
From Coq Require Import Permutation.
From Verif Require Import BaseReal BaseArr GeomModel GeomSpec GeomProofs SghModel SghSpec SghProofs SghMore RzModel RzSpec RzProofs.
Local Open Scope R_scope.

Section Force.
Variables (m : mesh3) (L : layout) (M : models).
Hypothesis Hok : corners_ok 4 m.

(** what one corner receives and what the material stores *)
Definition value_rz (s : sgh) (mat sid l d : nat) : R :=
  if s_eroded s mat sid then 0
  else force_component_rz m L M s mat sid l d * s_volfrac s mat sid * s_geo s mat sid
       + hoop_term m L M s mat sid l d * s_volfrac s mat sid * s_geo s mat sid.

Ltac f2 := unfold fupd2, fupd; cbn [fst snd]; repeat rewrite Nat.eqb_refl; cbn [andb Nat.eqb].

Lemma corner_write_cf s mat sid l st c d : fst (corner_write_rz m L M s mat sid l st) c d =
  if (Nat.eqb c (corners_in_elem m (elem_in_mat L mat sid) l) && Nat.ltb d 2)%bool
  then if s_eroded s mat sid then 0 else fst st c d + value_rz s mat sid l d
  else fst st c d.
Proof.
  destruct st as [cf mcf]. unfold corner_write_rz, value_rz. cbn [seq fold_left].
  set (k := corners_in_elem m (elem_in_mat L mat sid) l).
  destruct (s_eroded s mat sid); cbn [fst]; unfold fupd2; rewrite ?Nat.eqb_refl; cbn [andb Nat.eqb];
    destruct (Nat.eqb_spec c k) as [->|Hn]; cbn [andb]; try easy; rewrite ?Nat.eqb_refl; cbn [andb];
    destruct d as [|[|d]]; cbn [Nat.eqb Nat.ltb Nat.leb]; try easy; ring.
Qed.

Lemma corner_write_mcf s mat sid l st mat' c d : snd (corner_write_rz m L M s mat sid l st) mat' c d =
  if (Nat.eqb mat' mat && Nat.eqb c (corner_in_mat_rz sid l) && Nat.ltb d 2)%bool then value_rz s mat sid l d else snd st mat' c d.
Proof.
  destruct st as [cf mcf]. unfold corner_write_rz, value_rz. cbn [seq fold_left].
  set (k := corner_in_mat_rz sid l).
  destruct (s_eroded s mat sid); cbn [snd]; unfold fupd, fupd2; rewrite ?Nat.eqb_refl; cbn [andb Nat.eqb];
    destruct (Nat.eqb_spec mat' mat) as [->|Hm]; cbn [andb]; try easy;
    destruct (Nat.eqb_spec c k) as [->|Hn]; cbn [andb]; try easy; rewrite ?Nat.eqb_refl; cbn [andb];
    destruct d as [|[|d]]; cbn [Nat.eqb Nat.ltb Nat.leb andb]; try easy; ring.
Qed.

Lemma elem_force_cf_in_rz s mat sid st l d : (elem_in_mat L mat sid < num_elems m)%nat -> (l < 4)%nat -> (d < 2)%nat ->
  fst (elem_force_rz m L M s mat sid st) (corners_in_elem m (elem_in_mat L mat sid) l) d =
  if s_eroded s mat sid then 0 else fst st (corners_in_elem m (elem_in_mat L mat sid) l) d + value_rz s mat sid l d.
Proof.
  intros He Hl Hd. unfold elem_force_rz. cbn [seq fold_left]. rewrite !corner_write_cf.
  rewrite (proj2 (Nat.ltb_lt d 2) Hd). rewrite !andb_true_r.
  assert (K : forall k, (k < 4)%nat -> Nat.eqb (corners_in_elem m (elem_in_mat L mat sid) l) (corners_in_elem m (elem_in_mat L mat sid) k) = Nat.eqb l k).
  { intros k Hk. destruct (Nat.eqb_spec l k) as [->|Hn]; [apply Nat.eqb_refl|]. apply Nat.eqb_neq. intros E.
    apply Hn. now destruct (ok_distinct _ _ Hok _ _ _ _ He Hl He Hk E). }
  rewrite !K by lia. destruct l as [|[|[|[|l]]]]; try lia; cbn [Nat.eqb]; destruct (s_eroded s mat sid); reflexivity.
Qed.

Lemma elem_force_cf_out_rz s mat sid st e l d : (elem_in_mat L mat sid < num_elems m)%nat -> (e < num_elems m)%nat ->
  e <> elem_in_mat L mat sid -> (l < 4)%nat ->
  fst (elem_force_rz m L M s mat sid st) (corners_in_elem m e l) d = fst st (corners_in_elem m e l) d.
Proof.
  intros Hp He Hne Hl. unfold elem_force_rz. cbn [seq fold_left]. rewrite !corner_write_cf.
  assert (K : forall k, (k < 4)%nat -> Nat.eqb (corners_in_elem m e l) (corners_in_elem m (elem_in_mat L mat sid) k) = false).
  { intros k Hk. apply Nat.eqb_neq. intros E. apply Hne. now destruct (ok_distinct _ _ Hok _ _ _ _ He Hl Hp Hk E). }
  rewrite !K by lia. reflexivity.
Qed.

Lemma elem_force_mcf_in_rz s mat sid st l d : (l < 4)%nat -> (d < 2)%nat ->
  snd (elem_force_rz m L M s mat sid st) mat (corner_in_mat_rz sid l) d = value_rz s mat sid l d.
Proof.
  intros Hl Hd. unfold elem_force_rz. cbn [seq fold_left]. rewrite !corner_write_mcf.
  rewrite (proj2 (Nat.ltb_lt d 2) Hd), Nat.eqb_refl. cbn [andb]. rewrite !andb_true_r.
  assert (K : forall k, Nat.eqb (corner_in_mat_rz sid l) (corner_in_mat_rz sid k) = Nat.eqb l k).
  { intros k. unfold corner_in_mat_rz. destruct (Nat.eqb_spec l k) as [->|Hn]; [apply Nat.eqb_refl|]. apply Nat.eqb_neq. lia. }
  rewrite !K. destruct l as [|[|[|[|l]]]]; try lia; reflexivity.
Qed.

Lemma elem_force_mcf_out_rz s mat sid st mat' sid' l d : (l < 4)%nat -> (mat', sid') <> (mat, sid) ->
  snd (elem_force_rz m L M s mat sid st) mat' (corner_in_mat_rz sid' l) d = snd st mat' (corner_in_mat_rz sid' l) d.
Proof.
  intros Hl Hne. unfold elem_force_rz. cbn [seq fold_left]. rewrite !corner_write_mcf.
  assert (K : forall k, (k < 4)%nat -> (Nat.eqb mat' mat && Nat.eqb (corner_in_mat_rz sid' l) (corner_in_mat_rz sid k))%bool = false).
  { intros k Hk. destruct (Nat.eqb_spec mat' mat) as [->|]; [|easy]. cbn [andb]. apply Nat.eqb_neq. unfold corner_in_mat_rz. intros E.
    apply Hne. f_equal. lia. }
  rewrite !K by lia. reflexivity.
Qed.

Lemma value_contribution_rz s mat sid l d : (d < 2)%nat -> value_rz s mat sid l d = contribution_rz m L M s (mat, sid) l d.
Proof.
  intros Hd. unfold value_rz, contribution_rz, force_component_rz, hoop_term. cbn [fst snd]. destruct (s_eroded s mat sid); [reflexivity|].
  rewrite !tau_cauchy. cbn [sumn]. unfold point_elem. cbn [fst snd]. unfold Rdiv.
  destruct d as [|[|d]]; [| |lia]; cbn [Nat.eqb]; ring.
Qed.

(** the loop over materials, seen as one loop over material points *)
Lemma forces_ind_rz (P : list (nat * nat) -> (nat -> nat -> R) * (nat -> nat -> nat -> R) -> Prop) s :
  P [] (fun _ _ => 0, s_mcforce s) ->
  (forall done mat sid rest st t f, points L = done ++ (mat, sid) :: rest -> t mat = s_stress s mat -> P done st ->
     P (done ++ [(mat, sid)]) (elem_force_rz m L M (set_stress t (set_cforce f s)) mat sid st)) ->
  exists t f, forces_and_stress_rz m L M s = set_stress t (set_cforce f s) /\ P (points L) f.
Proof.
  intros H0 HS. unfold forces_and_stress_rz.
  set (body := fun s mat => update_stress L M mat (set_cforce (get_force_rz m L M s mat (s_cforce s, s_mcforce s)) s)).
  assert (G : forall k, (k <= num_mats L)%nat -> exists t f,
    fold_left body (seq 0 k) (set_cforce (fun _ _ => 0, s_mcforce s) s) = set_stress t (set_cforce f s) /\
    (forall mat, (k <= mat)%nat -> t mat = s_stress s mat) /\
    P (flat_map (fun mat => map (fun sid => (mat, sid)) (seq 0 (num_mat_elems L mat))) (seq 0 k)) f).
  { induction k as [|k IH]; intros Hk.
    - exists (s_stress s), (fun _ _ => 0, s_mcforce s). cbn [seq fold_left flat_map]. repeat split; auto.
    - destruct (IH ltac:(lia)) as (t & f & E & Ht & HP).
      rewrite seq_S, fold_left_app, E. cbn [Nat.add fold_left].
      rewrite flat_map_app. cbn [flat_map]. rewrite app_nil_r.
      set (s1 := set_stress t (set_cforce f s)).
      set (pre := flat_map (fun mat => map (fun sid => (mat, sid)) (seq 0 (num_mat_elems L mat))) (seq 0 k)) in *.
      assert (GS : forall j, (j <= num_mat_elems L k)%nat ->
        P (pre ++ map (fun sid => (k, sid)) (seq 0 j))
          (fold_left (fun st sid => elem_force_rz m L M s1 k sid st) (seq 0 j) (s_cforce s1, s_mcforce s1))).
      { induction j as [|j IHj]; intros Hj.
        - cbn [seq map fold_left]. rewrite app_nil_r. subst s1. cbn [s_cforce s_mcforce set_stress set_cforce].
          destruct f; exact HP.
        - rewrite seq_S, fold_left_app, map_app, app_assoc. cbn [Nat.add fold_left map].
          apply (HS _ k j (map (fun sid => (k, sid)) (seq (S j) (num_mat_elems L k - S j)) ++
                  flat_map (fun mat => map (fun sid => (mat, sid)) (seq 0 (num_mat_elems L mat))) (seq (S k) (num_mats L - S k)))).
          + unfold points. replace (num_mats L) with (k + S (num_mats L - S k))%nat at 1 by lia.
            rewrite seq_app, flat_map_app. cbn [Nat.add seq flat_map]. fold pre. rewrite <- app_assoc. f_equal.
            replace (num_mat_elems L k) with (j + S (num_mat_elems L k - S j))%nat at 1 by lia.
            rewrite seq_app, map_app. cbn [Nat.add seq map]. rewrite <- !app_assoc. reflexivity.
          + apply Ht. lia.
          + apply IHj. lia. }
      specialize (GS (num_mat_elems L k) (le_n _)).
      fold (get_force_rz m L M s1 k (s_cforce s1, s_mcforce s1)) in GS.
      unfold body. unfold update_stress. destruct (increment_based M k).
      + exists (for_mat k (num_mat_elems L k) t (calc_stress M (set_cforce (get_force_rz m L M s1 k (s_cforce s1, s_mcforce s1)) s1))),
          (get_force_rz m L M s1 k (s_cforce s1, s_mcforce s1)).
        split; [reflexivity|]. split; [|exact GS]. intros mat Hmat. rewrite <- (Ht mat) by lia.
        unfold for_mat. replace (Nat.eqb mat k) with false; [reflexivity|]. symmetry. apply Nat.eqb_neq. lia.
      + exists t, (get_force_rz m L M s1 k (s_cforce s1, s_mcforce s1)).
        split; [reflexivity|]. split; [|exact GS]. intros mat Hmat. apply Ht. lia. }
  destruct (G (num_mats L) (le_n _)) as (t & f & E & _ & HP). exists t, f. split; [exact E|exact HP].
Qed.
End Force.

Section Force2.
Variables (m : mesh3) (L : layout) (M : models).
Hypothesis (Hok : corners_ok 4 m) (HL : layout_ok (num_elems m) L).

(** *** contributions: what is stored does not depend on the loops *)
Lemma forces_are_sums_rz s e l d :
  (forall p q, In p (points L) -> In q (points L) -> before p q -> point_elem L p = point_elem L q -> s_eroded s (fst q) (snd q) = false) ->
  (e < num_elems m)%nat -> (l < 4)%nat -> (d < 2)%nat ->
  s_cforce (forces_and_stress_rz m L M s) (corners_in_elem m e l) d =
  suml (fun p => if Nat.eqb (point_elem L p) e then s_mcforce (forces_and_stress_rz m L M s) (fst p) (corner_in_mat_rz (snd p) l) d else 0) (points L).
Proof.
  intros Hers He Hl Hd.
  destruct (forces_ind_rz m L M (fun done st => fst st (corners_in_elem m e l) d =
    suml (fun p => if Nat.eqb (point_elem L p) e then snd st (fst p) (corner_in_mat_rz (snd p) l) d else 0) done) s) as (t & f & E & HP).
  - reflexivity.
  - intros done mat sid rest st t f E Ht IH. assert (Hp := HL _ (split_in L _ _ _ E)). unfold point_elem in Hp. cbn [fst snd] in Hp.
    set (s' := set_stress t (set_cforce f s)).
    rewrite suml_app, suml_cons. change (suml _ []) with 0.
    rewrite (suml_ext _ (fun p => if Nat.eqb (point_elem L p) e then snd st (fst p) (corner_in_mat_rz (snd p) l) d else 0) done).
    2:{ intros [mat' sid'] Hq. destruct (Nat.eqb _ e); [|easy]. cbn [fst snd]. apply elem_force_mcf_out_rz; auto.
        exact (split_notin L _ _ _ _ E Hq). }
    unfold point_elem at 2. cbn [fst snd]. destruct (Nat.eqb_spec (elem_in_mat L mat sid) e) as [Ee|Hne].
    + subst e. rewrite elem_force_cf_in_rz by auto. rewrite elem_force_mcf_in_rz by auto.
      destruct (s_eroded s' mat sid) eqn:Eer.
      * assert (Ev : value_rz m L M s' mat sid l d = 0) by (unfold value_rz; now rewrite Eer).
        rewrite Ev, (suml_ext _ (fun _ => 0)), suml_0; [ring|].
        intros q Hq. destruct (Nat.eqb_spec (point_elem L q) (elem_in_mat L mat sid)) as [Eq|]; [|easy]. exfalso.
        assert (B := Hers q (mat, sid)). cbn [fst snd] in B. subst s'. cbn [s_eroded set_stress set_cforce] in Eer. rewrite Eer in B.
        assert (true = false); [|easy]. apply B; auto.
        -- rewrite E. apply in_or_app. left; easy.
        -- exact (split_in L _ _ _ E).
        -- exact (points_split_before _ _ _ _ _ E Hq).
      * rewrite IH. ring.
    + rewrite elem_force_cf_out_rz by auto. rewrite IH. ring.
  - rewrite E. exact HP.
Qed.

Lemma forces_contributions_rz s p l d : dissipation_local M -> In p (points L) -> (l < 4)%nat -> (d < 2)%nat ->
  s_mcforce (forces_and_stress_rz m L M s) (fst p) (corner_in_mat_rz (snd p) l) d = contribution_rz m L M s p l d.
Proof.
  intros HD Hp Hl Hd.
  destruct (forces_ind_rz m L M (fun done st => In p done -> snd st (fst p) (corner_in_mat_rz (snd p) l) d = contribution_rz m L M s p l d) s) as (t & f & E & HP).
  - easy.
  - intros done mat sid rest st t f E Ht IH Hin. apply in_app_or in Hin. destruct Hin as [Hin|[<-|[]]].
    + assert (Hne := split_notin L _ _ _ _ E Hin). destruct p as [mp sp]. cbn [fst snd] in *.
      rewrite elem_force_mcf_out_rz by auto. auto.
    + cbn [fst snd]. rewrite elem_force_mcf_in_rz, value_contribution_rz by auto.
      assert (C : forall i j, cauchy M (set_stress t (set_cforce f s)) (mat, sid) i j = cauchy M s (mat, sid) i j).
      { intros i j. unfold cauchy. cbn [fst snd s_stress s_pres set_stress set_cforce]. now rewrite Ht. }
      unfold contribution_rz. cbn [fst snd].
      cbn [s_eroded s_volfrac s_geo s_x s_vol set_stress set_cforce]. destruct (s_eroded s mat sid); [easy|].
      rewrite HD, !C. cbn [sumn]. rewrite !C. reflexivity.
  - rewrite E. now apply HP.
Qed.

(** a property of the sum over the corners of an element with nodal weights, kept by every material *)
Lemma forces_weighted s e d (w : nat -> R) : (e < num_elems m)%nat -> (d < 2)%nat ->
  (forall t f mat sid, In (mat, sid) (points L) -> elem_in_mat L mat sid = e -> t mat = s_stress s mat ->
     sumn 4 (fun l => w l * value_rz m L M (set_stress t (set_cforce f s)) mat sid l d) = 0) ->
  sumn 4 (fun l => w l * s_cforce (forces_and_stress_rz m L M s) (corners_in_elem m e l) d) = 0.
Proof.
  intros He Hd HV.
  destruct (forces_ind_rz m L M (fun _ st => sumn 4 (fun l => w l * fst st (corners_in_elem m e l) d) = 0) s) as (t & f & E & HP).
  - cbn [fst]. rewrite (sumn_ext _ _ (fun _ => 0)) by (intros; ring). apply sumn_0.
  - intros done mat sid rest st t f E Ht IH. assert (Hin := split_in L _ _ _ E). assert (Hp := HL _ Hin). unfold point_elem in Hp. cbn [fst snd] in Hp.
    set (s' := set_stress t (set_cforce f s)). destruct (Nat.eq_dec e (elem_in_mat L mat sid)) as [Ee|Hne].
    + rewrite (sumn_ext 4 _ (fun l => if s_eroded s' mat sid then 0 else w l * fst st (corners_in_elem m e l) d + w l * value_rz m L M s' mat sid l d)).
      2:{ intros l Hl. rewrite Ee. rewrite (elem_force_cf_in_rz m L M Hok s' mat sid st l d Hp Hl Hd). destruct (s_eroded s' mat sid); ring. }
      destruct (s_eroded s' mat sid); [apply sumn_0|]. rewrite sumn_plus, IH. unfold s'. rewrite HV by auto. ring.
    + rewrite <- IH. apply sumn_ext. intros l Hl. rewrite elem_force_cf_out_rz by auto. reflexivity.
  - rewrite E. exact HP.
Qed.

Lemma forces_form_rz s : exists t f, forces_and_stress_rz m L M s = set_stress t (set_cforce f s).
Proof. destruct (forces_ind_rz m L M (fun _ _ => True) s) as (t & f & E & _); auto. exists t, f. exact E. Qed.
End Force2.

(** ** One stage *)

Definition before_forces_rz (m : mesh3) (s : sgh) : sgh := set_velgrad (get_velgrad_rz m (s_x s) (s_v s) (s_vol s) (s_velgrad s)) s.

Ltac fields2 := cbn [s_x s_x0 s_v s_v0 s_nmass s_nforce s_cforce s_vol s_velgrad s_mcforce s_mass s_sie s_sie0 s_den s_pres
  s_sspd s_stress s_stress0 s_volfrac s_geo s_eroded set_velgrad set_cforce set_stress set_nforce set_v set_sie set_x set_vol
  set_den set_pres set_sspd set_eroded set_nmass before_forces_rz fst snd].

Lemma update_state_fields_rz L M mat s : end_fields s (update_state_rz L M mat s).
Proof.
  unfold update_state_rz.
  apply (end_fields_trans s (state_density_rz L mat s)); [repeat split|]. generalize (state_density_rz L mat s). clear s. intros s.
  apply (end_fields_trans s (state_pressure L M mat s)); [unfold state_pressure; destruct (decoupled M mat); repeat split|].
  generalize (state_pressure L M mat s). clear s. intros s.
  apply (end_fields_trans s (state_sspd L M mat s)); [unfold state_sspd; destruct (decoupled M mat); repeat split|].
  generalize (state_sspd L M mat s). clear s. intros s.
  apply (end_fields_trans s (state_density2_rz L M mat s)); [unfold state_density2_rz; destruct (state_based M mat); repeat split|].
  generalize (state_density2_rz L M mat s). clear s. intros s.
  apply (end_fields_trans s (state_stress L M mat s)); [unfold state_stress; destruct (state_based M mat); repeat split|].
  generalize (state_stress L M mat s). clear s. intros s.
  apply (end_fields_trans s (state_erode L M mat s)); [unfold state_erode; destruct (has_erosion M mat); repeat split|].
  generalize (state_erode L M mat s). clear s. intros s.
  unfold state_void; destruct (has_erosion M mat); repeat split.
Qed.

Lemma update_states_fields_rz L M mats s : end_fields s (fold_left (fun s mat => update_state_rz L M mat s) mats s).
Proof.
  revert s. induction mats as [|k mats IH]; intros s; [repeat split|]. cbn [fold_left].
  assert (A := update_state_fields_rz L M k s). assert (B := IH (update_state_rz L M k s)).
  unfold end_fields in *. intuition congruence.
Qed.

Lemma state_density2_eroded L M mat s : s_eroded (state_density2_rz L M mat s) = s_eroded s.
Proof. unfold state_density2_rz. destruct (state_based M mat); reflexivity. Qed.

Lemma update_states_eroded_rz L M mats s mat sid : has_erosion M mat = false ->
  s_eroded (fold_left (fun s mat => update_state_rz L M mat s) mats s) mat sid = s_eroded s mat sid.
Proof.
  intros H. revert s. induction mats as [|k mats IH]; intros s; [easy|]. cbn [fold_left]. rewrite IH.
  unfold update_state_rz. rewrite state_void_eroded. unfold state_erode.
  destruct (has_erosion M k) eqn:Ek; [cbn [s_eroded set_eroded]; unfold for_mat at 1;
    (destruct (Nat.eqb_spec mat k) as [->|]; [congruence|cbn [andb]])|];
  rewrite state_stress_eroded, state_density2_eroded, state_sspd_eroded, state_pressure_eroded; reflexivity.
Qed.

Lemma energies_spec_rz m L alpha dt s : exists e, all_energies_rz m L alpha dt s = set_sie e s /\
  forall p, In p (points L) -> e (fst p) (snd p) = update_energy_rz m L alpha dt s (fst p) (snd p).
Proof.
  unfold all_energies_rz.
  assert (G : forall k, exists e, fold_left (fun s mat => set_sie (for_mat mat (num_mat_elems L mat) (s_sie s) (update_energy_rz m L alpha dt s)) s) (seq 0 k) s
     = set_sie e s /\ forall mat sid, (mat < k)%nat -> (sid < num_mat_elems L mat)%nat -> e mat sid = update_energy_rz m L alpha dt s mat sid).
  { induction k as [|k (e & E & H)].
    - exists (s_sie s). split; [destruct s; reflexivity|]. intros; lia.
    - rewrite seq_S, fold_left_app, E. cbn [Nat.add fold_left].
      exists (for_mat k (num_mat_elems L k) e (update_energy_rz m L alpha dt s)). split; [reflexivity|].
      intros mat sid Hm Hs. unfold for_mat. destruct (Nat.eqb_spec mat k) as [->|Hne]; cbn [andb].
      + now rewrite (proj2 (Nat.ltb_lt _ _) Hs).
      + apply H; [lia|auto]. }
  destruct (G (num_mats L)) as (e & E & H). exists e. split; [exact E|]. intros [mat sid] Hp. apply points_in in Hp. apply H; tauto.
Qed.

Record stage_facts_rz (mr : mesh_rz) (L : layout) (M : models) (tiny : R) (ext : nat -> R) (alpha dt : R) (s t : sgh) : Prop := mk_stage_facts_rz {
  rf_const : s_x0 t = s_x0 s /\ s_v0 t = s_v0 s /\ s_mass t = s_mass s /\ s_sie0 t = s_sie0 s /\
             s_stress0 t = s_stress0 s /\ s_volfrac t = s_volfrac s /\ s_geo t = s_geo s;
  rf_cforce : s_cforce t = s_cforce (forces_and_stress_rz (rz_mesh mr) L M (before_forces_rz (rz_mesh mr) s));
  rf_mcforce : s_mcforce t = s_mcforce (forces_and_stress_rz (rz_mesh mr) L M (before_forces_rz (rz_mesh mr) s));
  rf_v : exists s4, s_v t = bdy_velocity M s4 /\ s_x s4 = s_x s /\
    forall n d, s_v s4 n d = s_v0 s n d + alpha * dt * internal_force (rz_mesh mr) t n d / s_nmass s n;
  rf_sie : forall p, In p (points L) -> s_sie t (fst p) (snd p) =
    s_sie0 s (fst p) (snd p) - alpha * dt / s_mass s (fst p) (snd p) *
      sumn 4 (fun l => sumn 2 (fun d => s_mcforce t (fst p) (corner_in_mat_rz (snd p) l) d * radius s (nodes_in (rz_mesh mr) (point_elem L p) l) *
         (/ 2 * (s_v t (nodes_in (rz_mesh mr) (point_elem L p) l) d + s_v0 s (nodes_in (rz_mesh mr) (point_elem L p) l) d))));
  rf_x : forall n d, s_x t n d =
    let y := s_x0 s n d + alpha * dt * (/ 2 * (s_v t n d + s_v0 s n d)) in if Nat.eqb d 1 then Rmax 0 y else y;
  rf_vol : forall e, s_vol t e = quad_vol (rz_mesh mr) (s_x t) e;
  rf_velgrad : s_velgrad t = get_velgrad_rz (rz_mesh mr) (s_x s) (s_v s) (s_vol s) (s_velgrad s);
  rf_eroded : forall mat sid, has_erosion M mat = false -> s_eroded t mat sid = s_eroded s mat sid;
  rf_nmass : s_nmass t = areal_mass mr tiny (s_x t) ext
}.

Lemma stage_spec_rz mr L M tiny ext alpha dt s : stage_facts_rz mr L M tiny ext alpha dt s (rk_stage_rz mr L M tiny ext alpha dt s).
Proof.
  unfold rk_stage_rz. set (m := rz_mesh mr). fold (before_forces_rz m s).
  destruct (forces_form_rz m L M (before_forces_rz m s)) as (t & f & EF).
  set (sF := forces_and_stress_rz m L M (before_forces_rz m s)) in *.
  set (s4 := set_v (update_velocity_rz m alpha dt sF) sF).
  set (s5 := set_v (bdy_velocity M s4) s4).
  destruct (energies_spec_rz m L alpha dt s5) as (e & Ee & He). rewrite Ee.
  set (s6 := set_sie e s5).
  set (s7 := set_x (update_position_rz alpha dt s6) s6).
  set (s8 := set_vol (quad_vol m (s_x s7)) s7).
  cbv zeta.
  assert (Hend := update_states_fields_rz L M (seq 0 (num_mats L)) s8).
  assert (Her := fun mat sid H => update_states_eroded_rz L M (seq 0 (num_mats L)) s8 mat sid H).
  set (s9 := fold_left (fun s mat => update_state_rz L M mat s) (seq 0 (num_mats L)) s8) in *.
  destruct Hend as (E1 & E2 & E3 & E4 & E5 & E6 & E7 & E8 & E9 & E10 & E11 & E12 & E13 & E14 & E15 & E16).
  constructor; fields2; fold m.
  - rewrite E2, E4, E11, E13, E14, E15, E16. subst s8 s7 s6 s5 s4. fields2. rewrite EF. fields2. repeat split.
  - rewrite E7. reflexivity.
  - rewrite E10. reflexivity.
  - exists s4. rewrite E3. split; [reflexivity|]. split; [subst s4; fields2; rewrite EF; reflexivity|].
    intros n d. unfold internal_force. fields2. rewrite E7. subst s8 s7 s6 s5. fields2. subst s4. fields2.
    unfold update_velocity_rz. rewrite fold_left_suml, Rplus_0_l. rewrite EF. fields2. reflexivity.
  - intros p Hp. rewrite E12, E10, E3. subst s8 s7 s6. fields2. rewrite He by auto.
    unfold update_energy_rz, mat_power_rz.
    assert (A : s_sie0 s5 = s_sie0 s /\ s_mass s5 = s_mass s /\ s_v0 s5 = s_v0 s /\ s_x s5 = s_x s).
    { subst s5 s4. fields2. rewrite EF. fields2. repeat split. }
    destruct A as (A1 & A2 & A3 & A4). rewrite A1, A2, A3, A4. do 2 f_equal.
    rewrite (fold_left_ext _ (fun acc l => acc + sumn 2 (fun d => s_mcforce s5 (fst p) (corner_in_mat_rz (snd p) l) d * radius s (nodes_in m (point_elem L p) l) *
         (/ 2 * (s_v s5 (nodes_in m (point_elem L p) l) d + s_v0 s (nodes_in m (point_elem L p) l) d))))).
    2:{ intros acc l _. rewrite fold_left_suml. rewrite suml_seq. f_equal. apply sumn_ext. intros d _.
        unfold point_elem, radius. replace 0.5 with (/ 2) by lra. ring. }
    rewrite fold_left_suml, suml_seq. ring.
  - intros n d. rewrite E1, E3. subst s8 s7. fields2. unfold update_position_rz.
    assert (A : s_x0 s6 = s_x0 s /\ s_v0 s6 = s_v0 s).
    { subst s6 s5 s4. fields2. rewrite EF. fields2. repeat split. }
    destruct A as (A1 & A2). rewrite A1, A2. replace 0.5 with (/ 2) by lra. cbv zeta. unfold fmax.
    replace ((s_v s6 n d + s_v0 s n d) * / 2) with (/ 2 * (s_v s6 n d + s_v0 s n d)) by ring. reflexivity.
  - intros e'. rewrite E8, E1. subst s8. fields2. reflexivity.
  - rewrite E9. subst s8 s7 s6 s5 s4. fields2. rewrite EF. fields2. reflexivity.
  - intros mat sid H. rewrite (Her mat sid H). subst s8 s7 s6 s5 s4. fields2. rewrite EF. fields2. reflexivity.
  - rewrite E1. reflexivity.
Qed.
