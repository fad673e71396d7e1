(* What the boundary conditions store. *)
From Coq Require Import List Ascii String Arith Bool ZArith Lia Sorted.
From Verif Require Import YamlModel YamlSpec YamlProofs YamlLaws InputModel InputSpec InputProofs InputReaders InputOut InputIds.
Import ListNotations.
Local Open Scope nat_scope.

Section Bc.
Context {D : Type} (dbl : str -> D) (stod : str -> option D) (zero : D).

Ltac see := cbn [fst snd In b_surf b_origin b_value b_tol b_vel b_temp b_stress b_host b_velv b_tempv b_strv allow_contact allow_preload allow_fracture fracture_id max_local max_global].

(* ---------- the surface ---------- *)

Ltac surf_open H := match type of H with surf_step _ _ _ ?s _ _ = _ => destruct s end; unfold surf_step in H; key_chain H; try clash; crack H.
Ltac surf_hit := let H := fresh "H" in intros ? ? ? H; surf_open H; unfold told; cbn [b_surf b_origin b_value b_tol];
  first [ match goal with A : as_num _ _ = Done _ |- _ => rewrite (nums_done _ _ _ A); reflexivity end
        | match goal with A : triple _ _ _ = Done _ |- _ => exact (triple_three _ _ _ _ A) end
        | match goal with A : In _ _ |- _ => exact (in_map (fun p => (fst p, Some (snd p))) _ _ A) end ].
Ltac surf_miss := let H := fresh "H" in let N := fresh "N" in intros ? ? ? ? H N; surf_open H; first [reflexivity|clash|congruence].

Lemma surf_allowed s w v s' : surf_step dbl stod zero s w v = Done s' -> In w (map lit surface_keys).
Proof. intros H. surf_open H; unfold surface_keys; find_lit. Qed.

Lemma surf_value s w v s' : surf_step dbl stod zero s w v = Done s' ->
  (w = lit "plane_position" \/ w = lit "radius" -> b_value s' = dbl (as_string v)) /\
  (w <> lit "plane_position" -> w <> lit "radius" -> b_value s' = b_value s).
Proof.
  intros H. surf_open H; (split; [intros [E9|E9]; try (vm_compute in E9; discriminate E9)|intros N1 N2; try congruence]); see; try reflexivity;
  match goal with A : as_num _ _ = Done _ |- _ => rewrite (nums_done _ _ _ A); reflexivity end.
Qed.

Lemma surf_values sec ws s s' : over_words (surf_step dbl stod zero) sec ws s = Done s' ->
  ((In (lit "plane_position") ws \/ In (lit "radius") ws -> exists k, (k = lit "plane_position" \/ k = lit "radius") /\ In k ws /\ b_value s' = dbl (text_at sec k))) /\
  (~ In (lit "plane_position") ws -> ~ In (lit "radius") ws -> b_value s' = b_value s).
Proof.
  revert s. induction ws as [|w ws IH]; intros s H; cbn [over_words] in H.
  - inversion H; subst. split; [intros [[]|[]]|reflexivity].
  - apply obnd_done in H. destruct H as (s1 & A & B). destruct (surf_value _ _ _ _ A) as [V1 V2]. destruct (IH s1 B) as [I1 I2]. cbn [In].
    split.
    + intros H. destruct (in_dec (list_eq_dec ascii_dec) (lit "plane_position") ws) as [X|X]; [destruct (I1 (or_introl X)) as (k & K1 & K2 & K3); exists k; auto|].
      destruct (in_dec (list_eq_dec ascii_dec) (lit "radius") ws) as [Y|Y]; [destruct (I1 (or_intror Y)) as (k & K1 & K2 & K3); exists k; auto|].
      exists w. assert (W : w = lit "plane_position" \/ w = lit "radius") by tauto. split; [exact W|]. split; [left; reflexivity|]. rewrite (I2 X Y). apply V1. exact W.
    + intros X Y. rewrite I2 by tauto. apply V2; intros ->; tauto.
Qed.

(* What the surface leaves alone. *)
Definition rest (b : @bc D) := (b_vel b, b_temp b, b_stress b, b_host b, b_velv b, b_tempv b, b_strv b).
Lemma surf_rest sec ws s s' : over_words (surf_step dbl stod zero) sec ws s = Done s' -> rest s' = rest s.
Proof.
  revert s. induction ws as [|w ws IH]; intros s H; cbn [over_words] in H; [inversion H; reflexivity|]. apply obnd_done in H. destruct H as (s1 & A & B).
  rewrite (IH s1 B). surf_open A; reflexivity.
Qed.

Lemma surf_done sec b0 b : regular sec -> read_section (surf_step dbl stod zero) [] sec b0 = Done b -> container sec /\ surf_says dbl stod zero sec b0 b /\ rest b = rest b0.
Proof.
  intros R H. apply read_inv in H. destruct H as (C & _ & O). split; [exact C|]. split; [|eapply surf_rest; exact O].
  destruct (container_cases sec C) as [[m M]|[m M]].
  - pose proof (surf_values _ _ _ _ O) as [V1 V2].
    assert (W : word_list sec = map fst (map_of sec)) by (rewrite M; reflexivity). rewrite W in V1, V2.
    split; [intros k K; exact (sec_each _ sec b0 b m M R O _ surf_allowed k K)|].
    split; [eapply sec_choice; [exact M|exact R|exact O|surf_hit|surf_miss]|].
    split; [eapply sec_field; [exact M|exact R|exact O|surf_hit|surf_miss]|].
    split; [refine (sec_rel _ sec b0 b m M R O _ _ (fun _ v p => three _ _ (as_string v) p) _ _); [surf_hit|surf_miss]|].
    split; [exact V1|exact V2].
  - rewrite M in O. apply read_nothing in O; [|intros [] v; reflexivity]. subst. unfold surf_says, only_keys, choice, field, three_at, gives. cbn [map_of map In]. intuition.
Qed.

(* ---------- one condition ---------- *)

Definition place (b : @bc D) := (b_surf b, b_origin b, b_value b, b_tol b).

Lemma says_place sec b0 b b0' b' : place b0 = place b0' -> place b = place b' -> surf_says dbl stod zero sec b0 b -> surf_says dbl stod zero sec b0' b'.
Proof. destruct b0, b, b0', b'. unfold place, surf_says. see. intros A B. inversion A. inversion B. subst. intros H. exact H. Qed.

Lemma numbers_done v is l : numbers dbl v is = Done l -> Forall2 (fun i x => x = dbl (as_string (get_index v i))) is l.
Proof.
  revert l. induction is as [|i is IH]; intros l H; cbn [numbers] in H; [inversion H; constructor|].
  apply obnd_done in H. destruct H as (x & A & H). apply obnd_done in H. destruct H as (r & B & H). inversion H; subst. constructor; [exact (nums_done _ _ _ A)|apply IH; exact B].
Qed.
Lemma globals_done v l : globals dbl v = Done l -> List.length l = node_size v /\ forall i x, nth_error l i = Some x -> x = dbl (as_string (get_index v i)).
Proof. unfold globals. destruct (100 <? node_size v); [discriminate|]. intros H. apply numbers_done in H. apply (forall2_seq _ 0) in H. exact H. Qed.

Context (id sid : nat).
Notation step := (bc_step dbl stod zero id sid).

Ltac bc_open H := match type of H with bc_step _ _ _ _ _ ?s _ _ = _ => destruct s as [[] []] end; unfold bc_step in H; cbn [fst snd] in H; key_chain H; try clash; crack H.
Ltac bc_miss := let H := fresh "H" in let N := fresh "N" in intros ? ? ? ? H N; bc_open H; try reflexivity; try clash; try congruence.

Lemma bc_allowed s w v s' : step s w v = Done s' -> In w (map lit bc_keys).
Proof. intros H. bc_open H; unfold bc_keys; find_lit. Qed.

Definition kept (s s' : bcsets * @bc D) : Prop := place (snd s') = place (snd s).

Lemma rest_eq b b' : rest b = rest b' -> b_vel b = b_vel b' /\ b_temp b = b_temp b' /\ b_stress b = b_stress b' /\ b_host b = b_host b' /\ b_velv b = b_velv b' /\ b_tempv b = b_tempv b' /\ b_strv b = b_strv b'.
Proof. unfold rest. intros H. inversion H. auto 10. Qed.

Definition rest_of (s : bcsets * @bc D) := rest (snd s).

(* The surface word, apart. *)
Lemma bc_surface s v s' : step s (lit "surface") v = Done s' -> regular v -> fst s' = fst s /\ surf_says dbl stod zero v (snd s) (snd s') /\ container v.
Proof. intros H R. bc_open H. apply surf_done in A; [|exact R]. cbn [fst snd]. tauto. Qed.

Lemma bc_same s w v s' : step s w v = Done s' -> w <> lit "surface" -> place (snd s') = place (snd s).
Proof. revert s w v s'. bc_miss. Qed.

(* Surface keeps the models; proved without regularity. *)
Lemma bc_surface_rest s v s' : step s (lit "surface") v = Done s' -> rest (snd s') = rest (snd s) /\ fst s' = fst s.
Proof. intros H. bc_open H. apply read_inv in A. destruct A as (_ & _ & A). apply surf_rest in A. split; [exact A|reflexivity]. Qed.

Ltac by_rest L := let H := fresh "H" in let N := fresh "N" in intros s w v s' H N;
  destruct (list_eq_dec ascii_dec w (lit "surface")) as [->|NS]; [apply bc_surface_rest in H; destruct H as [H _]; apply rest_eq in H; tauto|];
  bc_open H; try reflexivity; try clash; try congruence.

Lemma m_vel : forall s w v s', step s w v = Done s' -> w <> lit "velocity_model" -> b_vel (snd s') = b_vel (snd s).
Proof. by_rest idtac. Qed.
Lemma m_temp : forall s w v s', step s w v = Done s' -> w <> lit "temperature_model" -> b_temp (snd s') = b_temp (snd s).
Proof. by_rest idtac. Qed.
Lemma m_str : forall s w v s', step s w v = Done s' -> w <> lit "stress_model" -> b_stress (snd s') = b_stress (snd s).
Proof. by_rest idtac. Qed.
Lemma m_host : forall s w v s', step s w v = Done s' -> w <> lit "location" -> b_host (snd s') = b_host (snd s).
Proof. by_rest idtac. Qed.
Lemma m_velv : forall s w v s', step s w v = Done s' -> w <> lit "velocity_bc_global_vars" -> b_velv (snd s') = b_velv (snd s).
Proof. by_rest idtac. Qed.
Lemma m_tempv : forall s w v s', step s w v = Done s' -> w <> lit "temperature_bc_global_vars" -> b_tempv (snd s') = b_tempv (snd s).
Proof. by_rest idtac. Qed.
Lemma m_strv : forall s w v s', step s w v = Done s' -> w <> lit "stress_bc_global_vars" -> b_strv (snd s') = b_strv (snd s).
Proof. by_rest idtac. Qed.

Definition temp_rel (old : option tempm) (v : node) (x : option tempm) : Prop :=
  In (as_string v, x) temp_map /\ x <> None \/ ~ In (as_string v) (map fst temp_map) /\ x = old.
Definition str_rel (old : option strm) (v : node) (x : option strm) : Prop :=
  In (as_string v, x) str_map /\ x <> None \/ In (as_string v) [lit "global_contact"; lit "preload_contact"] /\ x = old.

Lemma assoc_not {A} (m : list (str * A)) k : assoc m k = None -> ~ In k (map fst m).
Proof. intros E I. destruct (assoc_some m k I) as [x X]. congruence. Qed.

Lemma str_key t m : assoc str_map t = Some (Some m) -> (m = SContact -> t = lit "global_contact") /\ (m = SPreload -> t = lit "preload_contact") /\ (m = SFracture -> t = lit "fracture").
Proof.
  intros E. apply assoc_in in E. unfold str_map in E. repeat (destruct E as [E|E]; [pose proof (f_equal fst E) as E1; pose proof (f_equal snd E) as E2; cbn [fst snd] in E1, E2; rewrite <- E1; inversion E2; subst; repeat split; intros Q; first [discriminate Q|reflexivity]|]). destruct E.
Qed.

Lemma h_vel : forall s v s', step s (lit "velocity_model") v = Done s' -> In (as_string v, b_vel (snd s')) vel_map /\ b_vel (snd s') <> None.
Proof. intros s v s' H. bc_open H. see. split; [apply assoc_in; assumption|discriminate]. Qed.
Lemma h_temp : forall s v s', step s (lit "temperature_model") v = Done s' -> temp_rel (b_temp (snd s)) v (b_temp (snd s')).
Proof.
  intros s v s' H. bc_open H; see.
  - left. split; [apply assoc_in; assumption|discriminate].
  - right. split; [apply assoc_not; assumption|reflexivity].
Qed.
Lemma h_str : forall s v s', step s (lit "stress_model") v = Done s' -> str_rel (b_stress (snd s)) v (b_stress (snd s')).
Proof.
  intros s v s' H. bc_open H; see;
  match goal with A : assoc _ _ = Some (Some ?m) |- _ => pose proof (str_key _ _ A) as K; apply assoc_in in A end;
  first [left; split; [assumption|discriminate] | right; split; [|reflexivity]; destruct K as (K1 & K2 & _); first [rewrite (K1 eq_refl); left; reflexivity|rewrite (K2 eq_refl); right; left; reflexivity]].
Qed.
Lemma h_host : forall s v s', step s (lit "location") v = Done s' -> In (as_string v, b_host (snd s')) (some_fst loc_map).
Proof. intros s v s' H. bc_open H. match goal with A : In _ _ |- _ => exact (in_map (fun p => (fst p, Some (snd p))) _ _ A) end. Qed.

Definition val_rel (old : list D) (v : node) (l : list D) : Prop :=
  List.length l = node_size v /\ forall i x, nth_error l i = Some x -> x = dbl (as_string (get_index v i)).
Lemma h_velv : forall s v s', step s (lit "velocity_bc_global_vars") v = Done s' -> val_rel (b_velv (snd s)) v (b_velv (snd s')).
Proof. intros s v s' H. bc_open H. match goal with A : globals _ _ = Done _ |- _ => exact (globals_done _ _ A) end. Qed.
Lemma h_tempv : forall s v s', step s (lit "temperature_bc_global_vars") v = Done s' -> val_rel (b_tempv (snd s)) v (b_tempv (snd s')).
Proof. intros s v s' H. bc_open H. match goal with A : globals _ _ = Done _ |- _ => exact (globals_done _ _ A) end. Qed.
Lemma h_strv : forall s v s', step s (lit "stress_bc_global_vars") v = Done s' -> val_rel (b_strv (snd s)) v (b_strv (snd s')).
Proof. intros s v s' H. bc_open H. match goal with A : globals _ _ = Done _ |- _ => exact (globals_done _ _ A) end. Qed.

(* The lists and the switches. *)
Lemma s_vel : forall s v s', step s (lit "velocity_model") v = Done s' -> vel_sets (fst s') = add_set (vel_sets (fst s)) sid id.
Proof. intros s v s' H. bc_open H; reflexivity. Qed.
Lemma n_vel : forall s w v s', step s w v = Done s' -> w <> lit "velocity_model" -> vel_sets (fst s') = vel_sets (fst s).
Proof. bc_miss. Qed.
Lemma s_temp : forall s v s', step s (lit "temperature_model") v = Done s' -> temp_sets (fst s') = add_set (temp_sets (fst s)) sid id.
Proof. intros s v s' H. bc_open H; reflexivity. Qed.
Lemma n_temp : forall s w v s', step s w v = Done s' -> w <> lit "temperature_model" -> temp_sets (fst s') = temp_sets (fst s).
Proof. bc_miss. Qed.
Lemma s_str : forall s v s', step s (lit "stress_model") v = Done s' -> str_sets (fst s') = add_set (str_sets (fst s)) sid id.
Proof. intros s v s' H. bc_open H; reflexivity. Qed.
Lemma n_str : forall s w v s', step s w v = Done s' -> w <> lit "stress_model" -> str_sets (fst s') = str_sets (fst s).
Proof. bc_miss. Qed.

Definition switches (t : bcsets) := (allow_contact t, allow_preload t, allow_fracture t, fracture_id t).
Definition contact_words : list str := [lit "global_contact"; lit "preload_contact"].
Definition switch_rel (old : bool * bool * bool * Z) (v : node) (new : bool * bool * bool * Z) : Prop :=
  let '(c, p, f, z) := old in let '(c', p', f', z') := new in
  (c' = true <-> c = true \/ In (as_string v) contact_words) /\
  (p' = true <-> p = true \/ as_string v = lit "preload_contact") /\
  (f' = true <-> f = true \/ as_string v = lit "fracture") /\
  (as_string v = lit "fracture" /\ z' = Z.of_nat id \/ as_string v <> lit "fracture" /\ z' = z).
Lemma str_word t m : assoc str_map t = Some (Some m) -> (m = SContact <-> t = lit "global_contact") /\ (m = SPreload <-> t = lit "preload_contact") /\ (m = SFracture <-> t = lit "fracture").
Proof.
  intros E. destruct (str_key t m E) as (K1 & K2 & K3). repeat split; try assumption; intros ->; vm_compute in E; inversion E; reflexivity.
Qed.
Lemma s_switch : forall s v s', step s (lit "stress_model") v = Done s' -> switch_rel (switches (fst s)) v (switches (fst s')).
Proof.
  intros s v s' H. bc_open H; unfold switch_rel, switches, contact_words; see;
  match goal with A : assoc _ _ = Some (Some ?m) |- _ => pose proof (str_word _ _ A) as K; clear A end; destruct K as (K1 & K2 & K3); revert K1 K2 K3; generalize (as_string v); intros t K1 K2 K3; intuition (try congruence; try discriminate);
  exfalso; match goal with Q : lit _ = ?t, K : ?t = _ -> _ |- _ => discriminate (K (eq_sym Q)) end.
Qed.
Lemma n_switch : forall s w v s', step s w v = Done s' -> w <> lit "stress_model" -> switches (fst s') = switches (fst s).
Proof. bc_miss. Qed.

Definition caps (t : bcsets) := (max_local t, max_global t).
Lemma s_caps : forall s v s', step s (lit "contact_bc_vars") v = Done s' ->
  node_size v = 2 /\ caps (fst s') = (to_size (as_string (get_index v 0)), to_size (as_string (get_index v 1))).
Proof.
  intros s v s' H. bc_open H. match goal with A : Nat.eqb _ _ = true |- _ => apply Nat.eqb_eq in A; split; [exact A|] end.
  unfold caps. see. repeat match goal with A : as_num _ _ = Done _ |- _ => apply nums_done in A; rewrite A; clear A end. reflexivity.
Qed.
Lemma n_caps : forall s w v s', step s w v = Done s' -> w <> lit "contact_bc_vars" -> caps (fst s') = caps (fst s).
Proof. bc_miss. Qed.
End Bc.
