(** Lemmas about LevelTimeModel. *)
From Coq Require Import NArith.
From Verif Require Import BaseReal TimeModel TimeSpec TimeProofs LevelTimeModel.
Local Open Scope R_scope.

Definition has_front (mats : list lv_mat) : Prop := exists m, In m mats /\ lv_evolves m = true.

Lemma quad_pairs_complete a b : In (a, b) quad_pairs <-> (a < b < 4)%nat.
Proof.
  split.
  - cbn. intros H. repeat (destruct H as [H|H]; [injection H as <- <-; lia|]). destruct H.
  - intros [H1 H2]. do 4 (destruct b as [|b]; [do 4 (destruct a as [|a]; [first [exfalso; lia|cbn; tauto]|]); exfalso; lia|]). exfalso; lia.
Qed.

Lemma quad_dist_sym x a b : quad_dist x a b = quad_dist x b a.
Proof. unfold quad_dist. f_equal. f_equal. ring. Qed.

Lemma quad_min_spec x : (forall a b, (a < 4)%nat -> (b < 4)%nat -> a <> b -> quad_min x <= quad_dist x a b) /\
  exists a b, (a < 4)%nat /\ (b < 4)%nat /\ a <> b /\ quad_min x = quad_dist x a b.
Proof.
  split.
  - intros a b Ha Hb Hab. unfold quad_min. destruct (Nat.lt_ge_cases a b) as [H|H].
    + apply minl_le_in. apply in_map_iff. exists (a, b). split; [reflexivity|]. apply quad_pairs_complete. lia.
    + rewrite (quad_dist_sym x a b). apply minl_le_in. apply in_map_iff. exists (b, a). split; [reflexivity|]. apply quad_pairs_complete. lia.
  - unfold quad_min. destruct (minl_in (map (fun p => quad_dist x (fst p) (snd p)) quad_pairs) (quad_dist x 0 1)) as [H|H].
    + exists 0%nat, 1%nat. repeat split; try lia. exact H.
    + apply in_map_iff in H as [[a b] [Heq Hin]]. apply quad_pairs_complete in Hin. exists a, b. repeat split; try lia. now symmetry.
Qed.

(** ** One step *)

Section Step.
Variables (c : tcfg) (dims : nat).

Lemma lv_get_le_growth m t g d : lv_get_timestep c dims m t g d <= d * (11 / 10).
Proof.
  unfold lv_get_timestep, fmin. eapply Rle_trans; [apply Rmin_l|]. eapply Rle_trans; [apply Rmin_l|].
  destruct (reduce_min _) as [q|]; [|lra]. destruct (Rlt_dec q (d * (11 / 10))); lra.
Qed.
Lemma lv_get_le_graphics m t g d : lv_get_timestep c dims m t g d <= Rmax (fuzz c) (g - t) + tiny c.
Proof. unfold lv_get_timestep, fmin, fmax. eapply Rle_trans; [apply Rmin_l|]. apply Rmin_r. Qed.
Lemma lv_get_le_final m t g d : lv_get_timestep c dims m t g d <= t_final c - t + tiny c.
Proof. unfold lv_get_timestep, fmin. apply Rmin_r. Qed.
Lemma lv_get_le_elem m t g d x : In x (lv_elems m) -> lv_get_timestep c dims m t g d <= lv_elem_dt c dims m x.
Proof.
  intros Hin. unfold lv_get_timestep, fmin. eapply Rle_trans; [apply Rmin_l|]. eapply Rle_trans; [apply Rmin_l|].
  destruct (reduce_min (map (lv_elem_dt c dims m) (lv_elems m))) as [q|] eqn:Hq.
  - apply reduce_min_some in Hq as [Hq _]. specialize (Hq _ (in_map _ _ _ Hin)). destruct (Rlt_dec q (d * (11 / 10))); lra.
  - apply reduce_min_none in Hq. destruct (lv_elems m); [destruct Hin|discriminate].
Qed.
Lemma lv_get_ge m t g d b : b <= d * (11 / 10) -> b <= dt_min c -> b <= fuzz c + tiny c -> b <= t_final c - t + tiny c -> b <= lv_get_timestep c dims m t g d.
Proof.
  intros H1 H2 H3 H4. unfold lv_get_timestep, fmin, fmax. apply Rmin_glb; [|assumption]. apply Rmin_glb.
  - destruct (reduce_min _) as [q|] eqn:Hq; [|assumption]. apply reduce_min_some in Hq as [_ Hq]. apply in_map_iff in Hq as [e [<- _]].
    assert (dt_min c <= lv_elem_dt c dims m e) by apply Rmax_r. destruct (Rlt_dec _ _); lra.
  - pose proof (Rmax_l (fuzz c) (g - t)). lra.
Qed.

Lemma lv_cycle_minl mats t g d : lv_cycle_dt c dims mats t g d = minl (map (fun m => lv_mat_dt c dims m t g d) mats) (dt_max c).
Proof.
  unfold lv_cycle_dt, minl. generalize (dt_max c). induction mats as [|m mats IH]; intros q; [reflexivity|]. cbn [map fold_left]. apply IH.
Qed.
Lemma lv_cycle_le_max mats t g d : lv_cycle_dt c dims mats t g d <= dt_max c.
Proof. rewrite lv_cycle_minl. apply minl_le_init. Qed.
Lemma lv_cycle_le_mat mats t g d m : In m mats -> lv_cycle_dt c dims mats t g d <= lv_mat_dt c dims m t g d.
Proof. intros H. rewrite lv_cycle_minl. apply minl_le_in. apply in_map_iff. exists m; split; auto. Qed.
Lemma lv_cycle_ge mats t g d b : b <= dt_max c -> b <= d -> 0 <= d -> b <= dt_min c -> b <= fuzz c + tiny c -> b <= t_final c - t + tiny c ->
  b <= lv_cycle_dt c dims mats t g d.
Proof.
  intros. rewrite lv_cycle_minl. apply minl_glb; [assumption|]. intros x Hx. apply in_map_iff in Hx as [m [<- _]].
  unfold lv_mat_dt. destruct (lv_evolves m); [|assumption]. apply lv_get_ge; lra.
Qed.
Lemma lv_cycle_no_front mats t g d : mats <> [] -> (forall m, In m mats -> lv_evolves m = false) -> lv_cycle_dt c dims mats t g d = Rmin d (dt_max c).
Proof.
  intros Hne H. rewrite lv_cycle_minl. apply Rle_antisym.
  - apply Rmin_glb; [|apply minl_le_init]. destruct mats as [|m l]; [easy|]. apply minl_le_in. cbn [map]. left. unfold lv_mat_dt. now rewrite (H m (or_introl eq_refl)).
  - apply minl_glb; [apply Rmin_r|]. intros x Hx. apply in_map_iff in Hx as [m [<- Hm]]. unfold lv_mat_dt. rewrite (H m Hm). apply Rmin_l.
Qed.
End Step.

(** ** One cycle *)

Record lv_facts (c : tcfg) (dims : nat) (mats : list lv_mat) (s s' : lst) (h : cyc) : Prop := {
  lf_t0 : c_t0 h = time s;
  lf_dtin : c_dtin h = dt s;
  lf_gt : c_gt h = gtime s;
  lf_dt : c_dt h = lv_cycle_dt c dims mats (time s) (gtime s) (dt s);
  lf_t1 : c_t1 h = c_t0 h + c_dt h;
  lf_time : time s' = c_t1 h;
  lf_hist : hist s' = hist s ++ [h];
  lf_cycle : cycle s' = S (cycle s);
  lf_w : do_write c (cycle s) (c_t1 h) (gtime s) = Some (c_wrote h);
  lf_yes : c_wrote h = true -> dt s' = dt s /\ gtime s' = c_t1 h + gr_dt c /\ writes s' = writes s ++ [c_t1 h];
  lf_no : c_wrote h = false -> dt s' = c_dt h /\ gtime s' = gtime s /\ writes s' = writes s
}.

Lemma lv_body_facts c dims mats s s' : next_of (lv_cycle_body c dims mats s) = Some s' -> exists h, lv_facts c dims mats s s' h.
Proof.
  unfold lv_cycle_body. intros H. set (d := lv_cycle_dt c dims mats (time s) (gtime s) (dt s)) in *.
  destruct (do_write c (cycle s) (time s + d) (gtime s)) as [w|] eqn:Hw; [|discriminate].
  destruct (w && negb (write_ok (out_id s))) eqn:Hu; [discriminate|]. exists (mkCyc (time s) (dt s) (gtime s) d (time s + d) w).
  destruct w; destruct (Rle_dec (t_final c) (time s + d)); cbn [next_of] in H; injection H as <-; constructor; cbn; auto; try discriminate.
Qed.

Lemma lv_body_stop c dims mats s s' : lv_cycle_body c dims mats s = Stop s' -> t_final c <= time s'.
Proof.
  unfold lv_cycle_body. destruct (do_write _ _ _ _) as [w|]; [|discriminate]. destruct (w && negb _); [discriminate|].
  destruct (Rle_dec _ _) as [H|H]; [|discriminate]. intros E; injection E as <-. destruct w; exact H.
Qed.

Lemma lv_body_continue c dims mats s s' : lv_cycle_body c dims mats s = Continue s' -> time s' < t_final c.
Proof.
  unfold lv_cycle_body. destruct (do_write _ _ _ _) as [w|]; [|discriminate]. destruct (w && negb _); [discriminate|].
  destruct (Rle_dec _ _) as [H|H]; [discriminate|]. intros E; injection E as <-. destruct w; cbn; lra.
Qed.

Lemma lv_loop_inv c dims env (I Q : lst -> Prop) :
  (forall s s' h, I s -> lv_facts c dims (env (cycle s)) s s' h -> (cycle s < cycle_stop c)%nat -> time s' < t_final c -> I s') ->
  (forall s s' h, I s -> lv_facts c dims (env (cycle s)) s s' h -> (cycle s < cycle_stop c)%nat -> t_final c <= time s' -> Q s') ->
  I (init_state c) -> match lv_run c dims env with RUndefined => True | ReachedFinal s' => Q s' | CycleLimit s' => I s' /\ cycle s' = cycle_stop c end.
Proof.
  intros HC HS H0. unfold lv_run. assert (X : forall n s, I s -> (cycle s + n = cycle_stop c)%nat ->
    match lv_run_loop c dims env n s with RUndefined => True | ReachedFinal s' => Q s' | CycleLimit s' => I s' /\ cycle s' = cycle_stop c end).
  { induction n as [|k IH]; intros s Hs Hn; cbn [lv_run_loop]; [split; [assumption|lia]|].
    destruct (lv_cycle_body c dims (env (cycle s)) s) as [|s'|s'] eqn:E; [exact Logic.I| |].
    - destruct (lv_body_facts _ _ _ _ _ (next_continue _ _ E)) as (h & F).
      apply IH; [exact (HC s s' h Hs F ltac:(lia) (lv_body_continue _ _ _ _ _ E))|]. rewrite (lf_cycle _ _ _ _ _ _ F). lia.
    - destruct (lv_body_facts _ _ _ _ _ (next_stop _ _ E)) as (h & F). exact (HS s s' h Hs F ltac:(lia) (lv_body_stop _ _ _ _ _ E)). }
  apply X; [exact H0|reflexivity].
Qed.

(** an invariant that does not look at the end of the run *)
Lemma lv_all_inv c dims env (I : lst -> Prop) :
  (forall s s' h, I s -> lv_facts c dims (env (cycle s)) s s' h -> (cycle s < cycle_stop c)%nat -> I s') -> I (init_state c) ->
  forall s, final_of (lv_run c dims env) = Some s -> I s.
Proof.
  intros H H0 s E. assert (K := lv_loop_inv c dims env I I (fun s s' h A B C _ => H s s' h A B C) (fun s s' h A B C _ => H s s' h A B C) H0).
  destruct (lv_run c dims env); [discriminate| |]; injection E as <-; tauto.
Qed.

(** a property of every executed cycle and its materials *)
Lemma lv_hist_inv c dims env (H : nat -> cyc -> Prop) :
  (forall s s' h, lv_facts c dims (env (cycle s)) s s' h -> H (cycle s) h) ->
  forall s, final_of (lv_run c dims env) = Some s -> forall i h, nth_error (hist s) i = Some h -> H i h.
Proof.
  intros HH s E. cut (length (hist s) = cycle s /\ forall i h, nth_error (hist s) i = Some h -> H i h); [tauto|].
  refine (lv_all_inv c dims env (fun s => length (hist s) = cycle s /\ forall i h, nth_error (hist s) i = Some h -> H i h) _ _ s E); [|split; [reflexivity|intros [|i] h; discriminate]].
  intros s1 s2 h [A1 A2] F _. rewrite (lf_hist _ _ _ _ _ _ F), (lf_cycle _ _ _ _ _ _ F), app_length. cbn [length]. split; [lia|].
  intros i h' Hi. destruct (Nat.lt_ge_cases i (length (hist s1))) as [L|L].
  - rewrite nth_error_app1 in Hi by exact L. now apply A2.
  - rewrite nth_error_app2 in Hi by exact L. destruct (i - length (hist s1))%nat as [|k] eqn:Ek; [|destruct k; discriminate]. injection Hi as <-.
    replace i with (cycle s1) by lia. exact (HH _ _ _ F).
Qed.

(** ** Progress *)

Definition lv_prog (c : tcfg) (s : lst) : Prop :=
  min_progress c <= dt s /\ time s < t_final c /\ t_start c + INR (cycle s) * min_progress c <= time s /\ length (hist s) = cycle s.

Lemma lv_prog_step c dims mats s s' h : good_cfg c -> lv_prog c s -> lv_facts c dims mats s s' h ->
  min_progress c <= c_dt h /\ min_progress c <= dt s' /\ t_start c + INR (cycle s') * min_progress c <= time s' /\ length (hist s') = cycle s'.
Proof.
  intros G (I1 & I2 & I3 & I4) F. pose proof (min_progress_pos c G) as Hp. pose proof (min_progress_le c) as (L1 & L2 & L3 & L4).
  destruct G as (G1 & G2 & G3 & G4 & G5 & G6).
  assert (Hd : min_progress c <= c_dt h) by (rewrite (lf_dt _ _ _ _ _ _ F); apply lv_cycle_ge; lra).
  split; [assumption|]. split; [|split].
  - destruct (c_wrote h) eqn:W; [destruct (lf_yes _ _ _ _ _ _ F W) as (-> & _)|destruct (lf_no _ _ _ _ _ _ F W) as (-> & _)]; assumption.
  - rewrite (lf_cycle _ _ _ _ _ _ F), S_INR, (lf_time _ _ _ _ _ _ F), (lf_t1 _ _ _ _ _ _ F), (lf_t0 _ _ _ _ _ _ F). lra.
  - rewrite (lf_hist _ _ _ _ _ _ F), app_length, (lf_cycle _ _ _ _ _ _ F), I4. cbn. lia.
Qed.

Lemma lv_prog_init c : good_cfg c -> lv_prog c (init_state c).
Proof. exact (prog_inv_init c). Qed.

Lemma lv_time_le c dims mats s s' h : lv_facts c dims mats s s' h -> time s' <= time s + dt_max c /\ (has_front mats -> time s' <= t_final c + tiny c).
Proof.
  intros F. rewrite (lf_time _ _ _ _ _ _ F), (lf_t1 _ _ _ _ _ _ F), (lf_t0 _ _ _ _ _ _ F), (lf_dt _ _ _ _ _ _ F). split.
  - pose proof (lv_cycle_le_max c dims mats (time s) (gtime s) (dt s)). lra.
  - intros (m & Hm & He). pose proof (lv_cycle_le_mat c dims mats (time s) (gtime s) (dt s) m Hm) as H. unfold lv_mat_dt in H. rewrite He in H.
    pose proof (lv_get_le_final c dims m (time s) (gtime s) (dt s)). lra.
Qed.
