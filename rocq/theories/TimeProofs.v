(** Lemmas about TimeModel. *)
From Coq Require Import NArith.
From Verif Require Import BaseReal TimeModel TimeSpec.
Local Open Scope R_scope.

(** ** Pairs *)

Lemma node_pairs_eq : node_pairs =
  [(0,1);(1,2);(2,3);(3,4);(4,5);(5,6);(6,7);
   (0,2);(1,3);(2,4);(3,5);(4,6);(5,7);
   (0,3);(1,4);(2,5);(3,6);(4,7);
   (0,4);(1,5);(2,6);(3,7);
   (0,5);(1,6);(2,7);
   (0,6);(1,7);
   (0,7)]%nat.
Proof. vm_compute. reflexivity. Qed.

Lemma node_pairs_complete a b : (In (a, b) node_pairs <-> (a < b < 8)%nat).
Proof.
  split.
  - rewrite node_pairs_eq. cbn. intros H.
    repeat (destruct H as [H|H]; [injection H as <- <-; lia|]). destruct H.
  - intros [H1 H2].
    do 8 (destruct b as [|b]; [do 8 (destruct a as [|a]; [first [exfalso; lia | vm_compute; tauto]|]); exfalso; lia|]).
    exfalso; lia.
Qed.

Lemma node_pairs_nodup : NoDup node_pairs.
Proof.
  rewrite node_pairs_eq.
  repeat (constructor; [cbn; intros H; repeat (destruct H as [H|H]; [discriminate H|]); exact H|]).
  constructor.
Qed.

Lemma node_pairs_length : length node_pairs = 28%nat.
Proof. reflexivity. Qed.

Lemma node_dist_sym x a b : node_dist x a b = node_dist x b a.
Proof. unfold node_dist. f_equal. f_equal. ring. Qed.

Lemma dist_min_spec x :
  (forall a b, (a < 8)%nat -> (b < 8)%nat -> a <> b -> dist_min x <= node_dist x a b) /\
  (exists a b, (a < 8)%nat /\ (b < 8)%nat /\ a <> b /\ dist_min x = node_dist x a b).
Proof.
  split.
  - intros a b Ha Hb Hab. unfold dist_min.
    destruct (Nat.lt_ge_cases a b) as [H|H].
    + apply minl_le_in. apply in_map_iff. exists (a, b). split; [reflexivity|].
      apply node_pairs_complete. lia.
    + rewrite (node_dist_sym x a b). apply minl_le_in. apply in_map_iff. exists (b, a). split; [reflexivity|].
      apply node_pairs_complete. lia.
  - unfold dist_min. destruct (minl_in (map (fun '(a, b) => node_dist x a b) node_pairs) (node_dist x 0 1)) as [H|H].
    + exists 0%nat, 1%nat. repeat split; try lia. exact H.
    + apply in_map_iff in H as [[a b] [Heq Hin]]. apply node_pairs_complete in Hin.
      exists a, b. repeat split; try lia. now symmetry.
Qed.

Lemma node_dist_nonneg x a b : 0 <= node_dist x a b.
Proof. apply Rabs_pos. Qed.

(** ** Reduction *)

Lemma reduce_min_gen l acc m :
  fold_left (fun acc x => match acc with
                          | None => Some x
                          | Some m => Some (if Rlt_dec x m then x else m)
                          end) l acc = Some m ->
  (forall x, In x l -> m <= x) /\ (forall a, acc = Some a -> m <= a) /\ (In m l \/ acc = Some m).
Proof.
  revert acc. induction l as [|y l IH]; intros acc H; cbn [fold_left] in H.
  - subst acc. split; [intros x []|]. split; [|right; reflexivity].
    intros a Ha. injection Ha as ->. lra.
  - apply IH in H as (H1 & H2 & H3).
    destruct acc as [a|].
    + specialize (H2 _ eq_refl). destruct (Rlt_dec y a) as [Hlt|Hge].
      * split; [|split].
        -- intros x [->|Hx]; [assumption|now apply H1].
        -- intros a' Ha'. injection Ha' as <-. lra.
        -- destruct H3 as [H3|H3]; [left; right; assumption|injection H3 as <-; left; left; reflexivity].
      * split; [|split].
        -- intros x [->|Hx]; [lra|now apply H1].
        -- intros a' Ha'. injection Ha' as <-. lra.
        -- destruct H3 as [H3|H3]; [left; right; assumption|right; assumption].
    + specialize (H2 _ eq_refl). split; [|split].
      * intros x [->|Hx]; [assumption|now apply H1].
      * discriminate.
      * destruct H3 as [H3|H3]; [left; right; assumption|injection H3 as <-; left; left; reflexivity].
Qed.

Lemma reduce_min_some l m : reduce_min l = Some m ->
  (forall x, In x l -> m <= x) /\ In m l.
Proof.
  intros H. apply reduce_min_gen in H as (H1 & _ & [H3|H3]); [split; assumption|discriminate].
Qed.

Lemma reduce_min_fold_some l a :
  exists m, fold_left (fun acc x => match acc with
                          | None => Some x
                          | Some m => Some (if Rlt_dec x m then x else m)
                          end) l (Some a) = Some m.
Proof.
  revert a. induction l as [|y l IH]; intros a; cbn [fold_left]; [exists a; reflexivity|].
  apply IH.
Qed.

Lemma reduce_min_none l : reduce_min l = None -> l = [].
Proof.
  destruct l as [|y l]; [reflexivity|]. unfold reduce_min; cbn [fold_left].
  destruct (reduce_min_fold_some l y) as [m ->]. discriminate.
Qed.

(** ** get_timestep *)

Lemma get_timestep_le_growth c es t g d : get_timestep c es t g d <= d * (11/10).
Proof.
  unfold get_timestep, fmin.
  eapply Rle_trans; [apply Rmin_l|]. eapply Rle_trans; [apply Rmin_l|].
  destruct (reduce_min _) as [m|]; [|lra]. destruct (Rlt_dec m (d * (11/10))); lra.
Qed.

Lemma get_timestep_le_graphics c es t g d :
  get_timestep c es t g d <= Rmax (fuzz c) (g - t) + tiny c.
Proof.
  unfold get_timestep, fmin, fmax. eapply Rle_trans; [apply Rmin_l|]. apply Rmin_r.
Qed.

Lemma get_timestep_le_final c es t g d :
  get_timestep c es t g d <= t_final c - t + tiny c.
Proof. unfold get_timestep, fmin. apply Rmin_r. Qed.

Lemma get_timestep_le_elem c es t g d e :
  In e es -> get_timestep c es t g d <= elem_dt c e.
Proof.
  intros Hin. unfold get_timestep, fmin.
  eapply Rle_trans; [apply Rmin_l|]. eapply Rle_trans; [apply Rmin_l|].
  destruct (reduce_min (map (elem_dt c) es)) as [m|] eqn:Hm.
  - apply reduce_min_some in Hm as [Hm _].
    specialize (Hm (elem_dt c e) (in_map _ _ _ Hin)).
    destruct (Rlt_dec m (d * (11/10))); lra.
  - apply reduce_min_none in Hm. destruct es; [destruct Hin|discriminate].
Qed.

Lemma elem_dt_ge_min c e : dt_min c <= elem_dt c e.
Proof. unfold elem_dt, fmax. apply Rmax_r. Qed.

Lemma get_timestep_ge c es t g d b :
  b <= d * (11/10) -> b <= dt_min c -> b <= fuzz c + tiny c -> b <= t_final c - t + tiny c ->
  b <= get_timestep c es t g d.
Proof.
  intros H1 H2 H3 H4. unfold get_timestep, fmin, fmax.
  apply Rmin_glb; [|assumption]. apply Rmin_glb.
  - destruct (reduce_min (map (elem_dt c) es)) as [m|] eqn:Hm; [|assumption].
    apply reduce_min_some in Hm as [_ Hm]. apply in_map_iff in Hm as [e [<- _]].
    pose proof (elem_dt_ge_min c e). destruct (Rlt_dec _ _); lra.
  - pose proof (Rmax_l (fuzz c) (g - t)). lra.
Qed.

(** ** cycle_dt *)

Lemma cycle_dt_minl c mats t g d :
  cycle_dt c mats t g d = minl (map (fun es => get_timestep c es t g d) mats) (dt_max c).
Proof.
  unfold cycle_dt, minl. generalize (dt_max c). induction mats as [|es mats IH]; intros m; [reflexivity|].
  cbn [map fold_left]. apply IH.
Qed.

Lemma cycle_dt_le_max c mats t g d : cycle_dt c mats t g d <= dt_max c.
Proof. rewrite cycle_dt_minl. apply minl_le_init. Qed.

Lemma cycle_dt_le_mat c mats t g d es :
  In es mats -> cycle_dt c mats t g d <= get_timestep c es t g d.
Proof.
  intros H. rewrite cycle_dt_minl. apply minl_le_in. apply in_map_iff. exists es; split; auto.
Qed.

Lemma cycle_dt_ge c mats t g d b :
  b <= dt_max c -> b <= d * (11/10) -> b <= dt_min c -> b <= fuzz c + tiny c ->
  b <= t_final c - t + tiny c -> b <= cycle_dt c mats t g d.
Proof.
  intros. rewrite cycle_dt_minl. apply minl_glb; [assumption|].
  intros x Hx. apply in_map_iff in Hx as [es [<- _]]. apply get_timestep_ge; assumption.
Qed.

Lemma cycle_dt_in c mats t g d :
  cycle_dt c mats t g d = dt_max c \/
  exists es, In es mats /\ cycle_dt c mats t g d = get_timestep c es t g d.
Proof.
  rewrite cycle_dt_minl. destruct (minl_in (map (fun es => get_timestep c es t g d) mats) (dt_max c)) as [H|H].
  - left; exact H.
  - right. apply in_map_iff in H as [es [H1 H2]]. exists es. split; [assumption|now symmetry].
Qed.

(** ** Inversion of one cycle *)


(** The next state, ignoring continue/stop. *)
Definition next_of (r : step_res) : option lst :=
  match r with Undefined => None | Continue s => Some s | Stop s => Some s end.

Record cyc_facts (c : tcfg) (mats : list (list elem_in)) (s s' : lst) (h : cyc) : Prop := {
  cf_t0 : c_t0 h = time s;
  cf_dtin : c_dtin h = dt s;
  cf_gt : c_gt h = gtime s;
  cf_dt : c_dt h = cycle_dt c mats (time s) (gtime s) (dt s);
  cf_t1 : c_t1 h = c_t0 h + c_dt h;
  cf_time : time s' = c_t1 h;
  cf_hist : hist s' = hist s ++ [h];
  cf_cycle : cycle s' = S (cycle s);
  cf_w : do_write c (cycle s) (c_t1 h) (gtime s) = Some (c_wrote h);
  cf_yes : c_wrote h = true ->
           dt s' = dt s /\ gtime s' = INR (S (out_id s)) * gr_dt c /\ out_id s' = S (out_id s) /\
           writes s' = writes s ++ [c_t1 h];
  cf_no : c_wrote h = false ->
           dt s' = c_dt h /\ gtime s' = gtime s /\ out_id s' = out_id s /\ writes s' = writes s
}.

Lemma cycle_body_facts c mats s s' :
  next_of (cycle_body c mats s) = Some s' -> exists h, cyc_facts c mats s s' h.
Proof.
  unfold cycle_body. intros H.
  set (d := cycle_dt c mats (time s) (gtime s) (dt s)) in *.
  destruct (do_write c (cycle s) (time s + d) (gtime s)) as [w|] eqn:Hw; [|discriminate].
  destruct (w && negb (write_ok (out_id s))) eqn:Hu; [discriminate|].
  exists (mkCyc (time s) (dt s) (gtime s) d (time s + d) w).
  destruct w; destruct (Rle_dec (t_final c) (time s + d)); cbn [next_of] in H; injection H as <-;
  constructor; cbn; auto; try discriminate.
Qed.

Lemma cycle_body_stop c mats s s' : cycle_body c mats s = Stop s' -> t_final c <= time s'.
Proof.
  unfold cycle_body. destruct (do_write _ _ _ _) as [w|]; [|discriminate].
  destruct (w && negb _); [discriminate|].
  destruct (Rle_dec _ _) as [H|H]; [|discriminate]. intros E; injection E as <-.
  destruct w; exact H.
Qed.

Lemma cycle_body_continue c mats s s' : cycle_body c mats s = Continue s' -> time s' < t_final c.
Proof.
  unfold cycle_body. destruct (do_write _ _ _ _) as [w|]; [|discriminate].
  destruct (w && negb _); [discriminate|].
  destruct (Rle_dec _ _) as [H|H]; [discriminate|]. intros E; injection E as <-.
  destruct w; cbn; lra.
Qed.

(** ** Induction principle for runs *)

Lemma run_loop_inv c env (P : lst -> Prop) (Q : lst -> Prop) :
  (* P holds at loop heads; Q at the exit states *)
  (forall s s', P s -> cycle_body c (env (cycle s)) s = Continue s' -> P s') ->
  (forall s s', P s -> cycle_body c (env (cycle s)) s = Stop s' -> Q s') ->
  forall n s, P s ->
  match run_loop c env n s with
  | RUndefined => True
  | ReachedFinal s' => Q s'
  | CycleLimit s' => P s'
  end.
Proof.
  intros HC HS n. induction n as [|k IH]; intros s Hs; cbn [run_loop]; [assumption|].
  destruct (cycle_body c (env (cycle s)) s) as [|s'|s'] eqn:E; [exact I| |].
  - apply IH. eapply HC; eauto.
  - eapply HS; eauto.
Qed.

(** A property of every recorded cycle. *)
Lemma hist_forall c env (P : lst -> Prop) (H : cyc -> Prop) :
  (forall s s' h, P s -> cyc_facts c (env (cycle s)) s s' h -> H h) ->
  (forall s s', P s -> cycle_body c (env (cycle s)) s = Continue s' -> P s') ->
  forall n s, P s -> Forall H (hist s) ->
  forall s', final_of (run_loop c env n s) = Some s' -> Forall H (hist s').
Proof.
  intros HH HC n s Hs Hh s' Hf.
  assert (X := run_loop_inv c env (fun s => P s /\ Forall H (hist s)) (fun s => Forall H (hist s))).
  specialize (X).
  assert (Y : forall s s', (P s /\ Forall H (hist s)) -> next_of (cycle_body c (env (cycle s)) s) = Some s' -> Forall H (hist s')).
  { intros s1 s2 [H1 H2] E. apply cycle_body_facts in E as [h F].
    rewrite (cf_hist _ _ _ _ _ F). apply Forall_app. split; [assumption|].
    constructor; [eapply HH; eauto|constructor]. }
  specialize (X).
  pose proof (X (fun s1 s2 A B => conj (HC s1 s2 (proj1 A) B) (Y s1 s2 A ltac:(rewrite B; reflexivity)))
                (fun s1 s2 A B => Y s1 s2 A ltac:(rewrite B; reflexivity)) n s (conj Hs Hh)) as Z.
  destruct (run_loop c env n s) as [|s1|s1]; cbn in Hf; [discriminate| |]; injection Hf as <-; tauto.
Qed.

(** ** C01 *)


Lemma cycle_step_bounds c mats s s' h : mats <> [] -> cyc_facts c mats s s' h -> step_bounds c h.
Proof.
  intros Hne F. destruct mats as [|es mats]; [congruence|].
  unfold step_bounds. rewrite (cf_t1 _ _ _ _ _ F), (cf_dt _ _ _ _ _ F), (cf_t0 _ _ _ _ _ F), (cf_dtin _ _ _ _ _ F), (cf_gt _ _ _ _ _ F).
  assert (Hle := cycle_dt_le_mat c (es :: mats) (time s) (gtime s) (dt s) es (or_introl eq_refl)).
  repeat split.
  - apply cycle_dt_le_max.
  - eapply Rle_trans; [exact Hle|]. apply get_timestep_le_growth.
  - eapply Rle_trans; [exact Hle|]. apply get_timestep_le_final.
  - eapply Rle_trans; [exact Hle|]. apply get_timestep_le_graphics.
Qed.

Lemma run_step_bounds c env s' :
  (forall k, env k <> []) ->
  final_of (run c env) = Some s' -> Forall (step_bounds c) (hist s').
Proof.
  intros Hne Hf. unfold run in Hf.
  eapply (hist_forall c env (fun _ => True) (step_bounds c)); [| | | |exact Hf]; auto.
  - intros s s1 h _ F. eapply cycle_step_bounds; [|exact F]. apply Hne.
  - constructor.
Qed.

(** ** C02 *)



Lemma min_progress_pos c : good_cfg c -> 0 < min_progress c.
Proof.
  intros (H1 & H2 & H3 & H4 & H5 & H6). unfold min_progress.
  repeat apply Rmin_glb_lt; assumption.
Qed.

Lemma min_progress_le c :
  min_progress c <= dt_start c /\ min_progress c <= dt_max c /\
  min_progress c <= dt_min c /\ min_progress c <= tiny c.
Proof.
  unfold min_progress. repeat split.
  - eapply Rle_trans; [apply Rmin_l|apply Rmin_l].
  - eapply Rle_trans; [apply Rmin_l|apply Rmin_r].
  - eapply Rle_trans; [apply Rmin_r|apply Rmin_l].
  - eapply Rle_trans; [apply Rmin_r|apply Rmin_r].
Qed.

Definition prog_inv (c : tcfg) (s : lst) : Prop :=
  min_progress c <= dt s /\ time s < t_final c /\
  t_start c + INR (cycle s) * min_progress c <= time s /\ length (hist s) = cycle s.

Lemma prog_step c mats s s' h :
  good_cfg c -> prog_inv c s -> cyc_facts c mats s s' h ->
  min_progress c <= c_dt h /\ min_progress c <= dt s' /\
  t_start c + INR (cycle s') * min_progress c <= time s' /\ length (hist s') = cycle s'.
Proof.
  intros G (I1 & I2 & I3 & I4) F.
  pose proof (min_progress_pos c G) as Hp.
  pose proof (min_progress_le c) as (L1 & L2 & L3 & L4).
  destruct G as (G1 & G2 & G3 & G4 & G5 & G6).
  assert (Hd : min_progress c <= c_dt h).
  { rewrite (cf_dt _ _ _ _ _ F). apply cycle_dt_ge; lra. }
  split; [assumption|]. split.
  - destruct (c_wrote h) eqn:W.
    + destruct (cf_yes _ _ _ _ _ F W) as (-> & _). assumption.
    + destruct (cf_no _ _ _ _ _ F W) as (-> & _). assumption.
  - split.
    + rewrite (cf_cycle _ _ _ _ _ F), S_INR, (cf_time _ _ _ _ _ F), (cf_t1 _ _ _ _ _ F), (cf_t0 _ _ _ _ _ F). lra.
    + rewrite (cf_hist _ _ _ _ _ F), app_length, (cf_cycle _ _ _ _ _ F), I4. cbn. lia.
Qed.

Lemma prog_inv_init c : good_cfg c -> prog_inv c (init_state c).
Proof.
  intros G. pose proof (min_progress_le c) as (L1 & _). destruct G as (G1 & G2 & G3 & G4 & G5 & G6).
  unfold prog_inv, init_state; cbn. repeat split; try lra.
Qed.

Lemma next_continue r s : r = Continue s -> next_of r = Some s.
Proof. intros ->; reflexivity. Qed.
Lemma next_stop r s : r = Stop s -> next_of r = Some s.
Proof. intros ->; reflexivity. Qed.

Lemma prog_continue c mats s s' :
  good_cfg c -> prog_inv c s -> cycle_body c mats s = Continue s' -> prog_inv c s'.
Proof.
  intros G I E. pose proof (cycle_body_continue _ _ _ _ E).
  apply next_continue, cycle_body_facts in E as [h F].
  destruct (prog_step _ _ _ _ _ G I F) as (_ & A & B & C). repeat split; assumption.
Qed.

Lemma run_progress c env s' :
  good_cfg c -> final_of (run c env) = Some s' ->
  Forall (fun h => c_t0 h + min_progress c <= c_t1 h) (hist s').
Proof.
  intros G Hf. unfold run in Hf.
  eapply (hist_forall c env (prog_inv c)); [| | | |exact Hf].
  - intros s s1 h I F. destruct (prog_step _ _ _ _ _ G I F) as (A & _).
    rewrite (cf_t1 _ _ _ _ _ F). lra.
  - intros s s1 I E. eapply prog_continue; eauto.
  - apply prog_inv_init; assumption.
  - constructor.
Qed.

Lemma run_loop_cycle c env n s :
  match run_loop c env n s with
  | CycleLimit s' => cycle s' = (cycle s + n)%nat
  | _ => True end.
Proof.
  revert s. induction n as [|k IH]; intros s; cbn [run_loop]; [lia|].
  destruct (cycle_body c (env (cycle s)) s) as [|s'|s'] eqn:E; auto.
  apply next_continue, cycle_body_facts in E as [h F].
  specialize (IH s'). rewrite (cf_cycle _ _ _ _ _ F) in IH.
  destruct (run_loop c env k s'); auto. lia.
Qed.

Lemma run_ends c env :
  good_cfg c -> (forall k, env k <> []) ->
  match run c env with
  | RUndefined => True
  | ReachedFinal s => t_final c <= time s <= t_final c + tiny c /\
                      (length (hist s) <= cycle_stop c)%nat
  | CycleLimit s => time s < t_final c /\ length (hist s) = cycle_stop c /\
                    t_start c + INR (cycle_stop c) * min_progress c <= time s
  end.
Proof.
  intros G Hne. unfold run.
  assert (X : forall n s, prog_inv c s ->
    match run_loop c env n s with
    | RUndefined => True
    | ReachedFinal s' => t_final c <= time s' <= t_final c + tiny c /\ (length (hist s') <= cycle s + n)%nat
    | CycleLimit s' => prog_inv c s'
    end).
  { induction n as [|k IH]; intros s I; cbn [run_loop]; [exact I|].
    destruct (cycle_body c (env (cycle s)) s) as [|s'|s'] eqn:E; [exact Logic.I| |].
    - pose proof (prog_continue _ _ _ _ G I E) as I'.
      specialize (IH s' I').
      apply next_continue, cycle_body_facts in E as [h F].
      rewrite (cf_cycle _ _ _ _ _ F) in IH.
      destruct (run_loop c env k s'); auto. split; [tauto|lia].
    - pose proof (cycle_body_stop _ _ _ _ E) as Hs.
      apply next_stop, cycle_body_facts in E as [h F].
      pose proof (cycle_step_bounds _ _ _ _ _ (Hne (cycle s)) F) as (B1 & B2 & B3 & B4 & B5).
      destruct (prog_step _ _ _ _ _ G I F) as (_ & _ & _ & HL).
      rewrite (cf_time _ _ _ _ _ F) in *. split; [lra|].
      rewrite HL, (cf_cycle _ _ _ _ _ F). lia. }
  specialize (X (cycle_stop c) (init_state c) (prog_inv_init c G)).
  pose proof (run_loop_cycle c env (cycle_stop c) (init_state c)) as Y.
  destruct (run_loop c env (cycle_stop c) (init_state c)) as [|s|s]; auto.
  destruct X as (A & B & C & D). cbn in Y. rewrite Y in C, D.
  repeat split; assumption.
Qed.

Lemma run_reaches c env :
  good_cfg c -> (forall k, env k <> []) ->
  t_final c - t_start c <= INR (cycle_stop c) * min_progress c ->
  run c env = RUndefined \/ exists s, run c env = ReachedFinal s /\ t_final c <= time s <= t_final c + tiny c.
Proof.
  intros G Hne Hn. pose proof (run_ends c env G Hne) as X.
  destruct (run c env) as [|s|s]; [left; reflexivity|right; exists s; tauto|].
  exfalso. destruct X as (A & B & C). lra.
Qed.

(** No undefined behaviour for few enough cycles. *)
Lemma run_defined c env :
  gr_cyc c <> 0%nat -> (N.of_nat (cycle_stop c) < graphics_cap)%N -> run c env <> RUndefined.
Proof.
  intros Hg Hc. unfold run.
  assert (X : forall n s, (out_id s <= S (cycle s))%nat -> (cycle s + n <= cycle_stop c)%nat ->
              run_loop c env n s <> RUndefined).
  { induction n as [|k IH]; intros s H1 H2; cbn [run_loop]; [discriminate|].
    destruct (cycle_body c (env (cycle s)) s) as [|s'|s'] eqn:E.
    - exfalso. unfold cycle_body, do_write in E.
      destruct (Nat.eqb_spec (gr_cyc c) 0); [congruence|].
      match type of E with context [if ?b && _ then _ else _] => set (w := b) in E end.
      destruct (w && negb (write_ok (out_id s))) eqn:Hu.
      + apply andb_prop in Hu as [_ Hu]. apply negb_true_iff in Hu.
        unfold write_ok in Hu. apply N.ltb_ge in Hu. lia.
      + destruct w; destruct (Rle_dec _ _) in E; discriminate E.
    - apply next_continue, cycle_body_facts in E as [h F]. apply IH.
      + rewrite (cf_cycle _ _ _ _ _ F). destruct (c_wrote h) eqn:W.
        * destruct (cf_yes _ _ _ _ _ F W) as (_ & _ & -> & _). lia.
        * destruct (cf_no _ _ _ _ _ F W) as (_ & _ & -> & _). lia.
      + rewrite (cf_cycle _ _ _ _ _ F). lia.
    - discriminate. }
  apply X; cbn; lia.
Qed.

(** ** C03 *)

Lemma run_cfl c env s' :
  final_of (run c env) = Some s' ->
  forall i h, nth_error (hist s') i = Some h ->
  forall es e, In es (env i) -> In e es ->
  c_dt h <= elem_dt c e.
Proof.
  intros Hf. unfold run in Hf.
  set (P := fun (s : lst) => length (hist s) = cycle s /\
     forall i h, nth_error (hist s) i = Some h -> forall es e, In es (env i) -> In e es -> c_dt h <= elem_dt c e).
  assert (Y : forall s s', P s -> next_of (cycle_body c (env (cycle s)) s) = Some s' -> P s').
  { intros s s1 [H1 H2] E. apply cycle_body_facts in E as [h F]. split.
    - rewrite (cf_hist _ _ _ _ _ F), app_length, (cf_cycle _ _ _ _ _ F), H1. cbn; lia.
    - intros i h' Hi. rewrite (cf_hist _ _ _ _ _ F) in Hi.
      destruct (Nat.lt_ge_cases i (length (hist s))) as [Hlt|Hge].
      + rewrite nth_error_app1 in Hi by assumption. now apply H2.
      + rewrite nth_error_app2 in Hi by assumption.
        destruct (i - length (hist s))%nat as [|m] eqn:Em.
        * cbn in Hi. injection Hi as <-. intros es e He Hin.
          assert (i = cycle s) by lia. subst i.
          rewrite (cf_dt _ _ _ _ _ F).
          eapply Rle_trans; [apply cycle_dt_le_mat; exact He|]. now apply get_timestep_le_elem.
        * destruct m; discriminate Hi. }
  assert (Z := run_loop_inv c env P P
     (fun s1 s2 A B => Y s1 s2 A (next_continue _ _ B)) (fun s1 s2 A B => Y s1 s2 A (next_stop _ _ B))
     (cycle_stop c) (init_state c)).
  assert (P0 : P (init_state c)).
  { split; [reflexivity|]. intros i h Hi. destruct i; discriminate Hi. }
  specialize (Z P0).
  destruct (run_loop c env (cycle_stop c) (init_state c)) as [|s1|s1]; [discriminate Hf| |];
  injection Hf as <-; apply Z.
Qed.

Lemma elem_dt_cfl c e : e_eroded e = false ->
  elem_dt c e <= Rmax (dt_cfl c * dist_min (e_x e) / (e_c e + fuzz c)) (dt_min c).
Proof.
  intros H. unfold elem_dt, fmax, fmin. rewrite H.
  apply Rmax_lub; [|apply Rmax_r].
  eapply Rle_trans; [apply Rmin_l|apply Rmax_l].
Qed.

Lemma elem_dt_eroded c e : e_eroded e = true -> elem_dt c e = Rmax (Rmin 1e32 (dt_max c)) (dt_min c).
Proof. intros H. unfold elem_dt, fmax, fmin. now rewrite H. Qed.

(** ** C05 *)


Lemma si_snoc l x : strictly_increasing l -> (forall y, In y l -> y < x) -> strictly_increasing (l ++ [x]).
Proof.
  induction l as [|a l IH]; cbn; intros H Hx; [split; [intros y []|exact I]|].
  destruct H as [H1 H2]. split.
  - intros y Hy. apply in_app_or in Hy as [Hy|[<-|[]]]; [now apply H1|]. apply Hx; now left.
  - apply IH; [assumption|]. intros y Hy. apply Hx; now right.
Qed.

Definition out_inv (c : tcfg) (s : lst) : Prop :=
  prog_inv c s /\
  length (writes s) = out_id s /\
  (exists rest, writes s = t_start c :: rest) /\
  strictly_increasing (writes s) /\
  (forall y, In y (writes s) -> y <= time s) /\
  (forall h, In h (hist s) -> c_wrote h = true -> In (c_t1 h) (writes s)) /\
  (forall y, In y (writes s) -> y = t_start c \/ exists h, In h (hist s) /\ c_t1 h = y /\ c_wrote h = true) /\
  (forall h, In h (hist s) -> c_gt h <= c_t1 h -> c_wrote h = true).

Definition out_post (c : tcfg) (s : lst) : Prop :=
  length (writes s) = out_id s /\
  (exists rest, writes s = t_start c :: rest) /\
  strictly_increasing (writes s) /\
  (forall y, In y (writes s) -> y <= time s) /\
  (forall h, In h (hist s) -> c_wrote h = true -> In (c_t1 h) (writes s)) /\
  (forall y, In y (writes s) -> y = t_start c \/ exists h, In h (hist s) /\ c_t1 h = y /\ c_wrote h = true) /\
  (forall h, In h (hist s) -> c_gt h <= c_t1 h -> c_wrote h = true).

Lemma do_write_gt c k t g : g <= t -> do_write c k t g = Some false -> False.
Proof.
  unfold do_write. intros H. destruct (Nat.eqb _ 0); [discriminate|].
  destruct (_ && _); [discriminate|]. destruct (Nat.eqb _ _); [discriminate|].
  destruct (Rle_dec (t_final c) t); [discriminate|]. destruct (Rle_dec g t); [discriminate|lra].
Qed.

Lemma do_write_final c k t g : t_final c <= t -> do_write c k t g = Some false -> False.
Proof.
  unfold do_write. intros H. destruct (Nat.eqb _ 0); [discriminate|].
  destruct (_ && _); [discriminate|]. destruct (Nat.eqb _ _); [discriminate|].
  destruct (Rle_dec (t_final c) t); [discriminate|lra].
Qed.

Lemma out_step c mats s s' :
  good_cfg c -> out_inv c s -> next_of (cycle_body c mats s) = Some s' -> out_post c s'.
Proof.
  intros G (I & I1 & I2 & I3 & I4 & I5 & I6 & I7) E.
  apply cycle_body_facts in E as [h F].
  destruct (prog_step _ _ _ _ _ G I F) as (Hp & _). pose proof (min_progress_pos c G) as Hpos.
  assert (Ht : time s < c_t1 h). { rewrite (cf_t1 _ _ _ _ _ F), (cf_t0 _ _ _ _ _ F). lra. }
  unfold out_post.
  rewrite (cf_time _ _ _ _ _ F), (cf_hist _ _ _ _ _ F).
  assert (H7 : forall h0, In h0 (hist s ++ [h]) -> c_gt h0 <= c_t1 h0 -> c_wrote h0 = true).
  { intros h0 Hin Hg. apply in_app_or in Hin as [Hin|[<-|[]]]; [now apply I7|].
    destruct (c_wrote h) eqn:W; [reflexivity|exfalso].
    pose proof (cf_w _ _ _ _ _ F) as D. rewrite W in D. rewrite (cf_gt _ _ _ _ _ F) in Hg.
    eapply do_write_gt; eauto. }
  destruct (c_wrote h) eqn:W.
  - destruct (cf_yes _ _ _ _ _ F W) as (_ & _ & -> & ->).
    split; [rewrite app_length, I1; cbn; lia|].
    split. { destruct I2 as [r ->]. exists (r ++ [c_t1 h]). reflexivity. }
    split. { apply si_snoc; [assumption|]. intros y Hy. specialize (I4 y Hy). lra. }
    split. { intros y Hy. apply in_app_or in Hy as [Hy|[<-|[]]]; [|lra]. specialize (I4 y Hy). lra. }
    split. { intros h0 Hin W0. apply in_or_app. apply in_app_or in Hin as [Hin|[<-|[]]]; [left; auto|right; now left]. }
    split; [|exact H7].
    intros y Hy. apply in_app_or in Hy as [Hy|[<-|[]]].
    + destruct (I6 y Hy) as [->|[h0 (A & B & C)]]; [left; reflexivity|right; exists h0].
      split; [apply in_or_app; now left|tauto].
    + right. exists h. split; [apply in_or_app; right; now left|tauto].
  - destruct (cf_no _ _ _ _ _ F W) as (_ & _ & -> & ->).
    split; [assumption|]. split; [assumption|]. split; [assumption|].
    split. { intros y Hy. specialize (I4 y Hy). lra. }
    split. { intros h0 Hin W0. apply in_app_or in Hin as [Hin|[<-|[]]]; [auto|congruence]. }
    split; [|exact H7].
    intros y Hy. destruct (I6 y Hy) as [->|[h0 (A & B & C)]]; [left; reflexivity|right; exists h0].
    split; [apply in_or_app; now left|tauto].
Qed.

Lemma out_inv_init c : good_cfg c -> out_inv c (init_state c).
Proof.
  intros G. split; [apply prog_inv_init; assumption|]. cbn.
  split; [reflexivity|]. split; [exists []; reflexivity|].
  split; [split; [intros y []|exact I]|].
  split; [intros y [<-|[]]; lra|].
  split; [intros h []|]. split; [|intros h []].
  intros y [<-|[]]; left; reflexivity.
Qed.

Lemma run_outputs c env :
  good_cfg c ->
  match run c env with
  | RUndefined => True
  | ReachedFinal s => out_post c s /\ exists l, writes s = l ++ [time s]
  | CycleLimit s => out_post c s
  end.
Proof.
  intros G. unfold run.
  assert (Z := run_loop_inv c env (out_inv c) (fun s => out_post c s /\ exists l, writes s = l ++ [time s])).
  assert (H1 : forall s s', out_inv c s -> cycle_body c (env (cycle s)) s = Continue s' -> out_inv c s').
  { intros s s' I E. split; [eapply prog_continue; [assumption|apply I|exact E]|].
    eapply out_step; [assumption|exact I|]. apply next_continue; exact E. }
  assert (H2 : forall s s', out_inv c s -> cycle_body c (env (cycle s)) s = Stop s' ->
                out_post c s' /\ exists l, writes s' = l ++ [time s']).
  { intros s s' I E. split.
    - eapply out_step; [assumption|exact I|]. apply next_stop; exact E.
    - pose proof (cycle_body_stop _ _ _ _ E) as Hs. apply next_stop, cycle_body_facts in E as [h F].
      pose proof (cf_w _ _ _ _ _ F) as D. rewrite (cf_time _ _ _ _ _ F) in *.
      destruct (c_wrote h) eqn:W; [|exfalso; eapply do_write_final; eauto].
      destruct (cf_yes _ _ _ _ _ F W) as (_ & _ & _ & ->). exists (writes s). reflexivity. }
  specialize (Z H1 H2 (cycle_stop c) (init_state c) (out_inv_init c G)).
  destruct (run_loop c env (cycle_stop c) (init_state c)); auto. apply Z.
Qed.

(** Periodic schedule: with the solver starting at time zero, no cycle-count trigger and an
    interval larger than the controller's overshoot, output number k is written within
    [k*ival, k*ival + fuzz + tiny] (the last one of a finished run may be earlier). *)

Definition sched_inv (c : tcfg) (s : lst) : Prop :=
  prog_inv c s /\ (cycle s <= cycle_stop c)%nat /\
  length (writes s) = out_id s /\ gtime s = INR (out_id s) * gr_dt c /\ time s < gtime s /\
  (forall k t, nth_error (writes s) k = Some t -> INR k * gr_dt c <= t <= INR k * gr_dt c + fuzz c + tiny c).

Lemma do_write_sched c k t g w : (cycle_stop c < gr_cyc c)%nat -> (k < cycle_stop c)%nat ->
  do_write c k t g = Some w -> w = true -> t_final c <= t \/ g <= t.
Proof.
  intros H1 H2 E ->. unfold do_write in E.
  destruct (Nat.eqb_spec (gr_cyc c) 0); [discriminate|].
  rewrite Nat.mod_small in E by lia.
  replace (Nat.eqb (k + 1) 0) with false in E by (symmetry; apply Nat.eqb_neq; lia).
  cbn [andb] in E. destruct (Nat.eqb_spec k (cycle_stop c)); [lia|].
  destruct (Rle_dec (t_final c) t); [left; assumption|].
  destruct (Rle_dec g t); [right; assumption|discriminate].
Qed.

Lemma sched_step c mats s s' :
  sched_cfg c -> mats <> [] -> (cycle s < cycle_stop c)%nat -> sched_inv c s ->
  next_of (cycle_body c mats s) = Some s' ->
  (time s' < t_final c -> sched_inv c s') /\
  (t_final c <= time s' ->
    forall k t, nth_error (writes s') k = Some t ->
      t <= INR k * gr_dt c + fuzz c + tiny c /\ (INR k * gr_dt c <= t \/ t = time s')).
Proof.
  intros (G & H0 & Hg & Hd) Hne Hk (I & I1 & I2 & I3 & I4 & I5) E.
  apply cycle_body_facts in E as [h F].
  pose proof (cycle_step_bounds _ _ _ _ _ Hne F) as (B1 & B2 & B3 & B4 & B5).
  pose proof (prog_step _ _ _ _ _ G I F) as (P1 & P2 & P3 & P4).
  pose proof (min_progress_pos c G) as Hpos.
  pose proof G as (G1 & G2 & G3 & G4 & G5 & G6).
  rewrite (cf_gt _ _ _ _ _ F), (cf_t0 _ _ _ _ _ F) in *.
  assert (Hub : c_t1 h <= gtime s + fuzz c + tiny c).
  { rewrite B5. unfold Rmax in B4. destruct (Rle_dec _ _) in B4; lra. }
  assert (Hlen : nth_error (writes s) (length (writes s)) = None) by (apply nth_error_None; lia).
  pose proof (cf_w _ _ _ _ _ F) as D.
  split.
  - intros Ht. split; [repeat split; try assumption|]. split; [rewrite (cf_cycle _ _ _ _ _ F); lia|].
    rewrite (cf_time _ _ _ _ _ F) in *.
    destruct (c_wrote h) eqn:W.
    + destruct (cf_yes _ _ _ _ _ F W) as (_ & -> & -> & ->).
      destruct (do_write_sched _ _ _ _ _ Hg Hk D eq_refl) as [X|X]; [lra|].
      split; [rewrite app_length, I2; cbn; lia|]. split; [reflexivity|].
      rewrite S_INR. split; [lra|].
      intros k t Hn. destruct (Nat.lt_ge_cases k (length (writes s))) as [Hlt|Hge].
      * rewrite nth_error_app1 in Hn by assumption. now apply I5.
      * rewrite nth_error_app2 in Hn by assumption.
        destruct (k - length (writes s))%nat as [|m] eqn:Em; [|destruct m; discriminate Hn].
        cbn in Hn. injection Hn as <-. assert (k = out_id s) by lia. subst k. rewrite <- I3. lra.
    + destruct (cf_no _ _ _ _ _ F W) as (_ & -> & -> & ->).
      split; [assumption|]. split; [assumption|]. split; [|assumption].
      destruct (Rlt_le_dec (c_t1 h) (gtime s)); [assumption|]. exfalso; eapply do_write_gt; eauto.
  - intros Ht k t Hn. rewrite (cf_time _ _ _ _ _ F) in *.
    destruct (c_wrote h) eqn:W; [|exfalso; eapply do_write_final; eauto].
    destruct (cf_yes _ _ _ _ _ F W) as (_ & _ & _ & Hw). rewrite Hw in Hn.
    destruct (Nat.lt_ge_cases k (length (writes s))) as [Hlt|Hge].
    + rewrite nth_error_app1 in Hn by assumption. specialize (I5 k t Hn). lra.
    + rewrite nth_error_app2 in Hn by assumption.
      destruct (k - length (writes s))%nat as [|m] eqn:Em; [|destruct m; discriminate Hn].
      cbn in Hn. injection Hn as <-. assert (k = out_id s) by lia. subst k. rewrite <- I3.
      split; [lra|right; reflexivity].
Qed.

Lemma run_schedule c env s :
  sched_cfg c -> (forall k, env k <> []) -> final_of (run c env) = Some s ->
  forall k t, nth_error (writes s) k = Some t ->
    t <= INR k * gr_dt c + fuzz c + tiny c /\
    (INR k * gr_dt c <= t \/ (t = time s /\ t_final c <= t)).
Proof.
  intros SC Hne Hf. unfold run in Hf.
  assert (X : forall n s0, sched_inv c s0 -> (cycle s0 + n <= cycle_stop c)%nat ->
     final_of (run_loop c env n s0) = Some s ->
     forall k t, nth_error (writes s) k = Some t ->
    t <= INR k * gr_dt c + fuzz c + tiny c /\
    (INR k * gr_dt c <= t \/ (t = time s /\ t_final c <= t))).
  { induction n as [|n IH]; intros s0 I Hn Hr; cbn [run_loop] in Hr.
    - cbn in Hr. injection Hr as <-. intros k t Hk. destruct I as (_ & _ & _ & _ & _ & I5).
      specialize (I5 k t Hk). split; [lra|left; lra].
    - assert (Hk0 : (cycle s0 < cycle_stop c)%nat) by lia.
      destruct (cycle_body c (env (cycle s0)) s0) as [|s1|s1] eqn:E; [discriminate| |].
      + pose proof (cycle_body_continue _ _ _ _ E) as Hc. pose proof (next_continue _ _ E) as E'.
        destruct (sched_step c _ _ _ SC (Hne _) Hk0 I E') as [A _].
        apply cycle_body_facts in E' as [h F].
        apply (IH s1); [apply A; assumption|rewrite (cf_cycle _ _ _ _ _ F); lia|assumption].
      + pose proof (cycle_body_stop _ _ _ _ E) as Hc. pose proof (next_stop _ _ E) as E'.
        destruct (sched_step c _ _ _ SC (Hne _) Hk0 I E') as [_ A].
        cbn in Hr. injection Hr as <-. intros k t Hk.
        destruct (A Hc k t Hk) as [A1 [A2|A2]]; split; auto. right; split; [assumption|]. now rewrite A2. }
  apply (X (cycle_stop c) (init_state c)); [|cbn; lia|assumption].
  destruct SC as (G & H0 & Hg & Hd). pose proof G as (G1 & G2 & G3 & G4 & G5 & G6).
  split; [apply prog_inv_init; assumption|]. cbn. split; [lia|]. split; [reflexivity|].
  split; [rewrite H0; lra|]. split; [lra|].
  intros k t Hk. destruct k; [|destruct k; discriminate Hk]. cbn in Hk. injection Hk as <-.
  rewrite H0. cbn. lra.
Qed.

(** ** Solver windows *)


Lemma windows_head tf i p ends w r :
  solver_windows tf i p ends = w :: r -> fst w = (if Nat.eqb i 0 then 0 else p).
Proof.
  destruct ends as [|e rest]; cbn; [discriminate|]. intros H; injection H as <- _.
  unfold solver_window. destruct (Nat.eqb i 0); reflexivity.
Qed.

Lemma windows_contiguous_gen tf ends : forall i p, contiguous (solver_windows tf i p ends).
Proof.
  induction ends as [|e rest IH]; intros i p k a b a' b' H1 H2; [destruct k; discriminate H1|].
  cbn [solver_windows] in H1, H2. destruct k as [|k].
  - cbn in H1, H2. destruct (solver_windows tf (S i) (snd (solver_window tf i p e)) rest) as [|w r] eqn:E; [discriminate|].
    injection H1 as Hw. rewrite Hw in E. apply windows_head in E. cbn in E.
    injection H2 as ->. exact E.
  - cbn [nth_error] in H1, H2. eapply IH; eauto.
Qed.

Lemma windows_length tf ends : forall i p, length (solver_windows tf i p ends) = length ends.
Proof. induction ends as [|e rest IH]; intros; cbn; [reflexivity|]. now rewrite IH. Qed.

(** With increasing requested end times that do not exceed time_final, every window is
    forward and bounded. *)
Lemma windows_bounded_gen tf ends : forall i p, (0 < i)%nat -> p <= tf ->
  Forall (fun w => fst w <= tf /\ snd w <= tf) (solver_windows tf i p ends).
Proof.
  induction ends as [|e rest IH]; intros i p Hi Hp; cbn [solver_windows]; [constructor|].
  unfold solver_window. destruct (Nat.eqb_spec i 0); [lia|].
  constructor.
  - cbn [fst snd]. split; [assumption|]. destruct (Rle_dec e 1e-14); [lra|]. unfold fmin. apply Rmin_r.
  - apply IH; [lia|]. cbn [fst snd]. destruct (Rle_dec e 1e-14); [lra|]. unfold fmin. apply Rmin_r.
Qed.

Lemma windows_bounded tf ends :
  0 <= tf -> (forall e r, ends = e :: r -> e <= tf) ->
  Forall (fun w => fst w <= tf /\ snd w <= tf) (solver_windows tf 0 0 ends).
Proof.
  intros Htf Hf. destruct ends as [|e rest]; cbn [solver_windows]; [constructor|].
  specialize (Hf e rest eq_refl). unfold solver_window. cbn [Nat.eqb].
  assert (Hs : (if Rle_dec e 1e-14 then fmax 0 tf else e) <= tf).
  { destruct (Rle_dec e 1e-14); [|lra]. unfold fmax. rewrite Rmax_right; lra. }
  constructor; [cbn [fst snd]; split; assumption|].
  apply windows_bounded_gen; [lia|]. exact Hs.
Qed.


Lemma windows_forward_gen tf ends : forall i p, (0 < i)%nat -> p <= tf ->
  nondecreasing ends -> (forall e, In e ends -> 1e-14 < e) ->
  (forall e r, ends = e :: r -> p <= e) ->
  Forall (fun w => fst w <= snd w) (solver_windows tf i p ends).
Proof.
  induction ends as [|e rest IH]; intros i p Hi Hp Hn Hpos Hh; cbn [solver_windows]; [constructor|].
  unfold solver_window. destruct (Nat.eqb_spec i 0); [lia|].
  assert (He : 1e-14 < e) by (apply Hpos; left; reflexivity).
  destruct (Rle_dec e 1e-14); [lra|].
  specialize (Hh e rest eq_refl).
  assert (Hm : p <= fmin e tf) by (unfold fmin; apply Rmin_glb; assumption).
  constructor; [exact Hm|]. cbn [snd]. apply IH; [lia| | | |].
  - unfold fmin; apply Rmin_r.
  - apply Hn.
  - intros x Hx; apply Hpos; right; assumption.
  - intros e' r' ->. destruct Hn as [Hle _]. unfold fmin. eapply Rle_trans; [apply Rmin_l|exact Hle].
Qed.

Lemma windows_forward tf ends :
  nondecreasing ends -> (forall e, In e ends -> 1e-14 < e <= tf) ->
  Forall (fun w => fst w <= snd w) (solver_windows tf 0 0 ends).
Proof.
  intros Hn Hb. destruct ends as [|e rest]; cbn [solver_windows]; [constructor|].
  unfold solver_window. cbn [Nat.eqb]. assert (He : 1e-14 < e <= tf) by (apply Hb; left; reflexivity).
  destruct (Rle_dec e 1e-14); [lra|].
  constructor; [cbn [fst snd]; lra|]. cbn [snd]. apply windows_forward_gen; [lia|lra|apply Hn| |].
  - intros x Hx; apply Hb; right; assumption.
  - intros e' r' ->. apply Hn.
Qed.

(** ** Euclidean form of the distance *)
Lemma node_dist_euclid x a b : node_dist x a b = euclid x a b.
Proof.
  unfold node_dist, euclid. rewrite Rabs_pos_eq by apply sqrt_pos. f_equal. unfold Rsqr. ring.
Qed.

Lemma run_cfl_full c env s :
  0 <= dt_cfl c -> final_of (run c env) = Some s ->
  forall i h es e, nth_error (hist s) i = Some h -> In es (env i) -> In e es ->
  e_eroded e = false -> 0 < e_c e + fuzz c ->
  forall a b, (a < 8)%nat -> (b < 8)%nat -> a <> b ->
  c_dt h <= Rmax (dt_cfl c * euclid (e_x e) a b / (e_c e + fuzz c)) (dt_min c).
Proof.
  intros Hc Hf i h es e Hi He Hin Her Hpos a b Ha Hb Hab.
  eapply Rle_trans; [eapply run_cfl; eauto|].
  eapply Rle_trans; [apply elem_dt_cfl; assumption|].
  apply Rle_max_compat_r. rewrite <- node_dist_euclid.
  unfold Rdiv. apply Rmult_le_compat_r; [left; now apply Rinv_0_lt_compat|].
  apply Rmult_le_compat_l; [assumption|]. now apply dist_min_spec.
Qed.

(** ** Witnesses for the refutations *)
Ltac rdec := repeat (match goal with
  | |- context [Rmin ?a ?b] => first [rewrite (Rmin_left a b) by lra | rewrite (Rmin_right a b) by lra]
  | |- context [Rmax ?a ?b] => first [rewrite (Rmax_left a b) by lra | rewrite (Rmax_right a b) by lra]
  end); try lra.

Definition w_cfg (ts tf : R) (cyc stop : nat) : tcfg :=
  mkCfg (1/1000) 1 1 (4/10) (1/10000) (1/1000) ts tf 1 cyc stop.

Lemma w_good ts tf cyc stop : ts < tf -> good_cfg (w_cfg ts tf cyc stop).
Proof. intros H. unfold good_cfg, w_cfg; cbn. lra. Qed.

(** one material without elements (legal: a material whose regions cover nothing) *)
Definition w_env : nat -> list (list elem_in) := fun _ => [[]].

Lemma cycle_dt_empty c t g d :
  cycle_dt c [[]] t g d =
  Rmin (Rmin (Rmin (d * (11/10)) (Rmax (fuzz c) (g - t) + tiny c)) (t_final c - t + tiny c)) (dt_max c).
Proof. reflexivity. Qed.

Lemma cycle_limit_lost :
  exists c env s, good_cfg c /\ (forall k, env k <> []) /\ run c env = CycleLimit s /\
    hist s <> [] /\ ~ In (time s) (writes s).
Proof.
  exists (mkCfg (1/1000) 1 (1/2) (4/10) (1/10000) (1/1000) 0 10 1 100 1), w_env.
  eexists. split; [unfold good_cfg; cbn; lra|]. split; [discriminate|].
  unfold run, init_state. cbn [cycle_stop run_loop cycle w_env].
  unfold cycle_body, do_write. cbn [gr_cyc cycle time dt gtime Nat.eqb cycle_stop t_start t_final dt_start gr_dt out_id writes hist].
  rewrite cycle_dt_empty. cbn [fuzz tiny t_final dt_max].
  match goal with |- context [0 + ?x] =>
     match x with Rmin _ _ => replace x with (11/20) end end.
  2:{ rdec. }
  cbn [Nat.modulo Nat.divmod fst snd Nat.eqb Nat.ltb Nat.leb andb Nat.sub Nat.add].
  destruct (Rle_dec 10 (0 + 11/20)); [lra|]. destruct (Rle_dec (0 + 1) (0 + 11/20)); [lra|].
  cbn [andb]. split; [reflexivity|]. cbn [hist writes time app]. split; [discriminate|].
  intros [H|[]]. lra.
Qed.

(** A solver that starts late: the pending graphics time falls behind and every cycle crawls. *)
Lemma late_start_step c mats s s' h :
  mats <> [] -> cyc_facts c mats s s' h -> gtime s <= time s -> 0 <= fuzz c ->
  0 < c_dt h ->
  c_dt h <= fuzz c + tiny c /\ c_wrote h = true.
Proof.
  intros Hne F Hg Hfz Hd.
  destruct (cycle_step_bounds _ _ _ _ _ Hne F) as (B1 & B2 & B3 & B4 & B5).
  rewrite (cf_gt _ _ _ _ _ F), (cf_t0 _ _ _ _ _ F) in *.
  split.
  - rewrite Rmax_left in B4; lra.
  - destruct (c_wrote h) eqn:W; [reflexivity|exfalso].
    pose proof (cf_w _ _ _ _ _ F) as D. rewrite W in D.
    eapply do_write_gt; [|exact D]. lra.
Qed.

Lemma run_late c env s' :
  good_cfg c -> (forall k, env k <> []) -> final_of (run c env) = Some s' ->
  Forall (fun h => c_gt h <= c_t0 h -> c_dt h <= fuzz c + tiny c /\ c_wrote h = true) (hist s').
Proof.
  intros G Hne Hf. unfold run in Hf.
  eapply (hist_forall c env (prog_inv c)); [| | | |exact Hf].
  - intros s s1 h I F Hg. destruct (prog_step _ _ _ _ _ G I F) as (A & _).
    pose proof (min_progress_pos c G). destruct G as (G1 & G2 & G3 & G4 & G5 & G6).
    rewrite (cf_gt _ _ _ _ _ F), (cf_t0 _ _ _ _ _ F) in Hg.
    eapply late_start_step; eauto. lra.
  - intros s s1 I E. eapply prog_continue; eauto.
  - apply prog_inv_init; assumption.
  - constructor.
Qed.

Lemma cycle_body_continue_eq c mats s d w :
  cycle_dt c mats (time s) (gtime s) (dt s) = d ->
  do_write c (cycle s) (time s + d) (gtime s) = Some w ->
  w && negb (write_ok (out_id s)) = false -> time s + d < t_final c ->
  cycle_body c mats s = Continue (
    let h := hist s ++ [mkCyc (time s) (dt s) (gtime s) d (time s + d) w] in
    if w then mkLst (time s + d) (dt s) (INR (S (out_id s)) * gr_dt c) (S (out_id s)) (S (cycle s))
                      (writes s ++ [time s + d]) h
      else mkLst (time s + d) d (gtime s) (out_id s) (S (cycle s)) (writes s) h).
Proof.
  intros Hd Hw Hu Ht. unfold cycle_body. rewrite Hd, Hw, Hu.
  destruct (Rle_dec (t_final c) (time s + d)); [lra|]. reflexivity.
Qed.

Lemma late_start_flood :
  exists c env s, good_cfg c /\ (forall k, env k <> []) /\ (cycle_stop c < gr_cyc c)%nat /\
    fuzz c + tiny c < gr_dt c /\
    run c env = CycleLimit s /\
    exists l a b, writes s = l ++ [a; b] /\ b < t_final c /\ b - a < gr_dt c / 100.
Proof.
  exists (w_cfg 10 20 100 2), w_env. eexists.
  split; [apply w_good; lra|]. split; [discriminate|]. split; [cbn; lia|].
  split; [cbn; lra|].
  unfold run. cbn [w_cfg cycle_stop run_loop].
  rewrite (cycle_body_continue_eq _ _ (init_state _) 1 true).
  2:{ cbn [w_env init_state cycle time gtime dt w_cfg t_start gr_dt dt_start].
      rewrite cycle_dt_empty. cbn [w_cfg fuzz tiny t_final dt_max]. rdec. }
  2:{ cbn [init_state cycle time gtime dt w_cfg t_start gr_dt dt_start]. unfold do_write.
      cbn [w_cfg t_final gr_cyc]. change (Nat.eqb 100 0) with false. cbv iota.
      destruct (_ && _); [reflexivity|]. destruct (Nat.eqb _ _); [reflexivity|].
      destruct (Rle_dec 20 (10 + 1)); [reflexivity|].
      destruct (Rle_dec (10 + 1) (10 + 1)); [reflexivity|lra]. }
  2:{ reflexivity. }
  2:{ cbn; lra. }
  cbv zeta iota. cbn [init_state cycle time gtime dt w_cfg t_start gr_dt dt_start writes hist out_id app].
  match goal with |- context [cycle_body ?c ?m ?s] => rewrite (cycle_body_continue_eq c m s (11/10000) true) end.
  2:{ cbn [w_env init_state cycle time gtime dt w_cfg t_start gr_dt dt_start].
      rewrite cycle_dt_empty. cbn [w_cfg fuzz tiny t_final dt_max INR]. rdec. }
  2:{ cbn [init_state cycle time gtime dt w_cfg t_start gr_dt dt_start]. unfold do_write.
      cbn [w_cfg t_final gr_cyc]. change (Nat.eqb 100 0) with false. cbv iota.
      destruct (_ && _); [reflexivity|]. destruct (Nat.eqb _ _); [reflexivity|].
      destruct (Rle_dec 20 (10 + 1 + 11/10000)); [reflexivity|].
      match goal with |- context [Rle_dec ?a ?b] => destruct (Rle_dec a b) as [|Hn] end; [reflexivity|].
      exfalso; apply Hn; cbn [INR]; lra. }
  2:{ reflexivity. }
  2:{ cbn; lra. }
  cbv zeta iota. split; [reflexivity|]. cbn [writes time app]. exists [10], (10+1), (10+1+11/10000).
  split; [reflexivity|]. cbn [w_cfg t_final gr_dt]. lra.
Qed.

(** Overflow of the table of graphics times. *)
Lemma overflow_loop c env n : forall s,
  gr_cyc c = 1%nat -> 0 < dt_max c -> (1 <= cycle s)%nat -> out_id s = cycle s ->
  (N.of_nat (cycle s) <= graphics_cap)%N ->
  (graphics_cap < N.of_nat (cycle s + n))%N ->
  time s + INR n * dt_max c < t_final c ->
  run_loop c env n s = RUndefined.
Proof.
  induction n as [|n IH]; intros s Hg Hm Hc Ho Hle Hcap Ht; [rewrite Nat.add_0_r in Hcap; lia|].
  cbn [run_loop]. unfold cycle_body, do_write. rewrite Hg. cbn [Nat.eqb].
  rewrite Nat.mod_1_r. cbn [Nat.eqb andb].
  destruct (Nat.ltb_spec 0 (cycle s)) as [_|]; [|lia]. cbn [andb].
  set (d := cycle_dt c (env (cycle s)) (time s) (gtime s) (dt s)).
  assert (Hd : d <= dt_max c) by apply cycle_dt_le_max.
  rewrite S_INR in Ht. pose proof (pos_INR n) as Hn.
  assert (0 <= INR n * dt_max c) by (apply Rmult_le_pos; lra).
  destruct (write_ok (out_id s)) eqn:Hw; cbn [negb]; [|reflexivity].
  unfold write_ok in Hw. apply N.ltb_lt in Hw.
  destruct (Rle_dec (t_final c) (time s + d)); [lra|].
  apply IH; cbn [cycle out_id time]; auto; try lia; lra.
Qed.

Lemma overflow_witness : exists c env,
  good_cfg c /\ gr_cyc c <> 0%nat /\ (forall k, env k <> []) /\ run c env = RUndefined.
Proof.
  exists (mkCfg (1/1000) 1 (1/2) (4/10) (1/10000) (1/1000) 0 100000 1000 1 (N.to_nat 30000)), w_env.
  split; [unfold good_cfg; cbn; lra|]. split; [cbn; lia|]. split; [discriminate|].
  unfold run. cbn [cycle_stop].
  replace (N.to_nat 30000) with (S (N.to_nat 29999)) at 2 by lia.
  cbn [run_loop].
  rewrite (cycle_body_continue_eq _ _ (init_state _) (11/20) false).
  2:{ cbn [w_env init_state cycle time gtime dt t_start gr_dt dt_start].
      rewrite cycle_dt_empty. cbn [fuzz tiny t_final dt_max]. rdec. }
  2:{ cbn [init_state cycle time gtime dt t_start gr_dt dt_start]. unfold do_write.
      cbn [t_final gr_cyc cycle_stop]. change (Nat.eqb 1 0) with false. cbv iota.
      change (Nat.ltb 0 0) with false. rewrite andb_false_r.
      destruct (Nat.eqb_spec 0 (N.to_nat 30000)) as [H|_]; [exfalso; lia|].
      destruct (Rle_dec 100000 (0 + 11/20)); [lra|].
      destruct (Rle_dec (0 + 1000) (0 + 11/20)); [lra|]. reflexivity. }
  2:{ reflexivity. }
  2:{ cbn [init_state time t_start t_final]. lra. }
  cbv zeta iota. apply overflow_loop; cbn [gr_cyc dt_max cycle out_id time t_final init_state t_start]; auto; try lra.
  - unfold graphics_cap. lia.
  - unfold graphics_cap. lia.
  - rewrite INR_IZR_INZ. rewrite N_nat_Z. change (Z.of_N 29999) with 29999%Z. lra.
Qed.

(** ** Backward windows *)
Lemma backward_negative c mats t g d :
  mats <> [] -> t_final c + tiny c < t -> cycle_dt c mats t g d < 0.
Proof.
  destruct mats as [|es mats]; [congruence|]. intros _ H.
  pose proof (cycle_dt_le_mat c (es :: mats) t g d es (or_introl eq_refl)).
  pose proof (get_timestep_le_final c es t g d). lra.
Qed.

Lemma dist_min_euclid x :
  (forall a b, (a < 8)%nat -> (b < 8)%nat -> a <> b -> dist_min x <= euclid x a b) /\
  (exists a b, (a < 8)%nat /\ (b < 8)%nat /\ a <> b /\ dist_min x = euclid x a b).
Proof.
  destruct (dist_min_spec x) as [H1 (a & b & H2 & H3 & H4 & H5)]. split.
  - intros a' b' ? ? ?. rewrite <- node_dist_euclid. now apply H1.
  - exists a, b. rewrite <- node_dist_euclid. auto.
Qed.

Lemma run_outputs_common c env : good_cfg c ->
  let common s :=
    (exists rest, writes s = t_start c :: rest) /\
    strictly_increasing (writes s) /\
    (forall h, In h (hist s) -> c_gt h <= c_t1 h -> In (c_t1 h) (writes s)) /\
    (forall y, In y (writes s) -> y = t_start c \/ exists h, In h (hist s) /\ c_t1 h = y) in
  match run c env with
  | RUndefined => True
  | ReachedFinal s => common s /\ exists l, writes s = l ++ [time s]
  | CycleLimit s => common s
  end.
Proof.
  intros G common.
  assert (X : forall s, out_post c s -> common s).
  { intros s (H1 & H2 & H3 & H4 & H5 & H6 & H7). unfold common.
    split; [assumption|]. split; [assumption|]. split; [auto|].
    intros y Hy. destruct (H6 y Hy) as [->|[h [A [B _]]]]; [left; reflexivity|right; exists h; auto]. }
  pose proof (run_outputs c env G) as Y.
  destruct (run c env); [exact I|split; [apply X|]; apply Y|apply X; exact Y].
Qed.

Lemma windows_contiguous tf ends :
  let l := solver_windows tf 0 0 ends in
  length l = length ends /\ contiguous l /\ (forall a b r, l = (a, b) :: r -> a = 0).
Proof.
  cbv zeta. split; [apply windows_length|]. split; [apply windows_contiguous_gen|].
  intros a b r H. apply windows_head in H. exact H.
Qed.

Lemma windows_ok tf ends :
  nondecreasing ends -> (forall e, In e ends -> 1e-14 < e <= tf) ->
  Forall (fun w => fst w <= snd w /\ snd w <= tf) (solver_windows tf 0 0 ends).
Proof.
  intros H1 H2. destruct ends as [|e r]; [constructor|].
  pose proof (windows_forward tf (e :: r) H1 H2) as A.
  assert (He : 1e-14 < e <= tf) by (apply H2; left; reflexivity).
  assert (B : Forall (fun w => fst w <= tf /\ snd w <= tf) (solver_windows tf 0 0 (e :: r))).
  { apply windows_bounded; [lra|]. intros e' r' E. injection E as <- _. lra. }
  apply Forall_forall. intros w Hw. split.
  - exact (proj1 (Forall_forall _ _) A w Hw).
  - exact (proj2 (proj1 (Forall_forall _ _) B w Hw)).
Qed.

Lemma windows_unbounded : exists tf ends,
  0 < tf /\ exists w, In w (solver_windows tf 0 0 ends) /\ tf < snd w.
Proof.
  exists 1, [5]. split; [lra|]. cbn [solver_windows]. unfold solver_window. cbn [Nat.eqb].
  destruct (Rle_dec 5 1e-14); [lra|]. eexists; split; [left; reflexivity|]. cbn [snd]. lra.
Qed.

Lemma windows_backward : exists tf ends, (forall e, In e ends -> 0 < e < tf) /\
  exists w, In w (solver_windows tf 0 0 ends) /\ snd w < fst w.
Proof.
  exists 10, [5; 2]. split; [intros e [<-|[<-|[]]]; lra|].
  cbn [solver_windows]. unfold solver_window. cbn [Nat.eqb].
  destruct (Rle_dec 5 1e-14); [lra|]. destruct (Rle_dec 2 1e-14); [lra|].
  eexists; split; [right; left; reflexivity|]. cbn [fst snd]. unfold fmin. rewrite Rmin_left; lra.
Qed.
