(* The crystal solver called by a finite element code: C116. *)
From Coq Require Import Reals List Arith Lia Lra ZArith Bool.
From Verif Require Import BaseReal LinModel EvpModel EvpFlowModel EvpStepModel EvpSpec EvpFlowSpec EvpBasis EvpElast EvpMisesProps EvpMeanProps EvpNewtonProps.
Import ListNotations.
Local Open Scope R_scope.

Definition speed (L : nat -> nat -> R) : R := sqrt (ddot L L).
(* Calls with a velocity gradient below 1e-16 count for nothing. *)
Definition counts (c : T2 * R) : bool := if Rlt_dec (speed (fst c)) (1 / 10 ^ 16) then false else true.
Definition deformation (l : list (T2 * R)) (i j : nat) : R := suml (fun c : T2 * R => fst c i j * snd c) l.
Definition duration (l : list (T2 * R)) : R := suml (fun c : T2 * R => snd c) l.

Lemma norm_speed (L : T2) : sqrt (sum1 3 (fun i => sum1 3 (fun j => L i j * L i j))) = speed L.
Proof. unfold speed. f_equal. rewrite sum1_3. unfold ddot. apply S3_ext. intros i I. apply sum1_3. Qed.

Section Link.
Context {M : Type} (run : bool -> T2 -> R -> M -> M * averages * T2) (th : R).

Lemma skip L dt st stress : speed L < 1 / 10 ^ 16 -> link_solve run th L dt st stress = (st, stress, None).
Proof. intros H. unfold link_solve. cbv zeta. rewrite norm_speed. destruct (Rlt_dec _ _); [reflexivity|contradiction]. Qed.

(* What one call does to what was accumulated and what was run. *)
Lemma one_call L dt st stress : 0 < dt -> 0 <= l_dtAcc st ->
  let '(st', _, e) := link_solve run th L dt st stress in
  let ran := match e with Some x => [x] | None => [] end in
  let counted := if counts (L, dt) then [(L, dt)] else [] in
  (forall i j, deformation ran i j + l_udotAcc st' i j = l_udotAcc st i j + deformation counted i j) /\
  duration ran + l_dtAcc st' = l_dtAcc st + duration counted /\ 0 <= l_dtAcc st'.
Proof.
  intros P Q. unfold counts. cbn [fst]. unfold link_solve. cbv zeta. rewrite norm_speed. destruct (Rlt_dec (speed L) (1 / 10 ^ 16)).
  - unfold deformation, duration. cbn. split; [intros; ring|]. split; lra.
  - destruct (l_active st && _)%bool.
    + cbn [l_udotAcc l_dtAcc]. unfold deformation, duration. cbn [suml fold_right fst snd]. split; [intros; ring|]. split; lra.
    + destruct (run _ _ _ _) as [[g a] sc]. cbn [l_udotAcc l_dtAcc]. unfold deformation, duration. cbn [suml fold_right fst snd]. split; [intros; field; lra|]. split; lra.
Qed.
End Link.

Lemma deformation_app a b i j : deformation (a ++ b) i j = deformation a i j + deformation b i j.
Proof. unfold deformation. apply suml_app. Qed.
Lemma duration_app a b : duration (a ++ b) = duration a + duration b.
Proof. unfold duration. apply suml_app. Qed.

Lemma link_run_snoc {M} run th calls (st : link M) stress L dt :
  link_run run th (calls ++ [(L, dt)]) st stress =
  let '(st1, s1, done) := link_run run th calls st stress in
  let '(st2, s2, e) := link_solve run th L dt st1 s1 in (st2, s2, match e with Some x => done ++ [x] | None => done end).
Proof. unfold link_run. rewrite fold_left_app. cbn [fold_left fst snd]. destruct (fold_left _ calls _) as [[st1 s1] done]. reflexivity. Qed.

(* C116: nothing of the deformation is lost or used twice: what the steps were run
   with and what is still kept is what the calls that count asked for, and likewise
   the time. *)
Theorem C116_deformation {M} run th calls (st : link M) stress : (forall c, In c calls -> 0 < snd c) -> 0 <= l_dtAcc st ->
  let '(st', _, steps) := link_run run th calls st stress in
  (forall i j, deformation steps i j + l_udotAcc st' i j = l_udotAcc st i j + deformation (filter counts calls) i j) /\
  duration steps + l_dtAcc st' = l_dtAcc st + duration (filter counts calls) /\ 0 <= l_dtAcc st'.
Proof.
  intros P Q. induction calls as [|[L dt] calls IH] using rev_ind.
  - cbn. split; [intros; unfold deformation; cbn; ring|]. split; [unfold duration; cbn; ring|exact Q].
  - rewrite link_run_snoc. specialize (IH ltac:(intros c C; apply P; apply in_or_app; left; exact C)). destruct (link_run run th calls st stress) as [[st1 s1] done].
    destruct IH as (D & T & N). pose proof (one_call run th L dt st1 s1 (P (L, dt) ltac:(apply in_or_app; right; left; reflexivity)) N) as O.
    destruct (link_solve run th L dt st1 s1) as [[st2 s2] e]. cbv zeta in O. destruct O as (D2 & T2 & N2).
    assert (F : filter counts (calls ++ [(L, dt)]) = filter counts calls ++ if counts (L, dt) then [(L, dt)] else []) by (rewrite filter_app; cbn [filter]; destruct (counts (L, dt)); reflexivity).
    rewrite F. split; [|split; [|exact N2]].
    + intros i j. rewrite deformation_app. specialize (D i j). specialize (D2 i j). destruct e as [x|]; [rewrite deformation_app; lra|].
      change (deformation [] i j) with 0 in D2. lra.
    + rewrite duration_app. destruct e as [x|]; [rewrite duration_app; lra|]. change (duration []) with 0 in T2. lra.
Qed.
Print Assumptions C116_deformation.

(* Time at rest does not pass for the crystal: however long the specimen is held, the
   stress stays as it is. *)
Theorem C116_hold_refuted {M} run th holds (st : link M) stress : (forall c, In c holds -> forall i j, fst c i j = 0) ->
  link_run run th holds st stress = (st, stress, []).
Proof.
  intros H. induction holds as [|[L dt] l IH] using rev_ind; [reflexivity|]. rewrite link_run_snoc, IH by (intros c C; apply H; apply in_or_app; left; exact C).
  rewrite skip; [reflexivity|]. unfold speed. replace (ddot L L) with 0; [rewrite sqrt_0; apply Rdiv_lt_0_compat; [lra|apply pow_lt; lra]|].
  assert (Z : forall i j, L i j = 0) by (intros; apply (H (L, dt)); apply in_or_app; right; left; reflexivity). unfold ddot, S3. rewrite !Z. ring.
Qed.
Print Assumptions C116_hold_refuted.

(* Once started, what is kept back is a strain below the threshold. *)
Theorem C116_bounded {M} run th L dt (st : link M) stress : 0 < th ->
  (l_active st = true -> vm (l_udotAcc st) < th) -> let '(st', _, _) := link_solve run th L dt st stress in l_active st' = true -> vm (l_udotAcc st') < th.
Proof.
  intros T I. unfold link_solve. cbv zeta. destruct (Rlt_dec (sqrt _) _); [exact I|].
  match goal with |- context [vm ?x] => set (acc := x) end. destruct (l_active st); cbn [andb].
  - destruct (Rlt_dec (vm acc) th) as [V|V].
    + cbn [l_active l_udotAcc]. intros _. refine (Rle_lt_trans _ _ _ (Req_le _ _ _) V). rewrite !C115_strain. apply mises_ext. intros i j _ _. unfold acc, sym_part. field.
    + destruct (run _ _ _ _) as [[g a] sc]. cbn [l_active l_udotAcc]. intros _. replace (vm (fun _ _ => 0)) with 0; [exact T|]. symmetry. apply C115_zero. exists 0. intros. unfold sym_part. field.
  - destruct (run _ _ _ _) as [[g a] sc]. cbn [l_active l_udotAcc]. intros _. replace (vm (fun _ _ => 0)) with 0; [exact T|]. symmetry. apply C115_zero. exists 0. intros. unfold sym_part. field.
Qed.
Print Assumptions C116_bounded.

(* But a change of volume is not a strain in this sense: under pressure alone the crystal
   is never solved again, however far it is compressed. *)
Theorem C116_volume_refuted {M} run th calls (st : link M) stress : 0 < th -> l_active st = true -> (forall i j, l_udotAcc st i j = 0) ->
  (forall c, In c calls -> exists p, forall i j, fst c i j = p * d i j) ->
  let '(st', _, steps) := link_run run th calls st stress in steps = [] /\ l_grid st' = l_grid st /\ l_avg st' = l_avg st.
Proof.
  intros T A Z H.
  assert (G : let '(st', _, steps) := link_run run th calls st stress in (steps = [] /\ l_grid st' = l_grid st /\ l_avg st' = l_avg st) /\ l_active st' = true /\ exists p, forall i j, l_udotAcc st' i j = p * d i j).
  { induction calls as [|[L dt] l IH] using rev_ind.
    - cbn. split; [repeat split|]. split; [exact A|]. exists 0. intros. rewrite Z. ring.
    - rewrite link_run_snoc. specialize (IH ltac:(intros c C; apply H; apply in_or_app; left; exact C)). destruct (link_run run th l st stress) as [[st1 s1] done].
      destruct IH as ((D & Gr & Av) & A1 & p & P). destruct (H (L, dt) ltac:(apply in_or_app; right; left; reflexivity)) as (q & Q). cbn [fst] in Q.
      unfold link_solve. cbv zeta. destruct (Rlt_dec (sqrt _) _); [split; [repeat split; assumption|split; [exact A1|exists p; exact P]]|].
      rewrite A1. cbn [andb]. destruct (Rlt_dec (vm _) th) as [V|V].
      + split; [repeat split; assumption|]. split; [reflexivity|]. exists (p + q * dt). intros i j. cbn [l_udotAcc]. rewrite P, Q. ring.
      + exfalso. apply V. refine (Rle_lt_trans _ _ _ (Req_le _ _ _) T). apply C115_zero. exists (p + q * dt). intros i j _ _. unfold sym_part. rewrite !P, !Q. assert (d j i = d i j) as -> by (unfold d; rewrite Nat.eqb_sym; reflexivity). field. }
  destruct (link_run run th calls st stress) as [[st' s'] steps]. exact (proj1 G).
Qed.
Print Assumptions C116_volume_refuted.

(* Between two solutions the stress follows the tangent: its change, times the
   compliance with the flow of the time step, is the strain less the plastic one. *)
Theorem C116_tangent avg L dt : pos6 (fun n m => a_sg66 avg n m + a_dedotp66 avg n m * dt) -> symmetric (a_edotp avg) ->
  forall i j, idx 3 i -> idx 3 j ->
  act (chg_basis_3 6 (fun n m => a_sg66 avg n m + a_dedotp66 avg n m * dt)) (link_dstress avg L dt) i j = sym_part L i j * dt - a_edotp avg i j * dt.
Proof.
  intros P S i j I J. set (A := fun n m => a_sg66 avg n m + a_dedotp66 avg n m * dt) in *. pose proof (inverted6 A P) as V.
  set (E := fun i j => 1 / 2 * (L i j + L j i) * dt - a_edotp avg i j * dt).
  assert (SE : symmetric E) by (intros a b Ha Hb; unfold E; rewrite (S a b Ha Hb); ring).
  transitivity (act (chg_basis_3 6 A) (act (chg_basis_3 6 (inverted 6 A)) E) i j).
  - unfold act at 1 2. apply S3_ext. intros k K. apply S3_ext. intros l Hl. f_equal. unfold link_dstress. cbv zeta. fold A. unfold act. rewrite sum1_3. apply S3_ext. intros a Ha. apply sum1_3.
  - rewrite (proj2 (compliance A (inverted 6 A) E i j V SE I J)). unfold E, sym_part. field.
Qed.
Print Assumptions C116_tangent.

(* A call within the threshold adds exactly this change. *)
Theorem C116_within {M} run th L dt (st : link M) stress : counts (L, dt) = true -> l_active st = true ->
  vm (fun i j => l_udotAcc st i j + L i j * dt) < th ->
  let '(st', stress', e) := link_solve run th L dt st stress in e = None /\ l_grid st' = l_grid st /\ forall i j, stress' i j = stress i j + link_dstress (l_avg st) L dt i j.
Proof.
  intros C A V. unfold counts in C. cbn [fst] in C. unfold link_solve. cbv zeta. rewrite norm_speed. destruct (Rlt_dec (speed L) _); [discriminate|]. rewrite A. cbn [andb].
  destruct (Rlt_dec (vm _) th) as [_|N]; [repeat split|]. exfalso. apply N. refine (Rle_lt_trans _ _ _ (Req_le _ _ _) V). rewrite !C115_strain. apply mises_ext. intros i j _ _. unfold sym_part. field.
Qed.
Print Assumptions C116_within.

(* A call that goes beyond it, or the first that counts, solves the crystal once for all that
   was kept: with the mean rate over the time kept, and the stress is that of the solution. *)
Theorem C116_beyond {M} run th L dt (st : link M) stress : counts (L, dt) = true ->
  l_active st = false \/ th <= vm (fun i j => l_udotAcc st i j + L i j * dt) ->
  let '(st', stress', e) := link_solve run th L dt st stress in exists udot,
  (forall i j, udot i j = (l_udotAcc st i j + L i j * dt) / (l_dtAcc st + dt)) /\ e = Some (udot, l_dtAcc st + dt)
  /\ run (negb (l_active st)) udot (l_dtAcc st + dt) (l_grid st) = (l_grid st', l_avg st', stress')
  /\ l_active st' = true /\ l_dtAcc st' = 0 /\ forall i j, l_udotAcc st' i j = 0.
Proof.
  intros C V. unfold counts in C. cbn [fst] in C. unfold link_solve. cbv zeta. rewrite norm_speed. destruct (Rlt_dec (speed L) _); [discriminate|].
  assert (E : (l_active st && (if Rlt_dec (vm (fun i j => 1 / 2 * (l_udotAcc st i j + L i j * dt + (l_udotAcc st j i + L j i * dt)))) th then true else false))%bool = false).
  { destruct V as [->|V]; [reflexivity|]. destruct (Rlt_dec _ _) as [N|]; [|apply andb_false_r]. exfalso. apply (Rle_not_lt _ _ V). refine (Rle_lt_trans _ _ _ (Req_le _ _ _) N).
    rewrite !C115_strain. apply mises_ext. intros i j _ _. unfold sym_part. field. }
  rewrite E. destruct (run _ _ _ _) as [[g a] sc] eqn:Q. eexists. split; [|split; [reflexivity|split; [exact Q|repeat split]]]. intros i j. cbn beta. unfold Rdiv. ring.
Qed.
Print Assumptions C116_beyond.

(* Over a history the crystal is set up once, by the first step that is run, and every later
   step starts from the state the one before it left. *)
Theorem C116_once {M} (run : bool -> T2 -> R -> M -> M * averages * T2) th calls (st : link M) stress : l_active st = false ->
  let '(st', _, steps) := link_run run th calls st stress in
  l_grid st' = match steps with
               | [] => l_grid st
               | x :: rest => fold_left (fun g y => fst (fst (run false (fst y) (snd y) g))) rest (fst (fst (run true (fst x) (snd x) (l_grid st))))
               end /\ (l_active st' = true <-> steps <> []).
Proof.
  intros A. induction calls as [|[L dt] calls IH] using rev_ind.
  - cbn. split; [reflexivity|]. rewrite A. split; [discriminate|intros H; contradiction H; reflexivity].
  - rewrite link_run_snoc. destruct (link_run run th calls st stress) as [[st1 s1] done]. destruct IH as (G & Ac).
    unfold link_solve. cbv zeta. destruct (Rlt_dec (sqrt _) _); [split; [exact G|exact Ac]|].
    destruct (l_active st1 && _)%bool eqn:W.
    + cbn [l_grid l_active]. split; [exact G|]. apply andb_prop in W. destruct W as [W _]. split; [intros _; apply Ac, W|reflexivity].
    + destruct (run _ _ _ _) as [[gr' a'] sc'] eqn:Q2. cbn [l_grid l_active]. split; [|split; [intros _ H; destruct done; discriminate|reflexivity]].
      destruct done as [|x rest]; cbn [app].
      * assert (N : l_active st1 = false) by (destruct (l_active st1); [exfalso; apply (proj1 Ac); reflexivity|reflexivity]). rewrite N in Q2. cbn [negb] in Q2. rewrite G in Q2. cbn [fold_left fst snd]. rewrite Q2. reflexivity.
      * assert (N : l_active st1 = true) by (apply Ac; discriminate). rewrite N in Q2. cbn [negb] in Q2. rewrite fold_left_app. cbn [fold_left fst snd]. rewrite <- G, Q2. reflexivity.
Qed.
Print Assumptions C116_once.

(* The strain the grid reports lags: it predicts the next step with the load of this
   one, and the finite element code changes the load. *)
Theorem C116_strain_refuted itmax s n u1 t1 u2 t2 v i j : fluctuation s n -> sized s n -> grid_of n v -> (1 <= n)%nat -> strain_control s ->
  (forall i j, mean (r_disgrad v) i j = 0) ->
  let v' := solve itmax s [(u1, t1); (u2, t2)] (init_disgradmacro u1 t1 v) in
  mean (r_disgrad v') i j = u1 i j * t1 + u2 i j * t2 /\ r_macrot v' i j = 2 * (u1 i j * t1).
Proof.
  intros F Z G N C M0 v'. split.
  - unfold v'. rewrite (C113_imposed itmax s n _ _ i j F Z) by assumption. cbn [r_disgrad init_disgradmacro suml fold_right fst snd]. rewrite M0. ring.
  - unfold v'. cbn [solve fold_left fst snd].
    destruct (step_mean itmax s u1 t1 n (init_disgradmacro u1 t1 v) i j F Z G N) as (G' & _ & T1 & P1).
    destruct (step_mean itmax s u2 t2 n _ i j F Z G' N) as (_ & _ & T2 & _). rewrite T2, P1, T1.
    rewrite (proj1 (control_acum itmax s u1 t1 _ i j C)), (proj1 (control_acum itmax s u2 t2 _ i j C)). cbn [r_macro init_disgradmacro]. ring.
Qed.
Print Assumptions C116_strain_refuted.

(* With a gas point on the grid the mean tangent is made from memory never written. *)
Theorem C116_gas_refuted wgt pts pts' rs : dedotp66_avg wgt (pts ++ dedotp66_point true rs :: pts') = None /\
  (forall solid, exists D, dedotp66_avg wgt (map (dedotp66_point false) solid) = Some D).
Proof.
  split.
  - unfold dedotp66_avg. rewrite fold_left_app. cbn [fold_left dedotp66_point].
    assert (N : fold_left (fun (a p : option T2) => match a with Some x => match p with Some y => Some (fun i j => x i j + y i j * wgt) | None => None end | None => None end) pts' None = None) by (induction pts'; [reflexivity|assumption]).
    destruct (fold_left _ pts _); exact N.
  - intros solid. unfold dedotp66_avg. generalize (fun _ _ : nat => 0). induction solid as [|x l IH]; intros D; [exists D; reflexivity|]. cbn [map fold_left dedotp66_point]. apply IH.
Qed.
Print Assumptions C116_gas_refuted.

(* Two stretches of a hundredth with the threshold at three. *)
Example C116_met : exists (st : link unit) (L : T2), counts (L, 1 / 100) = true /\ l_active st = true /\ 0 < 3 / 100 /\ vm (l_udotAcc st) < 3 / 100 /\ 0 < vm (l_udotAcc st) /\
  vm (fun i j => l_udotAcc st i j + L i j * (1 / 100)) < 3 / 100 /\ pos6 (fun n m => a_sg66 (l_avg st) n m + a_dedotp66 (l_avg st) n m * (1 / 100)) /\ symmetric (a_edotp (l_avg st)).
Proof.
  set (L := fun i j => (3 * (d i 1 * d j 1) - d i j) / 2).
  exists {| l_dtAcc := 1; l_udotAcc := fun i j => 1 / 100 * (3 * (d i 1 * d j 1) - d i j) / 2; l_active := true; l_grid := tt; l_avg := {| a_sg66 := d; a_dedotp66 := d; a_edotp := fun i j => d i j |} |}, L.
  cbn [l_active l_udotAcc l_avg a_sg66 a_dedotp66 a_edotp].
  assert (V1 : vm (fun i j => 1 / 100 * (3 * (d i 1 * d j 1) - d i j) / 2) = 1 / 100) by (rewrite (proj1 (C115_tension (1 / 100) 0)); apply Rabs_pos_eq; lra).
  split.
  - unfold counts. cbn [fst]. destruct (Rlt_dec (speed L) (1 / 10 ^ 16)) as [C|]; [|reflexivity]. exfalso.
    assert (1 <= speed L). { unfold speed. rewrite <- sqrt_1 at 1. apply sqrt_le_1_alt. unfold ddot, S3, L, d. cbn [Nat.eqb]. lra. }
    assert (1 < 10 ^ 16) by (apply Rlt_pow_R1; [lra|lia]). assert (1 / 10 ^ 16 < 1). { apply (Rmult_lt_reg_r (10 ^ 16)); [lra|]. unfold Rdiv. rewrite Rmult_1_l, Rinv_l by lra. lra. } lra.
  - split; [reflexivity|]. split; [lra|]. split; [rewrite V1; lra|]. split; [rewrite V1; lra|]. split; [|split].
    + rewrite (C115_strain _), (mises_ext _ _ (sym_part (fun i j => 2 / 100 * (3 * (d i 1 * d j 1) - d i j) / 2))), <- C115_strain by (intros; unfold sym_part, L; field).
      rewrite (proj1 (C115_tension (2 / 100) 0)). rewrite Rabs_pos_eq; lra.
    + intros x X. pose proof (pos6_d x X) as P. refine (Rlt_le_trans _ _ _ (Rmult_lt_0_compat (101 / 100) _ ltac:(lra) P) (Req_le _ _ _)).
      rewrite <- S6_scale. apply S6_ext. intros n _. rewrite <- S6_scale. apply S6_ext. intros m _. field.
    + intros i j _ _. unfold d. rewrite Nat.eqb_sym. reflexivity.
Qed.
