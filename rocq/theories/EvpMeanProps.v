(* Means over the grid and the strain of the specimen: C113. *)
From Coq Require Import Reals List Arith Lia Lra ZArith Bool.
From Verif Require Import BaseReal LinModel EvpModel EvpFlowModel EvpStepModel EvpSpec EvpFlowSpec EvpBasis.
Import ListNotations.
Local Open Scope R_scope.

(* The mean of a field over its points. *)
Definition mean (f : list T2) (i j : nat) : R := suml (fun v : T2 => v i j) f / INR (length f).

Lemma INR_pos n : (1 <= n)%nat -> 0 < INR n.
Proof. intros H. apply lt_0_INR. lia. Qed.

Lemma suml_const c (l : list T2) : suml (fun _ => c) l = INR (length l) * c.
Proof. induction l as [|a l IH]; [cbn; ring|]. rewrite suml_cons, IH. cbn [length]. rewrite S_INR. ring. Qed.
Lemma suml_right {A} (f : A -> R) (w : R) l : suml (fun x => f x * w) l = suml f l * w.
Proof. induction l as [|a l IH]; [cbn; ring|]. rewrite !suml_cons, IH. ring. Qed.
Lemma suml_concat {A} (f : A -> R) ls : suml f (concat ls) = suml (fun l => suml f l) ls.
Proof. induction ls as [|l ls IH]; [reflexivity|]. cbn [concat]. rewrite suml_app, suml_cons, IH. reflexivity. Qed.

(* C113: the mean stress is that over all points, however they are spread over the
   processes. *)
Theorem C113_stress (ranks : list (list (nat * T2))) i j : (1 <= length (concat ranks))%nat ->
  scauav (1 / INR (length (concat ranks))) ranks i j = mean (map snd (concat ranks)) i j.
Proof.
  intros N. pose proof (INR_pos _ N). unfold scauav, mean. rewrite map_length, suml_map.
  rewrite <- (suml_concat (fun v : nat * T2 => snd v i j * (1 / INR (length (concat ranks))))), suml_right. field. lra.
Qed.
Print Assumptions C113_stress.

Definition of_phase_one (pts : list (nat * T2)) : list T2 := map snd (filter (fun v => Nat.eqb (fst v) 1) pts).

Lemma phase_sum w pts i j : suml (fun v : nat * T2 => if Nat.eqb (fst v) 1 then snd v i j * w else 0) pts = suml (fun v : T2 => v i j) (of_phase_one pts) * w.
Proof.
  unfold of_phase_one. induction pts as [|[p v] pts IH]; [cbn; ring|]. rewrite suml_cons, IH. cbn [filter fst snd]. destruct (Nat.eqb p 1); [|ring].
  cbn [map]. rewrite suml_cons. cbn [snd]. ring.
Qed.

(* With one process the mean over the first phase is that of its points. *)
Theorem C113_phase pts wgt i j : 0 < wgt -> (1 <= length (of_phase_one pts))%nat -> scauav1 wgt [pts] i j = mean (of_phase_one pts) i j.
Proof.
  intros W N. unfold scauav1. cbn [suml fold_right]. rewrite Rplus_0_r.
  transitivity (suml (fun v : nat * T2 => if Nat.eqb (fst v) 1 then snd v i j * (wgt / wph1 wgt pts) else 0) pts).
  - apply suml_ext. intros v _. destruct (Nat.eqb (fst v) 1); [unfold Rdiv; ring|reflexivity].
  - rewrite phase_sum. unfold wph1, mean. assert (L : length (filter (fun v : nat * T2 => Nat.eqb (fst v) 1) pts) = length (of_phase_one pts)) by (unfold of_phase_one; rewrite map_length; reflexivity).
    rewrite L. pose proof (INR_pos _ N) as P. revert P. generalize (INR (length (of_phase_one pts))) (suml (fun v : T2 => v i j) (of_phase_one pts)). intros m x P. field. split; lra.
Qed.
Print Assumptions C113_phase.

(* With more, the means of the processes are added: for n processes with the same
   points, n times the mean. *)
Theorem C113_phase_refuted pts wgt n i j : 0 < wgt -> (1 <= length (of_phase_one pts))%nat ->
  scauav1 wgt (repeat pts n) i j = INR n * mean (of_phase_one (concat (repeat pts n))) i j.
Proof.
  intros W N. assert (S1 : scauav1 wgt (repeat pts n) i j = INR n * mean (of_phase_one pts) i j).
  { induction n as [|n IH]; [unfold scauav1; cbn; ring|]. transitivity (scauav1 wgt [pts] i j + scauav1 wgt (repeat pts n) i j); [unfold scauav1; cbn [repeat]; rewrite !suml_cons; change (suml ?f []) with 0; ring|].
    rewrite IH, (C113_phase pts wgt i j W N), S_INR. ring. }
  rewrite S1. destruct n as [|n]; [cbn [INR]; ring|]. f_equal.
  assert (C : forall m, suml (fun v : T2 => v i j) (of_phase_one (concat (repeat pts m))) = INR m * suml (fun v : T2 => v i j) (of_phase_one pts) /\
    INR (length (of_phase_one (concat (repeat pts m)))) = INR m * INR (length (of_phase_one pts))).
  { induction m as [|m [I1 I2]]; [cbn; split; ring|]. cbn [repeat concat]. unfold of_phase_one in *. rewrite filter_app, map_app, suml_app, app_length, plus_INR, I1, I2, S_INR. split; ring. }
  unfold mean. destruct (C (S n)) as [C1 C2]. rewrite C1, C2. pose proof (INR_pos (S n) ltac:(lia)). pose proof (INR_pos _ N). field. split; lra.
Qed.
Print Assumptions C113_phase_refuted.

(* ---------- the strain of the specimen ---------- *)

(* The correction in Fourier space has no mean: its coefficient at frequency zero is
   zero (C111_others), which is what the transform makes the sum of the field. *)
Definition fluctuation (s : solver) (n : nat) : Prop :=
  forall sg, length sg = n -> length (s_work s sg) = n /\ forall i j, suml (fun v : T2 => v i j) (s_work s sg) = 0.
Definition sized (s : solver) (n : nat) : Prop :=
  forall v, length (r_disgrad v) = n -> length (fst (fst (fst (s_local s v)))) = n.
Definition grid_of (n : nat) (v : rve) : Prop := length (r_disgrad v) = n /\ length (r_sg v) = n.

Lemma zip_length f a b n : length a = n -> length b = n -> length (zip f a b) = n.
Proof. intros A B. unfold zip. rewrite map_length, combine_length. lia. Qed.

Lemma zip_sum c a b i j : length a = length b ->
  suml (fun v : T2 => v i j) (zip (initialize_disgrad c) a b) = suml (fun v : T2 => v i j) b + INR (length b) * c i j + suml (fun v : T2 => v i j) a.
Proof.
  revert b. induction a as [|x a IH]; intros [|y b] L; try discriminate; [cbn; ring|].
  injection L as L. change (zip (initialize_disgrad c) (x :: a) (y :: b)) with (initialize_disgrad c x y :: zip (initialize_disgrad c) a b).
  rewrite !suml_cons, (IH b L). cbn [length]. rewrite S_INR. unfold initialize_disgrad. ring.
Qed.

(* What the loop keeps: the sum of the field is that of the start, and every correction
   but the last. *)
Definition loop_inv (n : nat) (base : T2) (v : rve) : Prop :=
  grid_of n v /\ forall i j, suml (fun x : T2 => x i j) (r_disgrad v) = INR n * (base i j + r_acum v i j - r_ddis v i j).

Lemma iteration_inv s n base v : fluctuation s n -> sized s n -> loop_inv n base v -> loop_inv n base (iteration s v) /\ r_macro (iteration s v) = r_macro v /\ r_macrot (iteration s v) = r_macrot v.
Proof.
  intros F Z ((LD & LS) & I). destruct (F (r_sg v) LS) as (LW & SW). unfold iteration. cbv zeta.
  set (disgrad := zip (initialize_disgrad (r_ddis v)) (s_work s (r_sg v)) (r_disgrad v)).
  assert (LZ : length disgrad = n) by (apply zip_length; assumption).
  set (v1 := Build_rve disgrad _ _ _ _ _ _ _ _ _ _ _ _). specialize (Z v1 LZ).
  destruct (s_local s v1) as [[[sg edotp] errs] erre]. cbn [fst] in Z. split; [|split; reflexivity].
  split; [split; [exact LZ|exact Z]|]. cbn [r_disgrad r_acum r_ddis]. intros i j. unfold disgrad. rewrite zip_sum by lia. rewrite I, SW, LD. ring.
Qed.

Lemma iterations_inv itmax s n base : fluctuation s n -> sized s n -> forall v, loop_inv n base v ->
  loop_inv n base (iterations itmax s v) /\ r_macro (iterations itmax s v) = r_macro v /\ r_macrot (iterations itmax s v) = r_macrot v.
Proof.
  intros F Z. induction itmax as [|itmax IH]; intros v I; [split; [exact I|split; reflexivity]|]. cbn [iterations].
  destruct (iteration_inv s n base v F Z I) as (I' & M & T). specialize (IH _ I'). rewrite M, T in IH.
  destruct (Rlt_dec (s_error s) (r_errs v)); [exact IH|]. destruct (Rlt_dec (s_error s) (r_erre v)); [exact IH|]. split; [exact I|split; reflexivity].
Qed.

Lemma start_inv s udot tdot n v : grid_of n v -> (1 <= n)%nat -> loop_inv n (fun i j => mean (r_disgrad v) i j + udot i j * tdot) (step_start s udot tdot v).
Proof.
  intros (LD & LS) N. split; [split; [cbn [r_disgrad step_start]; rewrite map_length; exact LD|exact LS]|]. intros i j. cbn [r_disgrad r_acum r_ddis step_start]. rewrite suml_map.
  rewrite (suml_ext _ (fun x : T2 => x i j + udot i j * tdot)) by (intros; reflexivity). rewrite suml_plus, suml_const, LD. unfold mean. rewrite LD.
  pose proof (INR_pos n N). field. lra.
Qed.

(* A step adds to the mean of the displacement gradients what is imposed and every
   correction made but the last. *)
Lemma step_mean itmax s udot tdot n v i j : fluctuation s n -> sized s n -> grid_of n v -> (1 <= n)%nat ->
  let v' := evolve itmax s udot tdot v in
  grid_of n v' /\ mean (r_disgrad v') i j = mean (r_disgrad v) i j + udot i j * tdot + r_acum v' i j - r_ddis v' i j /\
  r_macrot v' i j = r_macro v i j + r_acum v' i j /\ r_macro v' i j = r_macrot v' i j + udot i j * tdot.
Proof.
  intros F Z G N v'. pose proof (start_inv s udot tdot n v G N) as I. destruct (iterations_inv itmax s n _ F Z _ I) as ((G' & I') & M & T).
  unfold v', evolve. set (w := iterations itmax s (step_start s udot tdot v)) in *.
  change (r_disgrad (step_end udot tdot w)) with (r_disgrad w). change (r_acum (step_end udot tdot w)) with (r_acum w). change (r_ddis (step_end udot tdot w)) with (r_ddis w).
  split; [exact G'|]. split.
  - unfold mean at 1. rewrite I'. destruct G' as [-> _]. pose proof (INR_pos n N). field. lra.
  - cbn [r_macrot r_macro step_end]. rewrite M. split; reflexivity.
Qed.

(* No stress prescribed: no correction of the mean. *)
Definition strain_control (s : solver) : Prop := forall i, idx 6 i -> idsim_of (s_iudot s) i <> 0%Z.

Lemma control_correction s0 idsim iscau scauchy mean a b : (forall i, idx 6 i -> idsim i <> 0%Z) -> mixed_correction s0 idsim iscau scauchy mean a b = 0.
Proof.
  intros C. unfold mixed_correction. rewrite (suml_ext _ (fun _ => 0)); [|intros i I; apply in_seq in I; rewrite (proj2 (Z.eqb_neq _ _) (C i ltac:(unfold idx; lia))), andb_false_r; reflexivity].
  cbn [seq suml fold_right]. ring.
Qed.

Lemma control_acum itmax s udot tdot v i j : strain_control s -> r_acum (evolve itmax s udot tdot v) i j = 0 /\ r_ddis (evolve itmax s udot tdot v) i j = 0.
Proof.
  intros C. unfold evolve. change (r_acum (step_end udot tdot ?w)) with (r_acum w). change (r_ddis (step_end udot tdot ?w)) with (r_ddis w).
  assert (H : forall v, r_acum v i j = 0 /\ r_ddis v i j = 0 -> r_acum (iterations itmax s v) i j = 0 /\ r_ddis (iterations itmax s v) i j = 0).
  { clear v. induction itmax as [|m IH]; intros v [A D]; [split; assumption|]. cbn [iterations].
    assert (Q : r_acum (iteration s v) i j = 0 /\ r_ddis (iteration s v) i j = 0).
    { unfold iteration. cbv zeta. destruct (s_local s _) as [[[? ?] ?] ?]. cbn [r_acum r_ddis]. rewrite control_correction by exact C. split; lra. }
    destruct (Rlt_dec (s_error s) (r_errs v)); [apply IH; exact Q|]. destruct (Rlt_dec (s_error s) (r_erre v)); [apply IH; exact Q|split; assumption]. }
  apply H. split; reflexivity.
Qed.

(* Under strain control the mean displacement gradient is the one imposed, after any
   history of loads, whatever the solver makes of the fields. *)
Theorem C113_imposed itmax s n loads v i j : fluctuation s n -> sized s n -> grid_of n v -> (1 <= n)%nat -> strain_control s ->
  mean (r_disgrad (solve itmax s loads v)) i j = mean (r_disgrad v) i j + suml (fun l : T2 * R => fst l i j * snd l) loads.
Proof.
  intros F Z G N C. revert v G. induction loads as [|[u t] loads IH]; intros v G; [cbn; ring|].
  cbn [solve fold_left fst snd]. fold (solve itmax s loads). destruct (step_mean itmax s u t n v i j F Z G N) as (G' & M & _).
  change (fold_left _ loads ?w) with (solve itmax s loads w). rewrite (IH _ G'), M, suml_cons. cbn [fst snd].
  destruct (control_acum itmax s u t v i j C) as [-> ->]. ring.
Qed.
Print Assumptions C113_imposed.

(* With the same load in each step the strain the program reports (EVM) is that of the
   specimen. *)
Theorem C113_reported itmax s n udot tdot k v i j : fluctuation s n -> sized s n -> grid_of n v -> (1 <= n)%nat -> strain_control s ->
  (forall i j, mean (r_disgrad v) i j = 0) ->
  r_macrot (solve itmax s (repeat (udot, tdot) k) (init_disgradmacro udot tdot v)) i j = mean (r_disgrad (solve itmax s (repeat (udot, tdot) k) (init_disgradmacro udot tdot v))) i j.
Proof.
  intros F Z G N C M0.
  assert (H : forall k w, grid_of n w -> r_macrot w i j = mean (r_disgrad w) i j -> r_macro w i j = r_macrot w i j + udot i j * tdot ->
     r_macrot (solve itmax s (repeat (udot, tdot) k) w) i j = mean (r_disgrad (solve itmax s (repeat (udot, tdot) k) w)) i j).
  { clear k. induction k as [|k IH]; intros w Gw E P; [exact E|]. cbn [repeat solve fold_left fst snd]. change (fold_left _ (repeat (udot, tdot) k) ?w) with (solve itmax s (repeat (udot, tdot) k) w).
    destruct (step_mean itmax s udot tdot n w i j F Z Gw N) as (G' & M & T & P'). destruct (control_acum itmax s udot tdot w i j C) as [A D].
    apply IH; [exact G'| |exact P']. rewrite T, M, A, D, P, E. ring. }
  apply H; [exact G| |cbn [r_macro r_macrot init_disgradmacro]; ring]. cbn [r_macrot r_disgrad init_disgradmacro]. rewrite M0. reflexivity.
Qed.
Print Assumptions C113_reported.

(* With stresses prescribed the last correction of each step is reported but never
   made: the strain of the specimen falls behind by it. *)
Theorem C113_mixed_partial itmax s n udot tdot v i j : fluctuation s n -> sized s n -> grid_of n v -> (1 <= n)%nat ->
  r_macro v i j = r_macrot v i j + udot i j * tdot ->
  let v' := evolve itmax s udot tdot v in
  r_macrot v' i j - r_macrot v i j = mean (r_disgrad v') i j - mean (r_disgrad v) i j + r_ddis v' i j /\ r_macro v' i j = r_macrot v' i j + udot i j * tdot.
Proof.
  intros F Z G N P v'. destruct (step_mean itmax s udot tdot n v i j F Z G N) as (G' & M & T & P'). fold v' in G', M, T, P'. split; [|exact P']. rewrite M, T, P. ring.
Qed.
Print Assumptions C113_mixed_partial.

(* One elastic point, pulled at rate one, with the other two normal stresses prescribed
   to be zero. *)
Definition unit4 : T4 := fun i j k l => (d i k * d j l + d i l * d j k) / 2.
Definition elastic_solver : solver :=
  {| s_work := fun sg => map (fun _ _ _ => 0) sg; s_local := fun v => (map (fun e i j => (e i j + e j i) / 2 + d i j * trace e) (r_disgrad v), map (fun _ _ _ => 0) (r_disgrad v), 0, 0);
     s_s0 := unit4; s_iudot := fun i j => if (Nat.eqb i j && negb (Nat.eqb i 1))%bool then 0%Z else 1%Z; s_iscau := fun i => if (Nat.eqb i 2 || Nat.eqb i 3)%bool then 1%Z else 0%Z;
     s_scauchy := fun _ _ => 0; s_wgt := 1; s_error := 1 / 1000 |}.
Definition rest_point : rve :=
  {| r_disgrad := [fun _ _ => 0]; r_sg := [fun _ _ => 0]; r_edotp := [fun _ _ => 0]; r_ept := [fun _ _ => 0]; r_ddis := fun _ _ => 0; r_acum := fun _ _ => 0;
     r_macro := fun i j => d i 1 * d j 1 * 1; r_macrot := fun _ _ => 0; r_evm := 0; r_dvm := 0; r_svm := 0; r_errs := 0; r_erre := 0 |}.

Lemma elastic_fluctuation n : fluctuation elastic_solver n.
Proof. intros sg L. cbn [s_work elastic_solver]. rewrite map_length. split; [exact L|]. intros i j. rewrite suml_map. clear L. induction sg as [|a sg IH]; [reflexivity|]. rewrite suml_cons, IH. ring. Qed.
Lemma elastic_sized n : sized elastic_solver n.
Proof. intros v L. cbn [s_local elastic_solver fst]. rewrite map_length. exact L. Qed.

Lemma unit4_act E i j : idx 3 i -> idx 3 j -> act unit4 E i j = (E i j + E j i) / 2.
Proof. intros I J. unfold act, unit4, S3, d. all3 I; all3 J; cbn [Nat.eqb]; field. Qed.
Lemma unit4_elastic : elastic unit4.
Proof.
  split; [|split].
  - intros i j k l _ _ _ _. unfold unit4. split; field.
  - intros i j k l I J K L. unfold unit4, d. rewrite (Nat.eqb_sym k i), (Nat.eqb_sym l j), (Nat.eqb_sym k j), (Nat.eqb_sym l i). field.
  - intros E S (i & j & I & J & NZ). assert (Q : ddot E (act unit4 E) = ddot E E).
    { unfold ddot. apply S3_ext. intros a A. apply S3_ext. intros b B. rewrite unit4_act by assumption. rewrite (S b a B A). field. }
    rewrite Q. assert (P : 0 < E i j * E i j) by nra. unfold ddot, S3. assert (forall a b, 0 <= E a b * E a b) as H by (intros; nra).
    pose proof (H 1 1)%nat. pose proof (H 1 2)%nat. pose proof (H 1 3)%nat. pose proof (H 2 1)%nat. pose proof (H 2 2)%nat. pose proof (H 2 3)%nat. pose proof (H 3 1)%nat. pose proof (H 3 2)%nat. pose proof (H 3 3)%nat.
    all3 I; all3 J; lra.
Qed.

Theorem C113_mixed_refuted : exists s v udot tdot itmax, fluctuation s 1 /\ sized s 1 /\ grid_of 1 v /\ check_iudot (s_iudot s) = true /\ check_mixed_bc (s_iudot s) (s_iscau s) = true /\
  elastic (s_s0 s) /\ (1 <= itmax)%nat /\ (forall i j, r_macro v i j = r_macrot v i j + udot i j * tdot) /\ (forall i j, mean (r_disgrad v) i j = 0 /\ r_macrot v i j = 0) /\
  exists i j, mean (r_disgrad (evolve itmax s udot tdot v)) i j <> r_macrot (evolve itmax s udot tdot v) i j.
Proof.
  exists elastic_solver, rest_point, (fun i j => d i 1 * d j 1), 1, 1%nat. split; [apply elastic_fluctuation|]. split; [apply elastic_sized|]. split; [split; reflexivity|].
  split; [reflexivity|]. split; [reflexivity|]. split; [exact unit4_elastic|]. split; [lia|]. split; [intros; cbn [r_macro r_macrot rest_point]; ring|].
  assert (M0 : forall i j, mean (r_disgrad rest_point) i j = 0) by (intros; unfold mean; cbn; field). split; [intros; split; [apply M0|reflexivity]|].
  exists 2%nat, 2%nat.
  destruct (C113_mixed_partial 1 elastic_solver 1 (fun i j => d i 1 * d j 1) 1 rest_point 2 2 (elastic_fluctuation 1) (elastic_sized 1) (conj eq_refl eq_refl) (le_n _)) as [Q _]; [cbn [r_macro r_macrot rest_point]; ring|].
  rewrite M0 in Q. change (r_macrot rest_point 2 2)%nat with 0 in Q.
  assert (D : r_ddis (evolve 1 elastic_solver (fun i j => d i 1 * d j 1) 1 rest_point) 2%nat 2%nat = -1); [|intros H; rewrite H in Q; lra].
  unfold evolve. change (r_ddis (step_end ?u ?t ?w)) with (r_ddis w). cbn [iterations].
  assert (G : s_error elastic_solver < r_errs (step_start elastic_solver (fun i j => d i 1 * d j 1) 1 rest_point)) by (cbn [s_error elastic_solver r_errs step_start]; lra).
  destruct (Rlt_dec _ _) as [_|]; [clear G|contradiction].
  unfold iteration. cbv zeta. cbn [s_local elastic_solver r_ddis r_disgrad r_sg step_start rest_point s_work s_s0 s_iudot s_iscau s_scauchy s_wgt map zip combine fst snd].
  unfold mixed_correction, mean_stress, scauav, step_update_disgrad, initialize_disgrad, trace, S3, unit4, d.
  cbn [seq suml fold_right Nat.eqb ijv1 ijv2 andb]. rewrite !sum1_6. unfold S6. cbn [seq suml fold_right map fst snd ijv1 ijv2 idsim_of Nat.eqb andb orb negb Z.eqb]. field.
Qed.
Print Assumptions C113_mixed_refuted.

Example C113_met : fluctuation elastic_solver 1 /\ sized elastic_solver 1 /\ grid_of 1 rest_point /\
  strain_control {| s_work := s_work elastic_solver; s_local := s_local elastic_solver; s_s0 := unit4; s_iudot := fun _ _ => 1%Z; s_iscau := fun _ => 0%Z; s_scauchy := fun _ _ => 0; s_wgt := 1; s_error := 1 / 1000 |}.
Proof.
  split; [apply elastic_fluctuation|]. split; [apply elastic_sized|]. split; [split; reflexivity|]. intros i I. all6 I; cbn; discriminate.
Qed.

(* ---------- plastic strain ---------- *)

(* The plastic strain of a point is what its steps added, and its mean the mean. *)
Theorem C113_plastic wgt (edotps : list (list T2)) tdots n ept0 i j : length edotps = length tdots ->
  length ept0 = n -> (forall e, In e edotps -> length e = n) -> (1 <= n)%nat -> wgt = 1 / INR n ->
  let ept := fold_left (fun ept st => zip (fun e p i j => p i j + e i j * snd st) (fst st) ept) (combine edotps tdots) ept0 in
  epav wgt ept i j = mean ept0 i j + suml (fun st : list T2 * R => mean (fst st) i j * snd st) (combine edotps tdots).
Proof.
  intros L L0 LE N -> ept. pose proof (INR_pos n N) as P.
  assert (Z : forall e t p, length e = length p -> suml (fun v : T2 => v i j) (zip (fun e p i j => p i j + e i j * t) e p) = suml (fun v : T2 => v i j) p + suml (fun v : T2 => v i j) e * t).
  { induction e as [|x e IH]; intros t [|y p] Q; try discriminate; [cbn; ring|]. injection Q as Q.
    change (zip ?f (x :: e) (y :: p)) with (f x y :: zip f e p). rewrite !suml_cons, (IH t p Q). ring. }
  assert (E : forall w, epav (1 / INR n) w i j = suml (fun v : T2 => v i j) w / INR n) by (intros; unfold epav; rewrite suml_right; field; lra). rewrite E.
  unfold ept. clear ept. revert tdots ept0 L L0. induction edotps as [|e edotps IH]; intros [|t tdots] ept0 L L0; try discriminate.
  - cbn [combine fold_left]. unfold mean. rewrite L0. change (suml ?f []) with 0. ring.
  - cbn [combine fold_left]. rewrite (IH ltac:(intros x X; apply LE; right; exact X) tdots).
    + rewrite suml_cons. cbn [fst snd]. unfold mean. rewrite (zip_length _ _ _ n (LE e (or_introl eq_refl)) L0), Z by (rewrite L0; apply LE; left; reflexivity).
      rewrite L0, (LE e (or_introl eq_refl)). field. lra.
    + injection L as L. exact L.
    + apply zip_length; [apply LE; left; reflexivity|exact L0].
Qed.
Print Assumptions C113_plastic.

Lemma iterations_ept itmax s v : r_ept (iterations itmax s v) = r_ept v.
Proof.
  revert v. induction itmax as [|m IH]; intros v; [reflexivity|]. cbn [iterations].
  assert (Q : r_ept (iteration s v) = r_ept v) by (unfold iteration; cbv zeta; destruct (s_local s _) as [[[? ?] ?] ?]; reflexivity).
  destruct (Rlt_dec (s_error s) (r_errs v)); [rewrite IH; exact Q|]. destruct (Rlt_dec (s_error s) (r_erre v)); [rewrite IH; exact Q|reflexivity].
Qed.

Lemma zip_rate_sum i j t (e p : list T2) : length e = length p ->
  suml (fun v : T2 => v i j) (zip (fun e p i j => p i j + e i j * t) e p) = suml (fun v : T2 => v i j) p + suml (fun v : T2 => v i j) e * t.
Proof.
  revert p. induction e as [|x e IH]; intros [|y p] Q; try discriminate; [cbn; ring|]. injection Q as Q.
  change (zip ?f (x :: e) (y :: p)) with (f x y :: zip f e p). rewrite !suml_cons, (IH p Q). ring.
Qed.

(* The same along a run of the solver: the mean plastic strain it reports is the one at
   the start and, for every step, the mean plastic strain rate the step ended with times
   the length of the step. *)
Theorem C113_plastic_run itmax s (loads : list (T2 * R)) v n l0 i j :
  let reached k := solve itmax s (firstn k loads) v in
  (1 <= n)%nat -> length (r_ept v) = n -> (forall k, (1 <= k <= length loads)%nat -> length (r_edotp (reached k)) = n) ->
  epav (1 / INR n) (r_ept (reached (length loads))) i j =
  mean (r_ept v) i j + suml (fun k => mean (r_edotp (reached (S k))) i j * snd (nth k loads l0)) (seq 0 (length loads)).
Proof.
  cbv zeta. intros N L0 LE. pose proof (INR_pos n N) as P.
  assert (E : forall w, epav (1 / INR n) w i j = suml (fun v : T2 => v i j) w / INR n) by (intros; unfold epav; rewrite suml_right; field; lra). rewrite E. clear E.
  assert (H : length (r_ept (solve itmax s (firstn (length loads) loads) v)) = n /\
    suml (fun v : T2 => v i j) (r_ept (solve itmax s (firstn (length loads) loads) v)) / INR n =
    mean (r_ept v) i j + suml (fun k => mean (r_edotp (solve itmax s (firstn (S k) loads) v)) i j * snd (nth k loads l0)) (seq 0 (length loads))); [|exact (proj2 H)].
  induction loads as [|l loads IH] using rev_ind.
  - cbn [length firstn solve fold_left seq]. split; [exact L0|]. unfold mean. rewrite L0. change (suml ?f []) with 0. unfold Rdiv. ring.
  - destruct IH as [IL IH].
    + intros k K. specialize (LE k). rewrite app_length in LE. cbn [length] in LE. rewrite <- LE by lia. do 2 f_equal. rewrite firstn_app. replace (k - length loads)%nat with 0%nat by lia. rewrite app_nil_r. reflexivity.
    + pose proof (LE (length (loads ++ [l])) ltac:(rewrite app_length; cbn [length]; lia)) as LL.
      rewrite firstn_all in *. rewrite app_length. cbn [length]. replace (length loads + 1)%nat with (S (length loads)) by lia. rewrite seq_S, suml_app. cbn [plus].
      rewrite (suml_ext (fun k => mean (r_edotp (solve itmax s (firstn (S k) (loads ++ [l])) v)) i j * snd (nth k (loads ++ [l]) l0)) (fun k => mean (r_edotp (solve itmax s (firstn (S k) loads) v)) i j * snd (nth k loads l0))).
      2:{ intros k K. apply in_seq in K. rewrite firstn_app, app_nth1 by lia. replace (S k - length loads)%nat with 0%nat by lia. cbn [firstn]. rewrite app_nil_r. reflexivity. }
      change (suml ?f [length loads]) with (f (length loads) + 0). cbv beta. rewrite nth_middle.
      replace (firstn (S (length loads)) (loads ++ [l])) with (loads ++ [l]) by (symmetry; rewrite <- (firstn_all (loads ++ [l])) at 2; f_equal; rewrite app_length; cbn; lia).
      set (w := solve itmax s loads v) in *.
      assert (U : solve itmax s (loads ++ [l]) v = evolve itmax s (fst l) (snd l) w) by (unfold solve, w; rewrite fold_left_app; reflexivity). rewrite U in *.
      assert (X : r_ept (evolve itmax s (fst l) (snd l) w) = zip (fun e p i j => p i j + e i j * snd l) (r_edotp (evolve itmax s (fst l) (snd l) w)) (r_ept w)).
      { unfold evolve. change (r_edotp (step_end ?u ?t ?x)) with (r_edotp x). cbn [r_ept step_end]. rewrite iterations_ept. reflexivity. }
      rewrite X. split; [apply zip_length; assumption|]. rewrite zip_rate_sum by (rewrite IL; exact LL). unfold mean at 3. rewrite LL.
      rewrite Rdiv_plus_distr, IH. field. lra.
Qed.
Print Assumptions C113_plastic_run.
