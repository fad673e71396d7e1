(* Boundary conditions on strain and stress: C114. *)
From Coq Require Import Reals List Arith Lia Lra ZArith Bool.
From Verif Require Import BaseReal LinModel EvpModel EvpFlowModel EvpStepModel EvpSpec EvpFlowSpec EvpBasis EvpMeanProps.
Import ListNotations.
Local Open Scope R_scope.

(* The pairs of axes in Voigt's order. *)
Definition first_axis (k : nat) : nat := match k with 1 => 1 | 2 => 2 | 3 => 3 | 4 => 2 | 5 => 1 | 6 => 1 | _ => 0 end%nat.
Definition second_axis (k : nat) : nat := match k with 1 => 1 | 2 => 2 | 3 => 3 | 4 => 3 | 5 => 3 | 6 => 2 | _ => 0 end%nat.

Lemma one_flag c x : (c = 0 \/ c = 1)%Z -> (x = 0 \/ x = 1)%Z -> (((c * x =? 0) && (c + x =? 1))%Z%bool = true <-> (c = 1%Z <-> x <> 1%Z)).
Proof. intros [->| ->] [->| ->]; cbn; split; intros H; try reflexivity; try discriminate; try (split; [lia|reflexivity]); try (split; lia); exfalso; lia. Qed.

Lemma strain_flag iudot k : (forall i j, idx 3 i -> idx 3 j -> iudot i j = 0%Z \/ iudot i j = 1%Z) -> idx 6 k ->
  (idsim_of iudot k = 0%Z \/ idsim_of iudot k = 1%Z) /\ (idsim_of iudot k = 1%Z <-> iudot (first_axis k) (second_axis k) = 1%Z /\ iudot (second_axis k) (first_axis k) = 1%Z).
Proof.
  intros U K. assert (B : forall x y : Z, ((if ((x =? 1) && (y =? 1))%Z%bool then 1%Z else 0%Z) = 0%Z \/ (if ((x =? 1) && (y =? 1))%Z%bool then 1%Z else 0%Z) = 1%Z) /\ ((if ((x =? 1) && (y =? 1))%Z%bool then 1%Z else 0%Z) = 1%Z <-> x = 1%Z /\ y = 1%Z)).
  { intros x y. destruct (Z.eqb_spec x 1), (Z.eqb_spec y 1); cbn [andb]; split; try tauto; split; intros H; try tauto; try discriminate; lia. }
  all6 K; cbn [idsim_of first_axis second_axis]; try apply B; (split; [apply U; unfold idx; lia|tauto]).
Qed.

(* C114: with flags 0 and 1 the input passes where each of the six components has
   either its strain rate or its stress prescribed, the strain rates of two of the
   three axes are never the only ones, and no shear rate is left open both ways. *)
Theorem C114_checked iudot iscau : (forall i j, idx 3 i -> idx 3 j -> iudot i j = 0%Z \/ iudot i j = 1%Z) -> (forall k, idx 6 k -> iscau k = 0%Z \/ iscau k = 1%Z) ->
  (check_iudot iudot = true /\ check_mixed_bc iudot iscau = true <->
   (forall k, idx 6 k -> (iscau k = 1%Z <-> ~ (iudot (first_axis k) (second_axis k) = 1%Z /\ iudot (second_axis k) (first_axis k) = 1%Z))) /\
   (forall i j, idx 3 i -> idx 3 j -> i <> j -> iudot i j = 1%Z \/ iudot j i = 1%Z) /\
   (forall i, idx 3 i -> iudot i i = 0%Z -> exists j, idx 3 j /\ j <> i /\ iudot j j = 0%Z)).
Proof.
  intros U S.
  assert (M : check_mixed_bc iudot iscau = true <-> forall k, idx 6 k -> (iscau k = 1%Z <-> ~ (iudot (first_axis k) (second_axis k) = 1%Z /\ iudot (second_axis k) (first_axis k) = 1%Z))).
  { unfold check_mixed_bc. rewrite forallb_forall. split.
    - intros H k K. destruct (strain_flag iudot k U K) as [V W]. specialize (H k ltac:(apply in_seq; unfold idx in K; lia)). apply (one_flag _ _ (S k K) V) in H. tauto.
    - intros H k K. apply in_seq in K. assert (K' : idx 6 k) by (unfold idx; lia). destruct (strain_flag iudot k U K') as [V W]. specialize (H k K'). apply (one_flag _ _ (S k K') V). tauto. }
  rewrite M. clear M.
  assert (I : idx 3 1 /\ idx 3 2 /\ idx 3 3) by (unfold idx; lia). destruct I as (I1 & I2 & I3).
  assert (D : check_iudot iudot = true <-> (forall i j, idx 3 i -> idx 3 j -> i <> j -> iudot i j = 1%Z \/ iudot j i = 1%Z) /\
   (forall i, idx 3 i -> iudot i i = 0%Z -> exists j, idx 3 j /\ j <> i /\ iudot j j = 0%Z)).
  { unfold check_iudot. rewrite !andb_true_iff, !negb_true_iff, !Z.eqb_neq.
    pose proof (U _ _ I1 I1). pose proof (U _ _ I2 I2). pose proof (U _ _ I3 I3). pose proof (U _ _ I1 I2). pose proof (U _ _ I2 I1). pose proof (U _ _ I1 I3). pose proof (U _ _ I3 I1). pose proof (U _ _ I2 I3). pose proof (U _ _ I3 I2).
    split.
    - intros (((A & B) & C) & E). split.
      + intros i j I J N. all3 I; all3 J; try (exfalso; lia); lia.
      + intros i I Z. all3 I.
        * destruct (Z.eq_dec (iudot 2 2)%nat 0); [exists 2%nat; split; [exact I2|split; [lia|assumption]]|exists 3%nat; split; [exact I3|split; [lia|lia]]].
        * destruct (Z.eq_dec (iudot 1 1)%nat 0); [exists 1%nat; split; [exact I1|split; [lia|assumption]]|exists 3%nat; split; [exact I3|split; [lia|lia]]].
        * destruct (Z.eq_dec (iudot 2 2)%nat 0); [exists 2%nat; split; [exact I2|split; [lia|assumption]]|exists 1%nat; split; [exact I1|split; [lia|lia]]].
    - intros (A & B). pose proof (A _ _ I1 I2 ltac:(lia)). pose proof (A _ _ I1 I3 ltac:(lia)). pose proof (A _ _ I2 I3 ltac:(lia)). repeat split; try lia.
      intros E. assert (Q : iudot 1%nat 1%nat = 0%Z \/ iudot 2%nat 2%nat = 0%Z \/ iudot 3%nat 3%nat = 0%Z) by lia.
      assert (Z2 : forall i j : nat, idx 3 i -> idx 3 j -> j <> i -> iudot i i = 0%Z -> iudot j j = 0%Z -> False) by (intros i j I J N X Y; all3 I; all3 J; lia).
      destruct Q as [Q|[Q|Q]]; [destruct (B _ I1 Q) as (j & J & N & Y)|destruct (B _ I2 Q) as (j & J & N & Y)|destruct (B _ I3 Q) as (j & J & N & Y)]; eapply Z2; eauto. }
  rewrite D. tauto.
Qed.
Print Assumptions C114_checked.

(* ---------- the correction ---------- *)

Lemma correction_at s0 idsim iscau scauchy mean k : idx 6 k ->
  mixed_correction s0 idsim iscau scauchy mean (first_axis k) (second_axis k) =
  if (idsim k =? 0)%Z then S6 (fun m => s0 (first_axis k) (second_axis k) (first_axis m) (second_axis m) * IZR (iscau m) * (scauchy (first_axis m) (second_axis m) - mean (first_axis m) (second_axis m))) else 0.
Proof.
  intros K. unfold mixed_correction. cbn [seq suml fold_right]. rewrite !sum1_6.
  all6 K; cbn [first_axis second_axis ijv1 ijv2 Nat.eqb andb]; destruct (_ =? 0)%Z; unfold S6; cbn [first_axis second_axis ijv1 ijv2]; ring.
Qed.

Lemma correction_below s0 idsim iscau scauchy mean i j : idx 3 i -> idx 3 j -> (j < i)%nat -> mixed_correction s0 idsim iscau scauchy mean i j = 0.
Proof. intros I J L. unfold mixed_correction. cbn [seq suml fold_right]. all3 I; all3 J; try (exfalso; lia); cbn [ijv1 ijv2 Nat.eqb andb]; ring. Qed.

(* The mean displacement gradient is corrected in no component but those with a stress
   prescribed, and of those in the one above the diagonal. *)
Theorem C114_imposed s0 iudot iscau scauchy mean i j : idx 3 i -> idx 3 j -> iudot i j = 1%Z -> iudot j i = 1%Z \/ (j < i)%nat ->
  mixed_correction s0 (idsim_of iudot) iscau scauchy mean i j = 0.
Proof.
  intros I J U V. destruct (le_lt_dec i j) as [L|L]; [|apply correction_below; assumption]. destruct V as [V|V]; [|lia].
  assert (K : exists k, idx 6 k /\ i = first_axis k /\ j = second_axis k /\ idsim_of iudot k = 1%Z).
  { all3 I; all3 J; try (exfalso; lia); [exists 1%nat|exists 6%nat|exists 5%nat|exists 2%nat|exists 4%nat|exists 3%nat]; cbn [first_axis second_axis idsim_of]; rewrite ?U, ?V; (split; [unfold idx; lia|]); repeat split; reflexivity || assumption. }
  destruct K as (k & K & -> & -> & E). rewrite correction_at by exact K. rewrite E. reflexivity.
Qed.
Print Assumptions C114_imposed.

(* Where the rate is imposed above the diagonal and left open below it, the imposed one
   is corrected, not the open one. *)
Theorem C114_shear_refuted : exists iudot iscau s0 mean, check_iudot iudot = true /\ check_mixed_bc iudot iscau = true /\ elastic s0 /\ symmetric mean /\
  iudot 1%nat 2%nat = 1%Z /\ iudot 2%nat 1%nat = 0%Z /\
  mixed_correction s0 (idsim_of iudot) iscau (fun _ _ => 0) mean 1%nat 2%nat <> 0 /\ mixed_correction s0 (idsim_of iudot) iscau (fun _ _ => 0) mean 2%nat 1%nat = 0.
Proof.
  exists (fun i j => if (Nat.eqb i 2 && Nat.eqb j 1)%bool then 0%Z else 1%Z), (fun k => if Nat.eqb k 6 then 1%Z else 0%Z), unit4, (fun i j => 1 - d i j).
  split; [reflexivity|]. split; [reflexivity|]. split; [exact unit4_elastic|]. split; [intros i j _ _; unfold d; rewrite Nat.eqb_sym; reflexivity|]. split; [reflexivity|]. split; [reflexivity|]. split.
  - change (mixed_correction unit4 ?a ?b ?c ?e 1%nat 2%nat) with (mixed_correction unit4 a b c e (first_axis 6) (second_axis 6)). rewrite correction_at by (unfold idx; lia).
    cbn [idsim_of Nat.eqb andb Z.eqb]. unfold S6, unit4, d. cbn [first_axis second_axis Nat.eqb]. cbn [Pos.eqb andb Z.eqb]. intros Z; lra.
  - apply correction_below; unfold idx; lia.
Qed.
Print Assumptions C114_shear_refuted.

(* What is still missing of the prescribed stresses. *)
Definition missing (iscau : nat -> Z) (scauchy mean : T2) (k : nat) : R := IZR (iscau k) * (scauchy (first_axis k) (second_axis k) - mean (first_axis k) (second_axis k)).
Definition spread (x : nat -> R) : T2 := fun i j => S6 (fun k => x k * (d i (first_axis k) * d j (second_axis k) + d i (second_axis k) * d j (first_axis k)) / 2).
Lemma spread_sym x : symmetric (spread x).
Proof. intros i j _ _. unfold spread. apply S6_ext. intros. field. Qed.
Lemma spread_at x k : idx 6 k -> spread x (first_axis k) (second_axis k) = 0 -> x k = 0.
Proof. intros K EZ. unfold spread, S6, d in EZ. all6 K; cbn [first_axis second_axis Nat.eqb] in EZ; lra. Qed.

Lemma flags_of iudot iscau : (forall i j, idx 3 i -> idx 3 j -> iudot i j = 0%Z \/ iudot i j = 1%Z) -> (forall k, idx 6 k -> iscau k = 0%Z \/ iscau k = 1%Z) -> check_mixed_bc iudot iscau = true ->
  forall k, idx 6 k -> (iscau k = 1%Z /\ idsim_of iudot k = 0%Z) \/ (iscau k = 0%Z /\ idsim_of iudot k = 1%Z).
Proof.
  intros U S C k K. unfold check_mixed_bc in C. rewrite forallb_forall in C. specialize (C k ltac:(apply in_seq; unfold idx in K; lia)). destruct (strain_flag iudot k U K) as [V _].
  rewrite (one_flag _ _ (S k K) V) in C. destruct (S k K), V; intuition lia.
Qed.

Lemma correction_work s0 iudot iscau scauchy mean : minor_symmetric s0 ->
  (forall k, idx 6 k -> (iscau k = 1%Z /\ idsim_of iudot k = 0%Z) \/ (iscau k = 0%Z /\ idsim_of iudot k = 1%Z)) ->
  let x := missing iscau scauchy mean in
  ddot (spread x) (act s0 (spread x)) = S6 (fun k => x k * mixed_correction s0 (idsim_of iudot) iscau scauchy mean (first_axis k) (second_axis k)).
Proof.
  intros MS F x. set (E := spread x).
  transitivity (S6 (fun k => x k * S6 (fun m => s0 (first_axis k) (second_axis k) (first_axis m) (second_axis m) * x m))).
      - assert (AE : forall i j, idx 3 i -> idx 3 j -> act s0 E i j = S6 (fun m => s0 i j (first_axis m) (second_axis m) * x m)).
        { intros i j I J. unfold act, E, spread, S3, S6, d. cbn [first_axis second_axis Nat.eqb].
          rewrite (proj2 (MS i j 2 1 I J ltac:(unfold idx; lia) ltac:(unfold idx; lia)))%nat, (proj2 (MS i j 3 1 I J ltac:(unfold idx; lia) ltac:(unfold idx; lia)))%nat, (proj2 (MS i j 3 2 I J ltac:(unfold idx; lia) ltac:(unfold idx; lia)))%nat. field. }
        unfold ddot. rewrite (S3_ext _ (fun i => S3 (fun j => E i j * S6 (fun m => s0 i j (first_axis m) (second_axis m) * x m)))) by (intros i I; apply S3_ext; intros j J; rewrite AE by assumption; reflexivity).
        set (y := fun i j => S6 (fun m => s0 i j (first_axis m) (second_axis m) * x m)).
        change (S3 (fun i => S3 (fun j => E i j * y i j)) = S6 (fun k => x k * y (first_axis k) (second_axis k))).
        assert (YS : forall i j, idx 3 i -> idx 3 j -> y i j = y j i).
        { intros i j I J. unfold y. apply S6_ext. intros m M. rewrite (proj1 (MS i j (first_axis m) (second_axis m) I J ltac:(all6 M; unfold idx; cbn; lia) ltac:(all6 M; unfold idx; cbn; lia))). reflexivity. }
        unfold E, spread, S3, S6, d. cbn [first_axis second_axis Nat.eqb]. rewrite (YS 2 1 ltac:(unfold idx; lia) ltac:(unfold idx; lia))%nat, (YS 3 1 ltac:(unfold idx; lia) ltac:(unfold idx; lia))%nat, (YS 3 2 ltac:(unfold idx; lia) ltac:(unfold idx; lia))%nat. field.
      - apply S6_ext. intros k K. rewrite correction_at by exact K. unfold x, missing at 1 3. destruct (F k K) as [[-> ->]|[-> ->]]; cbn [Z.eqb]; [f_equal; apply S6_ext; intros m _; unfold x, missing; ring|ring].
Qed.

(* No correction is left to make exactly where the mean stress has the prescribed
   value in every component that has one. *)
Theorem C114_attained s0 iudot iscau scauchy mean : elastic s0 ->
  (forall i j, idx 3 i -> idx 3 j -> iudot i j = 0%Z \/ iudot i j = 1%Z) -> (forall k, idx 6 k -> iscau k = 0%Z \/ iscau k = 1%Z) -> check_mixed_bc iudot iscau = true ->
  ((forall i j, idx 3 i -> idx 3 j -> mixed_correction s0 (idsim_of iudot) iscau scauchy mean i j = 0) <->
   (forall k, idx 6 k -> iscau k = 1%Z -> mean (first_axis k) (second_axis k) = scauchy (first_axis k) (second_axis k))).
Proof.
  intros (MS & MJ & P) U S C. pose proof (flags_of iudot iscau U S C) as F.
  split.
  - intros H. pose proof (correction_work s0 iudot iscau scauchy mean MS F) as Q. cbv zeta in Q. set (x := missing iscau scauchy mean) in *. set (E := spread x) in *.
    assert (Z : ddot E (act s0 E) = 0).
    { rewrite Q, (S6_ext _ (fun _ => 0)); [unfold S6; ring|]. intros k K. rewrite H by (all6 K; unfold idx; cbn; lia). ring. }
    pose proof (spread_sym x) as ES. fold E in ES.
    assert (EZ : forall i j, idx 3 i -> idx 3 j -> E i j = 0).
    { intros i j I J. destruct (Req_dec (E i j) 0) as [|NZ]; [assumption|]. exfalso. pose proof (P E ES (ex_intro _ i (ex_intro _ j (conj I (conj J NZ))))). lra. }
    intros k K SK. specialize (EZ (first_axis k) (second_axis k) ltac:(all6 K; unfold idx; cbn; lia) ltac:(all6 K; unfold idx; cbn; lia)).
    pose proof (spread_at x k K EZ) as XZ.
    unfold x, missing in XZ. rewrite SK in XZ. lra.
  - intros H i j I J. destruct (le_lt_dec i j) as [L|L]; [|apply correction_below; assumption].
    assert (K : exists k, idx 6 k /\ i = first_axis k /\ j = second_axis k) by (all3 I; all3 J; try (exfalso; lia); [exists 1%nat|exists 6%nat|exists 5%nat|exists 2%nat|exists 4%nat|exists 3%nat]; unfold idx; cbn; repeat split; lia).
    destruct K as (k & K & -> & ->). rewrite correction_at by exact K. destruct (idsim_of iudot k =? 0)%Z; [|reflexivity].
    rewrite (S6_ext _ (fun _ => 0)); [unfold S6; ring|]. intros m M. destruct (F m M) as [[A _]|[A _]]; [rewrite (H m M A); ring|rewrite A; ring].
Qed.
Print Assumptions C114_attained.

(* Where it has not, the correction strains the specimen towards it: the missing
   stresses do positive work on it. *)
Theorem C114_towards s0 iudot iscau scauchy mean : elastic s0 ->
  (forall i j, idx 3 i -> idx 3 j -> iudot i j = 0%Z \/ iudot i j = 1%Z) -> (forall k, idx 6 k -> iscau k = 0%Z \/ iscau k = 1%Z) -> check_mixed_bc iudot iscau = true ->
  (exists k, idx 6 k /\ iscau k = 1%Z /\ mean (first_axis k) (second_axis k) <> scauchy (first_axis k) (second_axis k)) ->
  0 < S6 (fun k => IZR (iscau k) * (scauchy (first_axis k) (second_axis k) - mean (first_axis k) (second_axis k)) * mixed_correction s0 (idsim_of iudot) iscau scauchy mean (first_axis k) (second_axis k)).
Proof.
  intros (MS & MJ & P) U S C (k & K & SK & NE). pose proof (correction_work s0 iudot iscau scauchy mean MS (flags_of iudot iscau U S C)) as Q. cbv zeta in Q.
  change (0 < S6 (fun k => missing iscau scauchy mean k * mixed_correction s0 (idsim_of iudot) iscau scauchy mean (first_axis k) (second_axis k))). rewrite <- Q.
  apply P; [apply spread_sym|]. exists (first_axis k), (second_axis k). split; [all6 K; unfold idx; cbn; lia|]. split; [all6 K; unfold idx; cbn; lia|].
  intros Z. pose proof (spread_at _ k K Z) as XZ. unfold missing in XZ. rewrite SK in XZ. apply NE. lra.
Qed.
Print Assumptions C114_towards.

(* Uniaxial tension: the strain rate along x, the stresses across. *)
Example C114_met : check_iudot (s_iudot elastic_solver) = true /\ check_mixed_bc (s_iudot elastic_solver) (s_iscau elastic_solver) = true /\ elastic unit4 /\
  (forall i j, idx 3 i -> idx 3 j -> s_iudot elastic_solver i j = 0%Z \/ s_iudot elastic_solver i j = 1%Z) /\ (forall k, idx 6 k -> s_iscau elastic_solver k = 0%Z \/ s_iscau elastic_solver k = 1%Z).
Proof.
  split; [reflexivity|]. split; [reflexivity|]. split; [exact unit4_elastic|].
  split; [intros i j I J; all3 I; all3 J; cbn; tauto|intros k K; all6 K; cbn; tauto].
Qed.
