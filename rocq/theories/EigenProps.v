(** C42: the largest eigenvalue magnitude of a symmetric tensor. *)
From Coq Require Import Reals Lra Lia.
From Verif Require Import BaseReal EigenModel EigenSpec EigenProofs.
Open Scope R_scope.

(** For a regular symmetric tensor that is not a multiple of the unit tensor the routine returns the largest magnitude. *)
Theorem C42_partial t : symmetric t -> det3 t <> 0 -> ~ spherical t -> exists m, max_eigen PI t = Some m /\ largest_eigenvalue t m.
Proof.
  intros Hs Hd Hn. assert (Hp : spread t <> 0) by (intros H; apply Hn, (spread_spherical t Hs), H).
  destruct (max_eigen PI t) as [m|] eqn:E.
  - exists m. split; [reflexivity|]. apply (max_eigen_spec t Hs Hp m Hd E).
  - exfalso. unfold max_eigen in E. destruct (Req_EM_T (det3 t) 0); [discriminate|]. destruct (Req_EM_T (spread t) 0); [contradiction|discriminate].
Qed.
Print Assumptions C42_partial.

(** [det3 t = 0] says that zero is an eigenvalue. *)
Theorem C42_regular t : det3 t = 0 <-> eigenvalue t 0.
Proof.
  rewrite eigen_iff. replace (det3 (shift t 0)) with (det3 t); [reflexivity|]. unfold det3, shift. cbn [Nat.eqb]. rewrite !Rminus_0_r. reflexivity.
Qed.
Print Assumptions C42_regular.

(** The returned value is always at least a third of the sum of the eigenvalues: a check that does not involve them *)
Theorem C42_trace t m : symmetric t -> det3 t <> 0 -> max_eigen PI t = Some m -> Rabs (t 0%nat 0%nat + t 1%nat 1%nat + t 2%nat 2%nat) <= 3 * m.
Proof.
  intros Hs Hd E. assert (Hp : spread t <> 0) by (intros H; unfold max_eigen in E; destruct (Req_EM_T (det3 t) 0); [contradiction|]; destruct (Req_EM_T (spread t) 0); [discriminate|contradiction]).
  destruct (max_eigen_spec t Hs Hp m Hd E) as [_ H].
  pose proof (H _ (proj2 (eigen_t t Hs Hp _) (or_introl eq_refl))) as H1. pose proof (H _ (proj2 (eigen_t t Hs Hp _) (or_intror (or_introl eq_refl)))) as H2. pose proof (H _ (proj2 (eigen_t t Hs Hp _) (or_intror (or_intror eq_refl)))) as H3.
  assert (Ht : t 0%nat 0%nat + t 1%nat 1%nat + t 2%nat 2%nat = (mean t + spread t * e1 t) + (mean t + spread t * e2 t) + (mean t + spread t * e3 t)) by (unfold e3, mean; field).
  rewrite Ht. pose proof (Rabs_triang (mean t + spread t * e1 t + (mean t + spread t * e2 t)) (mean t + spread t * e3 t)). pose proof (Rabs_triang (mean t + spread t * e1 t) (mean t + spread t * e2 t)). lra.
Qed.
Print Assumptions C42_trace.

(** A multiple of the unit tensor divides by zero. *)
Theorem C42_spherical_undefined t pi : symmetric t -> spherical t -> t 0%nat 0%nat <> 0 -> max_eigen pi t = None /\ largest_eigenvalue t (Rabs (t 0%nat 0%nat)).
Proof.
  intros Hs Hsp Hx. assert (Hd : det3 t = t 0%nat 0%nat ^ 3).
  { unfold det3. rewrite (Hsp 0%nat 1%nat), (Hsp 0%nat 2%nat), (Hsp 1%nat 0%nat), (Hsp 1%nat 1%nat), (Hsp 1%nat 2%nat), (Hsp 2%nat 0%nat), (Hsp 2%nat 1%nat), (Hsp 2%nat 2%nat) by lia. cbn [Nat.eqb]. ring. }
  split.
  - unfold max_eigen. destruct (Req_EM_T (det3 t) 0) as [H|_]; [exfalso; apply (pow_nonzero (t 0%nat 0%nat) 3 Hx); congruence|].
    destruct (Req_EM_T (spread t) 0) as [_|H]; [reflexivity|]. exfalso. apply H. apply spread_spherical; assumption.
  - assert (Hall : forall v i, (i < 3)%nat -> apply3 t v i = t 0%nat 0%nat * v i).
    { intros v. apply lt3; unfold apply3; rewrite ?(Hsp 0%nat 1%nat), ?(Hsp 0%nat 2%nat), ?(Hsp 1%nat 0%nat), ?(Hsp 1%nat 1%nat), ?(Hsp 1%nat 2%nat), ?(Hsp 2%nat 0%nat), ?(Hsp 2%nat 1%nat), ?(Hsp 2%nat 2%nat) by lia; cbn [Nat.eqb]; ring. }
    split; [exists (t 0%nat 0%nat); split; [|reflexivity]; exists (fun _ => 1); split; [exists 0%nat; split; [lia|lra]|apply Hall]|].
    intros x (v & (i & Hi & Hv) & H). rewrite (Rmult_eq_reg_r (v i) x (t 0%nat 0%nat)); [apply Rle_refl| |exact Hv]. rewrite <- (H i Hi). apply Hall. exact Hi.
Qed.
Print Assumptions C42_spherical_undefined.

(** A singular tensor gives 0, whatever its other eigenvalues: right only for the zero tensor. *)
Definition zero3 (t : mat3) : Prop := forall i j, (i < 3)%nat -> (j < 3)%nat -> t i j = 0.
Theorem C42_singular t pi : symmetric t -> det3 t = 0 -> max_eigen pi t = Some 0 /\ (largest_eigenvalue t 0 <-> zero3 t).
Proof.
  intros Hs Hd. split; [unfold max_eigen; destruct (Req_EM_T (det3 t) 0); [reflexivity|contradiction]|]. split.
  - intros [_ H]. assert (Hz : forall x, eigenvalue t x -> x = 0) by (intros x Hx; specialize (H x Hx); pose proof (Rabs_pos x); destruct (Req_EM_T x 0) as [|Hne]; [assumption|apply Rabs_pos_lt in Hne; lra]).
    destruct (Req_EM_T (spread t) 0) as [Hp|Hp].
    + apply (spread_spherical t Hs) in Hp. assert (H0 : eigenvalue t (t 0%nat 0%nat)).
      { exists (fun _ => 1). split; [exists 0%nat; split; [lia|lra]|].
        apply lt3; unfold apply3; rewrite ?(Hp 0%nat 1%nat), ?(Hp 0%nat 2%nat), ?(Hp 1%nat 0%nat), ?(Hp 1%nat 1%nat), ?(Hp 1%nat 2%nat), ?(Hp 2%nat 0%nat), ?(Hp 2%nat 1%nat), ?(Hp 2%nat 2%nat) by lia; cbn [Nat.eqb]; ring. }
      apply Hz in H0. intros i j Hi Hj. rewrite (Hp i j Hi Hj), H0. destruct (Nat.eqb i j); reflexivity.
    + exfalso. pose proof (Hz _ (proj2 (eigen_t t Hs Hp _) (or_introl eq_refl))) as H1. pose proof (Hz _ (proj2 (eigen_t t Hs Hp _) (or_intror (or_introl eq_refl)))) as H2. pose proof (Hz _ (proj2 (eigen_t t Hs Hp _) (or_intror (or_intror eq_refl)))) as H3.
      assert (E12 : e1 t = e2 t) by (apply (Rmult_eq_reg_l (spread t)); [lra|exact Hp]). assert (E13 : e1 t = e3 t) by (apply (Rmult_eq_reg_l (spread t)); [lra|exact Hp]).
      pose proof (factors t Hs Hp 1) as F1. pose proof (factors t Hs Hp (-1)) as F2. pose proof (factors t Hs Hp 0) as F3. unfold e3 in E13. assert (E1 : e1 t = 0) by lra. assert (E2 : e2 t = 0) by lra.
      unfold e3 in F1, F2, F3. rewrite E1, E2 in F1, F2, F3. lra.
  - intros H. split.
    + exists 0. split; [|apply Rabs_R0]. exists (fun _ => 1). split; [exists 0%nat; split; [lia|lra]|]. intros i Hi. unfold apply3. rewrite !(H i) by lia. ring.
    + intros x (v & (i & Hi & Hv) & He). specialize (He i Hi). unfold apply3 in He. rewrite !(H i) in He by lia. assert (Hx : x = 0) by (apply (Rmult_eq_reg_r (v i)); [lra|exact Hv]). rewrite Hx, Rabs_R0. apply Rle_refl.
Qed.
Print Assumptions C42_singular.

(** the full statement is false: a stretching in one direction only *)
Definition uniaxial : mat3 := fun i j => if (Nat.eqb i 0 && Nat.eqb j 0)%bool then 1 else 0.
Theorem C42_refuted : symmetric uniaxial /\ max_eigen PI uniaxial = Some 0 /\ eigenvalue uniaxial 1.
Proof.
  assert (Hs : symmetric uniaxial) by (intros i j _ _; unfold uniaxial; rewrite Bool.andb_comm; reflexivity).
  split; [exact Hs|]. split; [apply C42_singular; [exact Hs|unfold det3, uniaxial; cbn; ring]|].
  exists (fun i => if Nat.eqb i 0 then 1 else 0). split; [exists 0%nat; split; [lia|cbn; lra]|]. apply lt3; unfold apply3, uniaxial; cbn; ring.
Qed.
Print Assumptions C42_refuted.

(** *** The hypotheses are met *)
Definition shear : mat3 := fun i j => if Nat.eqb i j then 2 else if Nat.eqb (i + j) 1 then 1 else 0.
Example C42_ex : symmetric shear /\ det3 shear = 6 /\ ~ spherical shear /\ eigenvalue shear 3 /\ spherical (fun i j => if Nat.eqb i j then 5 else 0).
Proof.
  split. { intros i j _ _. unfold shear. rewrite (Nat.eqb_sym i j), (Nat.add_comm i j). reflexivity. }
  split; [unfold det3, shear; cbn; ring|]. split. { intros H. specialize (H 0%nat 1%nat ltac:(lia) ltac:(lia)). cbn in H. lra. }
  split. { exists (fun i => if Nat.leb i 1 then 1 else 0). split; [exists 0%nat; split; [lia|cbn; lra]|]. apply lt3; unfold apply3, shear; cbn; ring. }
  intros i j _ _. reflexivity.
Qed.
