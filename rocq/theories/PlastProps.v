(** Properties C70-C73: stress of elastic-plastic materials. *)
From Coq Require Import Reals List Lia Lra Psatz.
From Verif Require Import BaseArr BaseReal SghModel SghSpec RzModel PlastModel PlastSpec PlastProofs PlastMore.
Import ListNotations.
Open Scope R_scope.

(** *** C70: the stress deviator of a plastic material is symmetric, free of trace and never above the yield strength *)

(** one call, whatever the velocity gradient, step size and stage coefficient *)
Theorem C70_update : forall G Y a dt g sn s, 0 <= Y -> symmetric sn -> trace sn = 0 -> symmetric s ->
  admissible Y (hypo_plastic G Y a dt g sn s).
Proof. exact hypo_admissible. Qed.
Print Assumptions C70_update.

(** any run of the 3D solver, for every material point of the material, whatever the other materials, boundary
    conditions, contact and viscosity do *)
Theorem C70_run : forall m L N G Y cycles s mat, 0 <= Y ->
  (forall dt Ms k, In (dt, Ms) cycles -> (k < N)%nat -> plastic_material L G Y (rk_alpha N k) dt (Ms k) mat) ->
  (forall sid, (sid < num_mat_elems L mat)%nat -> admissible Y (s_stress s mat sid)) ->
  forall sid, (sid < num_mat_elems L mat)%nat -> admissible Y (s_stress (run m L N cycles s) mat sid).
Proof.
  intros m L N G Y cycles s mat HY HM Hs. apply (run_now (admissible Y) (admissible_zero Y)); [|exact Hs].
  intros dt Ms k Hc Hk. exact (plastic_keeps L G Y _ dt (Ms k) mat HY (HM dt Ms k Hc Hk)).
Qed.
Print Assumptions C70_run.

(** then the pressure is the mean normal stress: the total stress has trace minus three times the pressure *)
Theorem C70_pressure : forall m L N G Y cycles s mat M, 0 <= Y -> decoupled M mat = true ->
  (forall dt Ms k, In (dt, Ms) cycles -> (k < N)%nat -> plastic_material L G Y (rk_alpha N k) dt (Ms k) mat) ->
  (forall sid, (sid < num_mat_elems L mat)%nat -> admissible Y (s_stress s mat sid)) ->
  let s' := run m L N cycles s in
  forall sid, (sid < num_mat_elems L mat)%nat -> trace (cauchy M s' (mat, sid)) = - 3 * s_pres s' mat sid.
Proof.
  intros m L N G Y cycles s mat M HY HD HM Hs s' sid Hsid.
  destruct (C70_run m L N G Y cycles s mat HY HM Hs sid Hsid) as (_ & T & _). fold s' in T.
  unfold trace, sum3, cauchy in *. cbn [fst snd Nat.eqb]. rewrite HD. lra.
Qed.
Print Assumptions C70_pressure.

Definition ex_model (L : layout) (G Y a dt : R) : models :=
  mkModels (fun _ => true) (fun _ => true) (fun _ => false) (fun _ => true) (fun _ _ _ _ _ => 0)
    (fun s mat sid => hypo_plastic G Y a dt (s_velgrad s (elem_in_mat L mat sid)) (s_stress0 s mat sid) (s_stress s mat sid))
    (fun _ _ _ => 1) (fun _ _ _ => 2) (fun s mat sid => s_eroded s mat sid) (fun _ _ _ => 0) (fun _ _ _ => 0) false (fun s => s_v s).

(** a stressed state, two stages, two cycles with different steps *)
Example C70_ex : let L := mkLayout 2 (fun _ => 3%nat) (fun _ sid => sid) in
  let cycles := [(0.1, fun k => ex_model L 7 5 (rk_alpha 2 k) 0.1); (0.2, fun k => ex_model L 7 5 (rk_alpha 2 k) 0.2)] in
  (forall dt Ms k, In (dt, Ms) cycles -> (k < 2)%nat -> plastic_material L 7 5 (rk_alpha 2 k) dt (Ms k) 1) /\
  admissible 5 (pure 1 2) /\ pure 1 2 0%nat 1%nat <> 0.
Proof.
  cbv zeta. split; [|split].
  - intros dt Ms k [E|[E|[]]] _; injection E as <- <-; (split; [reflexivity|split; [reflexivity|intros; reflexivity]]).
  - repeat split.
    + intros i j Hi Hj. cases3 Hi; cases3 Hj; reflexivity.
    + unfold trace, sum3, pure. lra.
    + unfold within_yield. rewrite pure_mises. lra.
  - unfold pure. lra.
Qed.

(** *** C71: response of the 3D model *)

(** below yield the stress advances with Hooke's law for the deviators, rotated with the material *)
Theorem C71_elastic : forall G Y a dt g sn s, 0 <= Y ->
  mises_sq (advanced (a * dt) sn (elastic_rate G g s)) + 1e-16 <= Y * Y ->
  same (hypo_plastic G Y a dt g sn s) (advanced (a * dt) sn (elastic_rate G g s)).
Proof. exact hypo_elastic. Qed.
Print Assumptions C71_elastic.

(** a trial stress above yield is brought back along its own direction to the yield surface *)
Theorem C71_return : forall G Y a dt g sn s, 0 <= Y ->
  let t := advanced (a * dt) sn (elastic_rate G g s) in
  Y * Y < mises_sq t ->
  exists c, 0 <= c < 1 /\ same (hypo_plastic G Y a dt g sn s) (fun i j => c * t i j) /\
    Y * Y - 1e-16 <= mises_sq (hypo_plastic G Y a dt g sn s) <= Y * Y.
Proof. exact hypo_return. Qed.
Print Assumptions C71_return.

(** plastic flow dissipates *)
Theorem C71_plastic_work : forall G Y a dt g sn s, 0 <= Y ->
  let t := advanced (a * dt) sn (elastic_rate G g s) in let r := hypo_plastic G Y a dt g sn s in
  0 <= dot (fun i j => t i j - r i j) r.
Proof. exact hypo_work. Qed.
Print Assumptions C71_plastic_work.

(** the response does not depend on the axes used *)
Theorem C71_isotropy : forall q G Y a dt g sn s, orthogonal q ->
  same (hypo_plastic G Y a dt (turned q g) (turned q sn) (turned q s)) (turned q (hypo_plastic G Y a dt g sn s)).
Proof. exact hypo_turned. Qed.
Print Assumptions C71_isotropy.

(** at rest, or under uniform expansion or compression, the stress deviator is kept.
    Missing: the margin 1e-16, see C71_hold_refuted. *)
Theorem C71_hold_partial : forall G Y a dt c sn s, 0 <= Y -> mises_sq sn + 1e-16 <= Y * Y ->
  same (hypo_plastic G Y a dt (fun i j => if Nat.eqb i j then c else 0) sn s) sn.
Proof.
  intros G Y a dt c sn s HY H.
  assert (E : same (advanced (a * dt) sn (elastic_rate G (fun i j => if Nat.eqb i j then c else 0) s)) sn).
  { intros i j Hi Hj. unfold advanced. rewrite (dilatation_rate G c s i j Hi Hj). unfold zero_ten. ring. }
  rewrite hypo_elastic; [exact E|exact HY|]. rewrite (mises_ext _ _ E). exact H.
Qed.
Print Assumptions C71_hold_partial.

(** for a small yield strength (in the unit of stress used) stress below yield leaks away although nothing moves *)
Theorem C71_hold_refuted : exists G Y a dt sn, 0 < Y /\ admissible Y sn /\ mises_sq sn < Y * Y / 30 /\
  hypo_plastic G Y a dt zero_ten sn sn 0%nat 1%nat < sn 0%nat 1%nat / 9.
Proof.
  exists 1, 1e-9, 1, 1, (pure 0 1e-10). split; [lra|]. split; [|split].
  - repeat split.
    + intros i j Hi Hj. cases3 Hi; cases3 Hj; reflexivity.
    + unfold trace, sum3, pure. lra.
    + unfold within_yield. rewrite pure_mises. lra.
  - rewrite pure_mises. lra.
  - set (t := trial 1 1 1 zero_ten (pure 0 1e-10) (pure 0 1e-10)).
    assert (E : same t (pure 0 1e-10)).
    { intros i j Hi Hj. unfold t, trial. rewrite (jaumann_elastic _ _ _ i j Hi Hj).
      unfold elastic_rate, dev_strain_rate, strain_rate, spin_of, times, trace, sum3, zero_ten.
      generalize (pure 0 1e-10). intros p. cases3 Hi; cases3 Hj; cbn [Nat.eqb]; field. }
    assert (Q : yield_factor 1e-9 t * yield_factor 1e-9 t * (mises_sq t + fuzz) = 1e-9 * 1e-9) by apply factor_sq.
    rewrite (mises_ext _ _ E), pure_mises in Q.
    pose proof (factor_range 1e-9 t ltac:(lra)) as F.
    assert (Z : fuzz = 1e-16) by reflexivity. rewrite Z in Q.
    assert (L : yield_factor 1e-9 t < 0.105).
    { destruct (Rlt_dec (yield_factor 1e-9 t) 0.105) as [K|K]; [exact K|exfalso]. apply Rnot_lt_le in K.
      assert (0.105 * 0.105 <= yield_factor 1e-9 t * yield_factor 1e-9 t) by (apply Rmult_le_compat; lra). nra. }
    unfold hypo_plastic. fold t. unfold scale_back. destruct (Rlt_dec (yield_factor 1e-9 t) 1) as [K|K]; [|lra].
    rewrite (E 0%nat 1%nat) by lia. unfold pure. nra.
Qed.
Print Assumptions C71_hold_refuted.

(** under a rigid rotation the rate of change of the stress is at right angles to the stress, *)
Theorem C71_rotation_partial : forall G g s, antisymmetric g -> symmetric s -> dot s (elastic_rate G g s) = 0.
Proof. exact rotation_rate. Qed.
Print Assumptions C71_rotation_partial.

(** but the update adds this rate over a finite step, so a rigid rotation raises the stress: in one two-stage step
    the von Mises stress more than doubles *)
Theorem C71_rotation_refuted : exists G Y dt g sn, 0 < Y /\ admissible Y sn /\ antisymmetric g /\
  let s1 := hypo_plastic G Y (rk_alpha 2 0) dt g sn sn in
  let s2 := hypo_plastic G Y (rk_alpha 2 1) dt g sn s1 in
  mises_sq s2 = 5 * mises_sq sn /\ 0 < mises_sq sn.
Proof.
  exists 1, 100, 1, (spin 1), (pure 1 0). split; [lra|]. split; [|split].
  - repeat split.
    + intros i j Hi Hj. cases3 Hi; cases3 Hj; reflexivity.
    + unfold trace, sum3, pure. lra.
    + unfold within_yield. rewrite pure_mises. lra.
  - intros i j Hi Hj. unfold spin. cases3 Hi; cases3 Hj; lra.
  - cbv zeta.
    assert (A0 : rk_alpha 2 0 = / 2) by (unfold rk_alpha; cbn [INR]; field).
    assert (A1 : rk_alpha 2 1 = 1) by (unfold rk_alpha; cbn [INR]; field).
    rewrite A0, A1.
    assert (E1 : same (hypo_plastic 1 100 (/ 2) 1 (spin 1) (pure 1 0) (pure 1 0)) (pure 1 (-1))).
    { rewrite (pure_call 1 100 (/ 2) 1 1 1 0 1 0); [|lra|reflexivity|lra].
      intros i j Hi Hj. unfold pure. cases3 Hi; cases3 Hj; lra. }
    assert (E2 : same (hypo_plastic 1 100 1 1 (spin 1) (pure 1 0) (hypo_plastic 1 100 (/ 2) 1 (spin 1) (pure 1 0) (pure 1 0))) (pure (-1) (-2))).
    { rewrite (pure_call 1 100 1 1 1 1 0 1 (-1)); [|lra|exact E1|lra].
      intros i j Hi Hj. unfold pure. cases3 Hi; cases3 Hj; lra. }
    rewrite (mises_ext _ _ E2), !pure_mises. lra.
Qed.
Print Assumptions C71_rotation_refuted.

(** the hypotheses are met: an elastic call, a yielding call and a turn by a right angle *)
Example C71_ex :
  mises_sq (advanced (1 * 1) (pure 1 0) (elastic_rate 1 (spin 1) (pure 1 0))) + 1e-16 <= 5 * 5 /\
  2 * 2 < mises_sq (advanced (1 * 1) (pure 1 0) (elastic_rate 1 (spin 1) (pure 1 0))) /\
  orthogonal (fun i j => match i, j with 0%nat, 1%nat => -1 | 1%nat, 0%nat => 1 | 2%nat, 2%nat => 1 | _, _ => 0 end) /\
  antisymmetric (spin 3) /\ symmetric (pure 1 2) /\ mises_sq (pure 1 2) + 1e-16 <= 5 * 5.
Proof.
  assert (E : same (advanced (1 * 1) (pure 1 0) (elastic_rate 1 (spin 1) (pure 1 0))) (pure 1 (-2))).
  { rewrite (advanced_ext _ _ (pure 1 0) _ (pure (2 * 1 * 0) (- (2 * 1 * 1)))); [|reflexivity|apply pure_spin].
    rewrite pure_advanced. intros i j Hi Hj. unfold pure. cases3 Hi; cases3 Hj; lra. }
  rewrite (mises_ext _ _ E), !pure_mises. repeat split; try lra.
  - intros i j Hi Hj. unfold times, transposed, sum3, ident. cases3 Hi; cases3 Hj; cbn [Nat.eqb]; lra.
  - intros i j Hi Hj. unfold times, transposed, sum3, ident. cases3 Hi; cases3 Hj; cbn [Nat.eqb]; lra.
  - intros i j Hi Hj. unfold spin. cases3 Hi; cases3 Hj; lra.
  - intros i j Hi Hj. unfold pure. cases3 Hi; cases3 Hj; lra.
Qed.

(** *** C72: the axisymmetric model keeps the stress symmetric, axisymmetric and within yield *)
Theorem C72_update : forall G Y a dt g sn s, 0 <= Y -> symmetric sn -> symmetric s ->
  admissible_rz Y (hypo_plastic_rz G Y a dt g sn s).
Proof. exact hypo_rz_admissible. Qed.
Print Assumptions C72_update.

Theorem C72_run : forall mr L tiny ext N G Y cycles s mat, 0 <= Y ->
  (forall dt Ms k, In (dt, Ms) cycles -> (k < N)%nat -> plastic_material_rz L G Y (rk_alpha N k) dt (Ms k) mat) ->
  (forall sid, (sid < num_mat_elems L mat)%nat -> admissible_rz Y (s_stress s mat sid)) ->
  forall sid, (sid < num_mat_elems L mat)%nat -> admissible_rz Y (s_stress (run_rz mr L tiny ext N cycles s) mat sid).
Proof.
  intros mr L tiny ext N G Y cycles s mat HY HM Hs. apply (run_rz_now (admissible_rz Y) (admissible_rz_zero Y)); [|exact Hs].
  intros dt Ms k Hc Hk. exact (plastic_rz_keeps L G Y _ dt (Ms k) mat HY (HM dt Ms k Hc Hk)).
Qed.
Print Assumptions C72_run.

(** but not free of trace: a rigid rotation of a stressed material, inside the yield surface *)
Theorem C72_trace_refuted : exists G Y a dt g sn, admissible Y sn /\ axisymmetric sn /\ antisymmetric g /\
  trace (hypo_plastic_rz G Y a dt g sn sn) <> 0.
Proof.
  exists 1, 100, 1, 1, (spin 1), (pure 0 2). split; [|split; [|split]].
  - repeat split.
    + intros i j Hi Hj. cases3 Hi; cases3 Hj; reflexivity.
    + unfold trace, sum3, pure. lra.
    + unfold within_yield. rewrite pure_mises. lra.
  - repeat split.
  - intros i j Hi Hj. unfold spin. cases3 Hi; cases3 Hj; lra.
  - set (t := trial_rz 1 1 1 (spin 1) (pure 0 2) (pure 0 2)).
    assert (D : forall i j, deviator (pure 0 2) i j = pure 0 2 i j).
    { apply deviator_id. unfold trace, sum3, pure. lra. }
    assert (V : forall i j, (i < 3)%nat -> (j < 3)%nat -> t i j =
      match i, j with 0%nat, 0%nat => 8 | 1%nat, 1%nat => -4 | 0%nat, 1%nat => 2 | 1%nat, 0%nat => 2 | _, _ => 0 end).
    { intros i j Hi Hj. unfold t, trial_rz. rewrite D. unfold wilkins_rate. rewrite !D.
      unfold Dpart, Wpart, divg, eye. rewrite sumn3. unfold sum3, spin, pure.
      cases3 Hi; cases3 Hj; cbn [Nat.eqb]; lra. }
    assert (C : contraction t = 88).
    { rewrite contraction_dot. unfold dot, sum3. rewrite !V by lia. lra. }
    unfold trace, sum3, hypo_plastic_rz, scaled_rz. fold t. rewrite C.
    destruct (Rlt_dec 0 (88 - 2 / 3 * (100 * 100))) as [K|K]; [lra|]. rewrite !V by lia. lra.
Qed.
Print Assumptions C72_trace_refuted.

Example C72_ex : symmetric (pure 1 2) /\ axisymmetric (pure 1 2) /\ within_yield 5 (pure 1 2).
Proof.
  split; [|split]. - intros i j Hi Hj. cases3 Hi; cases3 Hj; reflexivity. - repeat split.
  - unfold within_yield. rewrite pure_mises. lra.
Qed.

(** *** C73: response of the axisymmetric model *)

(** at rest the stress is kept, exactly *)
Theorem C73_hold : forall G Y a dt sn s, symmetric sn -> axisymmetric sn -> trace sn = 0 -> within_yield Y sn ->
  same (hypo_plastic_rz G Y a dt zero_ten sn s) sn.
Proof. exact hypo_rz_hold. Qed.
Print Assumptions C73_hold.

(** stretching an unstressed material without shear, below yield: Hooke's law.
    Missing: shear (C73_shear_refuted) and stressed states (C73_units_refuted). *)
Theorem C73_stretch_partial : forall G Y a dt g, (forall i j, (i < 3)%nat -> (j < 3)%nat -> i <> j -> g i j = 0) ->
  within_yield Y (fun i j => a * dt * (2 * G * dev_strain_rate g i j)) ->
  same (hypo_plastic_rz G Y a dt g zero_ten zero_ten) (fun i j => a * dt * (2 * G * dev_strain_rate g i j)).
Proof.
  intros G Y a dt g Hg HW.
  set (t := trial_rz G a dt g zero_ten zero_ten).
  assert (V : same t (fun i j => a * dt * (2 * G * dev_strain_rate g i j))).
  { intros i j Hi Hj. unfold t.
    assert (O : i <> j -> dev_strain_rate g i j = 0).
    { intros N. unfold dev_strain_rate, strain_rate. rewrite (Hg i j), (Hg j i) by (assumption || lia).
      rewrite (proj2 (Nat.eqb_neq i j) N). lra. }
    destruct (Nat.eq_dec i 2) as [->|Ni].
    - destruct (Nat.eq_dec j 2) as [->|Nj].
      + rewrite trial_rz_hoop. unfold trace at 1, sum3, zero_ten. lra.
      + rewrite O by lia. unfold trial_rz, deviator, wilkins_rate, zero_ten.
        destruct j as [|[|j]]; [| |lia]; cbn [Nat.eqb]; lra.
    - destruct (Nat.eq_dec j 2) as [->|Nj].
      + rewrite O by lia. unfold trial_rz, deviator, wilkins_rate, zero_ten.
        destruct i as [|[|i]]; [| |lia]; cbn [Nat.eqb]; lra.
      + rewrite trial_rz_unstressed by lia. destruct (Nat.eqb i j) eqn:E; [reflexivity|].
        apply Nat.eqb_neq in E. rewrite (O E). ring. }
  assert (C : contraction t = dot (fun i j => a * dt * (2 * G * dev_strain_rate g i j)) (fun i j => a * dt * (2 * G * dev_strain_rate g i j))).
  { rewrite contraction_dot. apply dot_ext; exact V. }
  unfold within_yield, mises_sq in HW.
  intros i j Hi Hj. unfold hypo_plastic_rz, scaled_rz. fold t. rewrite C.
  destruct (Rlt_dec _ _) as [K|K]; [lra|].
  cases3 Hi; cases3 Hj; try (apply V; lia); cbv beta; unfold dev_strain_rate, strain_rate;
    rewrite ?(Hg 0%nat 1%nat), ?(Hg 1%nat 0%nat), ?(Hg 0%nat 2%nat), ?(Hg 2%nat 0%nat), ?(Hg 1%nat 2%nat), ?(Hg 2%nat 1%nat) by lia;
    cbn [Nat.eqb]; try lra.
  rewrite (V 0%nat 1%nat) by lia. unfold dev_strain_rate, strain_rate. rewrite (Hg 0%nat 1%nat), (Hg 1%nat 0%nat) by lia. cbn [Nat.eqb]. lra.
Qed.
Print Assumptions C73_stretch_partial.

(** shearing an unstressed material: the shear stress is half of Hooke's law and half of what the 3D model gives *)
Theorem C73_shear_refuted : exists G Y a dt g, 0 < Y /\
  0 < hypo_plastic_rz G Y a dt g zero_ten zero_ten 0%nat 1%nat /\
  hypo_plastic G Y a dt g zero_ten zero_ten 0%nat 1%nat = a * dt * (2 * G * dev_strain_rate g 0%nat 1%nat) /\
  hypo_plastic_rz G Y a dt g zero_ten zero_ten 0%nat 1%nat = / 2 * (a * dt * (2 * G * dev_strain_rate g 0%nat 1%nat)).
Proof.
  exists 1, 100, 1, 1, (shear 2).
  assert (A : hypo_plastic_rz 1 100 1 1 (shear 2) zero_ten zero_ten 0%nat 1%nat = / 2 * (1 * 1 * (2 * 1 * dev_strain_rate (shear 2) 0%nat 1%nat))).
  { rewrite hypo_rz_unstressed; [cbn [Nat.eqb]; field| |lia|lia].
    set (t := trial_rz 1 1 1 (shear 2) zero_ten zero_ten).
    assert (V : forall i j, (i < 3)%nat -> (j < 3)%nat -> t i j =
      match i, j with 0%nat, 1%nat => 1 | 1%nat, 0%nat => 1 | _, _ => 0 end).
    { intros i j Hi Hj. unfold t, trial_rz, deviator, wilkins_rate, Dpart, Wpart, divg, eye. rewrite !sumn3. unfold sum3, shear, zero_ten.
      cases3 Hi; cases3 Hj; cbn [Nat.eqb]; lra. }
    unfold dot, sum3. rewrite !V by lia. lra. }
  assert (B : dev_strain_rate (shear 2) 0%nat 1%nat = 1).
  { unfold dev_strain_rate, strain_rate, shear. cbn [Nat.eqb]. lra. }
  split; [lra|]. split; [rewrite A, B; lra|]. split; [|exact A].
  assert (E : same (advanced (1 * 1) zero_ten (elastic_rate 1 (shear 2) zero_ten)) (pure 0 2)).
  { intros i j Hi Hj. unfold advanced, elastic_rate, dev_strain_rate, strain_rate, spin_of, times, trace, sum3, zero_ten, shear, pure.
    cases3 Hi; cases3 Hj; cbn [Nat.eqb]; lra. }
  rewrite (hypo_elastic 1 100 1 1 (shear 2) zero_ten zero_ten); [|lra|rewrite (mises_ext _ _ E), pure_mises; lra|lia|lia].
  rewrite (E 0%nat 1%nat) by lia. rewrite B. unfold pure. lra.
Qed.
Print Assumptions C73_shear_refuted.

(** the result depends on the unit of stress: the same state and moduli in another unit give another stress *)
Theorem C73_units_refuted : exists G Y a dt g sn c, 0 < Y /\ 0 < c /\ admissible Y sn /\ axisymmetric sn /\
  hypo_plastic_rz (c * G) (c * Y) a dt g (fun i j => c * sn i j) (fun i j => c * sn i j) 0%nat 0%nat <>
  c * hypo_plastic_rz G Y a dt g sn sn 0%nat 0%nat.
Proof.
  exists 1, 100, 1, 1, (spin 1), (pure 0 1), 2. split; [lra|]. split; [lra|]. split; [|split].
  - repeat split.
    + intros i j Hi Hj. cases3 Hi; cases3 Hj; reflexivity.
    + unfold trace, sum3, pure. lra.
    + unfold within_yield. rewrite pure_mises. lra.
  - repeat split.
  - assert (D : forall c i j, deviator (fun i j => c * pure 0 1 i j) i j = c * pure 0 1 i j).
    { intros c. apply (deviator_id (fun i j => c * pure 0 1 i j)). unfold trace, sum3, pure. lra. }
    assert (D1 : forall i j, deviator (pure 0 1) i j = pure 0 1 i j).
    { apply deviator_id. unfold trace, sum3, pure. lra. }
    set (t := trial_rz 1 1 1 (spin 1) (pure 0 1) (pure 0 1)).
    assert (V : forall i j, (i < 3)%nat -> (j < 3)%nat -> t i j =
      match i, j with 0%nat, 0%nat => 2 | 1%nat, 1%nat => -2 | 0%nat, 1%nat => 1 | 1%nat, 0%nat => 1 | _, _ => 0 end).
    { intros i j Hi Hj. unfold t, trial_rz. rewrite D1. unfold wilkins_rate. rewrite !D1.
      unfold Dpart, Wpart, divg, eye. rewrite sumn3. unfold sum3, spin, pure.
      cases3 Hi; cases3 Hj; cbn [Nat.eqb]; lra. }
    set (u := trial_rz (2 * 1) 1 1 (spin 1) (fun i j => 2 * pure 0 1 i j) (fun i j => 2 * pure 0 1 i j)).
    assert (U : forall i j, (i < 3)%nat -> (j < 3)%nat -> u i j =
      match i, j with 0%nat, 0%nat => 8 | 1%nat, 1%nat => -4 | 0%nat, 1%nat => 2 | 1%nat, 0%nat => 2 | _, _ => 0 end).
    { intros i j Hi Hj. unfold u, trial_rz. rewrite D. unfold wilkins_rate. rewrite !D.
      unfold Dpart, Wpart, divg, eye. rewrite sumn3. unfold sum3, spin, pure.
      cases3 Hi; cases3 Hj; cbn [Nat.eqb]; lra. }
    assert (Ct : contraction t = 10). { rewrite contraction_dot. unfold dot, sum3. rewrite !V by lia. lra. }
    assert (Cu : contraction u = 88). { rewrite contraction_dot. unfold dot, sum3. rewrite !U by lia. lra. }
    unfold hypo_plastic_rz, scaled_rz. fold t u. rewrite Ct, Cu.
    destruct (Rlt_dec 0 (88 - 2 / 3 * (2 * 100 * (2 * 100)))) as [K|K]; [lra|].
    destruct (Rlt_dec 0 (10 - 2 / 3 * (100 * 100))) as [K'|K']; [lra|].
    rewrite U, V by lia. lra.
Qed.
Print Assumptions C73_units_refuted.

Example C73_ex : trace (pure 1 2) = 0 /\
  within_yield 5 (fun i j => 1 * 1 * (2 * 1 * dev_strain_rate (fun i j => if Nat.eqb i 0 then if Nat.eqb j 0 then 1 else 0 else 0) i j)).
Proof.
  split; [unfold trace, sum3, pure; lra|].
  unfold within_yield, mises_sq, dot, dev_strain_rate, strain_rate, trace, sum3. cbn [Nat.eqb]. lra.
Qed.
