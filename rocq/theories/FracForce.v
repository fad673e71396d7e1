(** Proofs about the cohesive zones: forces, areas, normals, prescribed motions. *)
From Coq Require Import Reals List Lia Lra FunctionalExtensionality.
From Verif Require Import BaseArr BaseReal FracModel FracSpec FracMore.
From Verif Require SghModel.
Import ListNotations.
Open Scope R_scope.

(** ** Forces *)
Lemma add_pair_total nn F gA gB f k : sumn nn (fun n => add_pair_force nn F gA gB f n k) = sumn nn (fun n => F n k).
Proof.
  unfold add_pair_force. destruct (Nat.ltb_spec gA nn) as [A|A]; destruct (Nat.ltb_spec gB nn) as [B|B]; cbn [andb]; try reflexivity.
  rewrite (sumn_ext nn _ (fun n => F n k + (if Nat.eqb n gA then f k else 0) - (if Nat.eqb n gB then f k else 0))).
  - rewrite sumn_minus, sumn_plus, !sumn_delta by assumption. ring.
  - intros n _. destruct (Nat.eqb n gB); destruct (Nat.eqb n gA); ring.
Qed.
Lemma loads_total nn x nodes rows k : sumn nn (fun n => loads nn x nodes rows n k) = 0.
Proof.
  unfold loads.
  assert (G : forall rows F, sumn nn (fun n => F n k) = 0 ->
    sumn nn (fun n => fold_left (fun F '(gA, gB, faces, v, d) =>
      let n := snd (oriented x nodes faces) in
      add_pair_force nn F gA gB
        (pair_force x n (pair_area x nodes faces) (c_Tn v + c_Tn d) (c_Tt v + c_Tt d) gA gB)) rows F n k) = 0).
  { clear. induction rows as [|[[[[gA gB] faces] v] d] rows IH]; intros F H; [exact H|]. cbn [fold_left]. apply IH. cbv zeta.
    rewrite add_pair_total. exact H. }
  apply G. apply sumn_0.
Qed.
Lemma loads_other nn x nodes rows n k : (forall gA gB f v d, In (gA, gB, f, v, d) rows -> n <> gA /\ n <> gB) -> loads nn x nodes rows n k = 0.
Proof.
  unfold loads.
  assert (G : forall rows F, (forall gA gB f v d, In (gA, gB, f, v, d) rows -> n <> gA /\ n <> gB) ->
    fold_left (fun F '(gA, gB, faces, v, d) =>
      let n := snd (oriented x nodes faces) in
      add_pair_force nn F gA gB
        (pair_force x n (pair_area x nodes faces) (c_Tn v + c_Tn d) (c_Tt v + c_Tt d) gA gB)) rows F n k = F n k).
  { clear. induction rows as [|[[[[gA gB] faces] v] d] rows IH]; intros F H; [reflexivity|]. cbn [fold_left]. rewrite IH by (intros; eapply H; right; eassumption).
    cbv zeta. unfold add_pair_force. destruct (H gA gB faces v d (or_introl eq_refl)) as [A B].
    destruct (Nat.ltb gA nn && Nat.ltb gB nn)%bool; [|reflexivity].
    destruct (Nat.eqb_spec n gB); [contradiction|]. destruct (Nat.eqb_spec n gA); [contradiction|]. reflexivity. }
  intros H. apply G. exact H.
Qed.

(** the tangential direction of the separation *)
Definition tangent (d n : vec) : vec := if Rlt_dec 0 (vmag (across d n)) then fun k => across d n k / vmag (across d n) else vzero.
Lemma pair_force_tan x n area Tn Tt gA gB k : 0 < area ->
  pair_force x n area Tn Tt gA gB k = Tn * area * n k + Tt * area * tangent (vminus (x gB) (x gA)) n k.
Proof.
  intros A. unfold pair_force, tangent. destruct (Rle_dec area 0); [lra|]. reflexivity.
Qed.
Lemma tangent_dot d n : vdot (tangent d n) (across d n) = vmag (across d n).
Proof.
  unfold tangent. destruct (Rlt_dec 0 (vmag (across d n))) as [P|P].
  - replace (vdot (fun k => across d n k / vmag (across d n)) (across d n)) with (vdot (across d n) (across d n) / vmag (across d n)).
    + rewrite <- vmag_sq. field. lra.
    + set (m := vmag (across d n)) in *. unfold vdot at 1 2. field. lra.
  - pose proof (vmag_nonneg (across d n)). unfold vdot, vzero. lra.
Qed.
Lemma across_n d n : unit_vec n -> vdot (across d n) n = 0.
Proof. intros U. unfold unit_vec in U. assert (G : forall c, vdot (fun k => d k - c * n k) n = vdot d n - c * vdot n n) by (intros; unfold vdot; ring).
  unfold across. rewrite G, U. ring. Qed.
Lemma tangent_n d n : unit_vec n -> vdot (tangent d n) n = 0.
Proof.
  intros U. unfold tangent. destruct (Rlt_dec 0 (vmag (across d n))) as [P|P].
  - set (m := vmag (across d n)) in *. replace (vdot (fun k => across d n k / m) n) with (vdot (across d n) n / m) by (unfold vdot at 1 2; field; lra).
    rewrite (across_n d n U). field. lra.
  - unfold vdot, vzero. ring.
Qed.
Lemma tangent_mag d n k : (k < 3)%nat -> vmag (across d n) * tangent d n k = across d n k.
Proof.
  intros K. unfold tangent. destruct (Rlt_dec 0 (vmag (across d n))) as [P|P].
  - field. lra.
  - pose proof (vmag_nonneg (across d n)). assert (Z : vmag (across d n) = 0) by lra. rewrite (vmag_zero _ Z k K). unfold vzero. ring.
Qed.

(** the work of the pair against its separation *)
Lemma pair_work x n area Tn Tt gA gB : 0 < area -> unit_vec n -> let d := vminus (x gB) (x gA) in
  vdot (pair_force x n area Tn Tt gA gB) d = area * (Tn * along d n + Tt * vmag (across d n)).
Proof.
  intros A U d. rewrite (vdot_ext _ (fun k => Tn * area * n k + Tt * area * tangent d n k) d d (fun k _ => pair_force_tan x n area Tn Tt gA gB k A) (fun _ _ => eq_refl)).
  assert (E : vdot (tangent d n) d = vmag (across d n)).
  { pose proof (tangent_dot d n) as T. assert (G : forall t c, vdot t (fun k => d k - c * n k) = vdot t d - c * vdot t n)
      by (intros; unfold vdot; ring).
    change (vdot (tangent d n) (fun k => d k - vdot d n * n k) = vmag (across d n)) in T. rewrite G, (tangent_n d n U) in T. lra. }
  replace (vdot (fun k => Tn * area * n k + Tt * area * tangent d n k) d) with (Tn * area * vdot d n + Tt * area * vdot (tangent d n) d)
    by (unfold vdot; ring).
  rewrite E. unfold along. ring.
Qed.
Lemma pair_aligned x n area c gA gB k : 0 < area -> (k < 3)%nat -> let d := vminus (x gB) (x gA) in
  pair_force x n area (c * along d n) (c * vmag (across d n)) gA gB k = c * area * d k.
Proof.
  intros A K d. rewrite (pair_force_tan _ _ _ _ _ _ _ _ A). fold d.
  replace (c * vmag (across d n) * area * tangent d n k) with (c * area * (vmag (across d n) * tangent d n k)) by ring.
  rewrite (tangent_mag d n k K). unfold along, across. ring.
Qed.

(** ** Normals *)
Lemma unit_or_zero_spec v : unit_vec (unit_or_zero v) \/ same3 (unit_or_zero v) vzero.
Proof.
  unfold unit_or_zero. destruct (Rlt_dec 0 (vmag v)) as [P|P]; [left|right; intros k K; reflexivity].
  unfold unit_vec. set (m := vmag v) in *. replace (vdot (fun d => v d / m) (fun d => v d / m)) with (vdot v v / (m * m)) by (unfold vdot; field; lra).
  unfold m. rewrite vmag_sq. field. rewrite <- vmag_sq. fold m. intros Z. apply Rmult_integral in Z. lra.
Qed.
Lemma oriented_spec x nodes faces : let '(nt, ndt) := oriented x nodes faces in
  same3 nt ndt /\ (unit_vec nt \/ same3 nt vzero).
Proof.
  unfold oriented. destruct faces as [|f faces]; [split; [intros k K; reflexivity|right; intros k K; reflexivity]|].
  cbv zeta. set (s := normal_sum x nodes (f :: faces)). destruct (Rlt_dec (vdot s s) 0) as [N|N]; [pose proof (vdot_nonneg s); lra|].
  split; [intros k K; reflexivity|apply unit_or_zero_spec].
Qed.

(** ** Areas *)
Section Quad.
  Variables (q : nat -> vec).
  Definition q1 (eta : R) : vec := fun o => 0.25 * ((q 1%nat o - q 0%nat o) * (1 - eta) + (q 2%nat o - q 3%nat o) * (1 + eta)).
  Definition q2 (xi : R) : vec := fun o => 0.25 * ((q 3%nat o - q 0%nat o) * (1 - xi) + (q 2%nat o - q 1%nat o) * (1 + xi)).

  Lemma quad_gauss g : 0 <= g <= 1 -> planar_convex q ->
    vmag (vcross (q1 (-g)) (q2 (-g))) + vmag (vcross (q1 (-g)) (q2 g)) + vmag (vcross (q1 g) (q2 (-g))) + vmag (vcross (q1 g) (q2 g)) = quad_area q.
  Proof.
    intros G (N & c & U & C & H).
    assert (H0 := H 0%nat ltac:(lia)). assert (H1 := H 1%nat ltac:(lia)). assert (H2 := H 2%nat ltac:(lia)). assert (H3 := H 3%nat ltac:(lia)).
    change ((0 + 1) mod 4)%nat with 1%nat in H0. change ((0 + 3) mod 4)%nat with 3%nat in H0.
    change ((1 + 1) mod 4)%nat with 2%nat in H1. change ((1 + 3) mod 4)%nat with 0%nat in H1.
    change ((2 + 1) mod 4)%nat with 3%nat in H2. change ((2 + 3) mod 4)%nat with 1%nat in H2.
    change ((3 + 1) mod 4)%nat with 0%nat in H3. change ((3 + 3) mod 4)%nat with 2%nat in H3.
    assert (C0 := C 0%nat ltac:(lia)). assert (C1 := C 1%nat ltac:(lia)). assert (C2 := C 2%nat ltac:(lia)). assert (C3 := C 3%nat ltac:(lia)).
    assert (M : vmag N = 1) by (unfold vmag; rewrite U; apply sqrt_1).
    (* value at a point *)
    assert (J : forall xi eta, -1 <= xi <= 1 -> -1 <= eta <= 1 ->
      vmag (vcross (q1 eta) (q2 xi)) = / 16 * ((1 - xi) * (1 - eta) * c 0%nat + (1 + xi) * (1 - eta) * c 1%nat + (1 + xi) * (1 + eta) * c 2%nat + (1 - xi) * (1 + eta) * c 3%nat)).
    { intros xi eta X E.
      set (w := / 16 * ((1 - xi) * (1 - eta) * c 0%nat + (1 + xi) * (1 - eta) * c 1%nat + (1 + xi) * (1 + eta) * c 2%nat + (1 - xi) * (1 + eta) * c 3%nat)).
      assert (W : 0 <= w).
      { unfold w. apply Rmult_le_pos; [lra|]. repeat apply Rplus_le_le_0_compat; repeat apply Rmult_le_pos; lra. }
      rewrite (vmag_ext _ (vscale w N)); [rewrite vmag_scale, M, Rabs_right by lra; ring|].
      intros k K. specialize (H0 k K). specialize (H1 k K). specialize (H2 k K). specialize (H3 k K). unfold vscale in *.
      replace (w * N k) with (/ 16 * ((1 - xi) * (1 - eta) * (c 0%nat * N k) + (1 + xi) * (1 - eta) * (c 1%nat * N k) + (1 + xi) * (1 + eta) * (c 2%nat * N k) + (1 - xi) * (1 + eta) * (c 3%nat * N k))) by (unfold w; ring).
      rewrite <- H0, <- H1, <- H2, <- H3. unfold q1, q2. replace 0.25 with (/ 4) by lra.
      destruct k as [|[|[|k]]]; [| | |lia]; unfold vcross, vminus; field. }
    rewrite !J by lra.
    assert (D : quad_area q = (c 0%nat + c 1%nat + c 2%nat + c 3%nat) / 4).
    { unfold quad_area. rewrite (vmag_ext _ (vscale ((c 0%nat + c 1%nat + c 2%nat + c 3%nat) / 2) N)).
      - rewrite vmag_scale, M, Rabs_right by lra. field.
      - intros k K. specialize (H0 k K). specialize (H1 k K). specialize (H2 k K). specialize (H3 k K). unfold vscale in *.
        replace ((c 0%nat + c 1%nat + c 2%nat + c 3%nat) / 2 * N k) with ((c 0%nat * N k + c 1%nat * N k + c 2%nat * N k + c 3%nat * N k) / 2) by (field).
        rewrite <- H0, <- H1, <- H2, <- H3. destruct k as [|[|[|k]]]; [| | |lia]; unfold vcross, vminus; field. }
    rewrite D. field.
  Qed.
End Quad.

(** going round the quadrilateral the other way, or starting elsewhere *)
Lemma convex_reverse p : planar_convex p -> planar_convex (fun i => match i with 0%nat => p 0%nat | 1%nat => p 3%nat | 2%nat => p 2%nat | _ => p 1%nat end).
Proof.
  intros (N & c & U & C & H). exists (vscale (-1) N), (fun i => match i with 0%nat => c 0%nat | 1%nat => c 3%nat | 2%nat => c 2%nat | _ => c 1%nat end).
  split; [unfold unit_vec in *; rewrite <- U; unfold vdot, vscale; ring|]. split; [intros i I; destruct i as [|[|[|[|i]]]]; try lia; apply C; lia|].
  intros i I. assert (H0 := H 0%nat ltac:(lia)). assert (H1 := H 1%nat ltac:(lia)). assert (H2 := H 2%nat ltac:(lia)). assert (H3 := H 3%nat ltac:(lia)).
  change ((0 + 1) mod 4)%nat with 1%nat in H0. change ((0 + 3) mod 4)%nat with 3%nat in H0.
  change ((1 + 1) mod 4)%nat with 2%nat in H1. change ((1 + 3) mod 4)%nat with 0%nat in H1.
  change ((2 + 1) mod 4)%nat with 3%nat in H2. change ((2 + 3) mod 4)%nat with 1%nat in H2.
  change ((3 + 1) mod 4)%nat with 0%nat in H3. change ((3 + 3) mod 4)%nat with 2%nat in H3.
  assert (G : forall (a b : vec) c, same3 (vcross a b) (vscale c N) -> same3 (vcross b a) (vscale c (vscale (-1) N))).
  { intros a b c' E k K. specialize (E k K). unfold vscale in *. replace (c' * (-1 * N k)) with (- (c' * N k)) by ring. rewrite <- E.
    destruct k as [|[|[|k]]]; [| | |lia]; unfold vcross; ring. }
  destruct i as [|[|[|[|i]]]]; [| | | |lia].
  - change ((0 + 1) mod 4)%nat with 1%nat. change ((0 + 3) mod 4)%nat with 3%nat. cbv beta iota. apply G. exact H0.
  - change ((1 + 1) mod 4)%nat with 2%nat. change ((1 + 3) mod 4)%nat with 0%nat. cbv beta iota. apply G. exact H3.
  - change ((2 + 1) mod 4)%nat with 3%nat. change ((2 + 3) mod 4)%nat with 1%nat. cbv beta iota. apply G. exact H2.
  - change ((3 + 1) mod 4)%nat with 0%nat. change ((3 + 3) mod 4)%nat with 2%nat. cbv beta iota. apply G. exact H1.
Qed.
Lemma convex_shift p : planar_convex p -> planar_convex (fun i => p (Nat.modulo (i + 1) 4)).
Proof.
  intros (N & c & U & C & H). exists N, (fun i => c (Nat.modulo (i + 1) 4)). split; [exact U|]. split; [intros i I; apply C; apply Nat.mod_upper_bound; lia|].
  intros i I. destruct i as [|[|[|[|i]]]]; [| | | |lia].
  - exact (H 1%nat ltac:(lia)).
  - exact (H 2%nat ltac:(lia)).
  - exact (H 3%nat ltac:(lia)).
  - exact (H 0%nat ltac:(lia)).
Qed.
Lemma area_reverse p : quad_area (fun i => match i with 0%nat => p 0%nat | 1%nat => p 3%nat | 2%nat => p 2%nat | _ => p 1%nat end) = quad_area p.
Proof.
  unfold quad_area. f_equal. cbv beta iota. unfold vmag. f_equal. unfold vdot, vcross, vminus. ring.
Qed.
Lemma area_shift p : quad_area (fun i => p (Nat.modulo (i + 1) 4)) = quad_area p.
Proof.
  unfold quad_area. f_equal. change ((2 + 1) mod 4)%nat with 3%nat. change ((0 + 1) mod 4)%nat with 1%nat.
  change ((3 + 1) mod 4)%nat with 0%nat. change ((1 + 1) mod 4)%nat with 2%nat.
  unfold vmag. f_equal. unfold vdot, vcross, vminus. ring.
Qed.

Lemma gp_range : 0 <= gp <= 1. Proof. unfold gp. lra. Qed.

(** the four corners of a face *)
Definition face_quad (x : nat -> vec) (fc : list nat) : nat -> vec := fun a => x (nth a fc O).

Lemma eighth : 0.125 = / 8. Proof. lra. Qed.
Lemma quarter : 0.25 = / 4. Proof. lra. Qed.

Lemma jac_sum x q row o : jac_row x q row o =
  let '(xi, eta, zeta) := q in
  let w a := match row with
    | 0%nat => / 8 * s_xi a * (1 + s_eta a * eta) * (1 + s_zeta a * zeta)
    | 1%nat => / 8 * s_eta a * (1 + s_xi a * xi) * (1 + s_zeta a * zeta)
    | _ => / 8 * s_zeta a * (1 + s_xi a * xi) * (1 + s_eta a * eta) end in
  x 0%nat o * w 0%nat + x 1%nat o * w 1%nat + x 2%nat o * w 2%nat + x 3%nat o * w 3%nat +
  x 4%nat o * w 4%nat + x 5%nat o * w 5%nat + x 6%nat o * w 6%nat + x 7%nat o * w 7%nat.
Proof.
  destruct q as [[xi eta] zeta]. unfold jac_row. rewrite eighth. cbv zeta.
  destruct row as [|[|row]]; cbn [sumn]; ring.
Qed.

(** a face whose parameter lines are those of the quadrilateral *)
Lemma area_face_quad x f (Q : nat -> vec) (pt : R -> R -> R * R * R) :
  gauss_points f = [pt (-gp) (-gp); pt gp (-gp); pt (-gp) gp; pt gp gp] ->
  (forall a b, same3 (jac_row x (pt a b) (fst (tangent_rows f))) (q1 Q b)) ->
  (forall a b, same3 (jac_row x (pt a b) (snd (tangent_rows f))) (q2 Q a)) ->
  planar_convex Q -> area_face x f = quad_area Q.
Proof.
  intros G R1 R2 C. unfold area_face. rewrite G. rewrite !suml_cons. cbn [suml fold_right].
  assert (E : forall a b, vmag (vcross (jac_row x (pt a b) (fst (tangent_rows f))) (jac_row x (pt a b) (snd (tangent_rows f)))) = vmag (vcross (q1 Q b) (q2 Q a))).
  { intros a b. apply vmag_ext. intros k K.
    pose proof (R1 a b 0%nat ltac:(lia)) as A0. pose proof (R1 a b 1%nat ltac:(lia)) as A1. pose proof (R1 a b 2%nat ltac:(lia)) as A2.
    pose proof (R2 a b 0%nat ltac:(lia)) as B0. pose proof (R2 a b 1%nat ltac:(lia)) as B1. pose proof (R2 a b 2%nat ltac:(lia)) as B2.
    destruct k as [|[|[|k]]]; [| | |lia]; unfold vcross; rewrite ?A0, ?A1, ?A2, ?B0, ?B1, ?B2; reflexivity. }
  rewrite !E. rewrite <- (quad_gauss Q gp gp_range C). ring.
Qed.

Ltac face_rows := intros a b o _; rewrite jac_sum; cbv zeta; unfold q1, q2, s_xi, s_eta, s_zeta; rewrite quarter; cbn [tangent_rows fst snd]; cbv beta iota; field.

Lemma area_face_exact x f fc : face_corners f = Some fc -> planar_convex (face_quad x fc) -> area_face x f = quad_area (face_quad x fc).
Proof.
  intros F C. destruct f as [|[|[|[|[|[|f]]]]]]; [| | | | | |discriminate F]; inversion F; subst fc; clear F.
  - rewrite <- area_reverse. apply convex_reverse in C.
    apply (area_face_quad x 0 _ (fun a b => (-1, a, b))); [reflexivity| | |exact C]; unfold face_quad; cbn [nth]; face_rows.
  - apply (area_face_quad x 1 _ (fun a b => (1, a, b))); [reflexivity| | |exact C]; unfold face_quad; cbn [nth]; face_rows.
  - apply (area_face_quad x 2 _ (fun a b => (a, -1, b))); [reflexivity| | |exact C]; unfold face_quad; cbn [nth]; face_rows.
  - rewrite <- area_reverse, <- area_shift, <- area_shift, <- area_shift. apply convex_reverse, convex_shift, convex_shift, convex_shift in C.
    apply (area_face_quad x 3 _ (fun a b => (a, 1, b))); [reflexivity| | |exact C].
    + change (forall a b : R, same3 (jac_row x (a, 1, b) (fst (tangent_rows 3)))
       (q1 (fun i => match i with 0%nat => x 2%nat | 1%nat => x 3%nat | 2%nat => x 7%nat | _ => x 6%nat end) b)). face_rows.
    + change (forall a b : R, same3 (jac_row x (a, 1, b) (snd (tangent_rows 3)))
       (q2 (fun i => match i with 0%nat => x 2%nat | 1%nat => x 3%nat | 2%nat => x 7%nat | _ => x 6%nat end) a)). face_rows.
  - rewrite <- area_reverse. apply convex_reverse in C.
    apply (area_face_quad x 4 _ (fun a b => (a, b, -1))); [reflexivity| | |exact C]; unfold face_quad; cbn [nth]; face_rows.
  - apply (area_face_quad x 5 _ (fun a b => (a, b, 1))); [reflexivity| | |exact C]; unfold face_quad; cbn [nth]; face_rows.
Qed.

Lemma pair_area_exact x nodes faces :
  (forall e f, In (e, f) faces -> exists fc, face_corners f = Some fc /\ planar_convex (face_quad (fun a => x (nodes e a)) fc)) ->
  pair_area x nodes faces =
  suml (fun '(e, f) => match face_corners f with Some fc => quad_area (face_quad (fun a => x (nodes e a)) fc) / 4 | None => 0 end) faces.
Proof.
  intros H. unfold pair_area. apply suml_ext. intros [e f] I. destruct (H e f I) as (fc & F & C). rewrite F, (area_face_exact _ f fc F C). lra.
Qed.

Lemma zap_close v : Rabs (zap v - v) < 1e-13.
Proof.
  unfold zap. destruct (Rlt_dec (Rabs v) 1e-13) as [L|L].
  - replace (0 - v) with (- v) by ring. rewrite Rabs_Ropp. exact L.
  - replace (v - v) with 0 by ring. rewrite Rabs_R0. lra.
Qed.
Lemma zap_0 : zap 0 = 0. Proof. unfold zap. destruct (Rlt_dec _ _); reflexivity. Qed.

Lemma m25 : -0.25 = - / 4. Proof. lra. Qed.
Lemma d25 : 0.25 = / 4. Proof. lra. Qed.
Definition geo_of (r s c : vec) : face_geo :=
  if Rlt_dec 1e-20 (vmag r) then
    if Rlt_dec 1e-20 (vmag s) then
      let r' := fun d => r d / vmag r in
      let s' := fun d => s d / vmag s in
      let n := vcross r' s' in
      let n' := if Rlt_dec 1e-20 (vmag n) then fun d => n d / vmag n else vzero in
      mkFace (fun d => zap (n' d)) (fun d => zap (r' d)) (fun d => zap (s' d)) c
    else mkFace vzero vzero vzero c
  else mkFace vzero vzero vzero c.

Lemma geo_normal r s c N A : unit_vec N -> 0 < A -> same3 (vcross r s) (vscale A N) ->
  ~ same3 (f_n (geo_of r s c)) vzero -> forall k, (k < 3)%nat -> Rabs (f_n (geo_of r s c) k - N k) < 1e-13.
Proof.
  intros U PA C NZ k K. unfold geo_of in *.
  destruct (Rlt_dec 1e-20 (vmag r)) as [R1|R1]; [|exfalso; apply NZ; intros j J; reflexivity].
  destruct (Rlt_dec 1e-20 (vmag s)) as [S1|S1]; [|exfalso; apply NZ; intros j J; reflexivity].
  cbv zeta in *. cbn [f_n] in *.
  assert (R0 : 0 < vmag r) by lra. assert (S0 : 0 < vmag s) by lra.
  set (n := vcross (fun d => r d / vmag r) (fun d => s d / vmag s)) in *.
  assert (E : same3 n (vscale (A / (vmag r * vmag s)) N)).
  { intros j J. unfold vscale. replace (A / (vmag r * vmag s) * N j) with (A * N j / (vmag r * vmag s)) by (field; lra).
    pose proof (C j J) as G. unfold vscale in G. rewrite <- G. unfold n.
    destruct j as [|[|[|j]]]; [| | |lia]; unfold vcross; field; lra. }
  assert (B : 0 < A / (vmag r * vmag s)).
  { apply Rdiv_lt_0_compat; [exact PA|]. apply Rmult_lt_0_compat; assumption. }
  set (b := A / (vmag r * vmag s)) in *. clearbody b n.
  assert (M : vmag n = b).
  { rewrite (vmag_ext _ _ E), vmag_scale, Rabs_right by lra. unfold vmag. rewrite U, sqrt_1. ring. }
  destruct (Rlt_dec 1e-20 (vmag n)) as [N1|N1].
  - replace (n k / vmag n) with (N k).
    + apply zap_close.
    + rewrite M, (E k K). unfold vscale. field. lra.
  - exfalso. apply NZ. intros j J. unfold vzero. apply zap_0.
Qed.

Lemma face_normal_exact x nodes f fc N A : face_corners f = Some fc -> unit_vec N -> 0 < A ->
  let p := fun a => x (nodes (nth a fc O)) in
  same3 (vcross (vminus (p 2%nat) (p 0%nat)) (vminus (p 3%nat) (p 1%nat))) (vscale A N) ->
  ~ same3 (f_n (face_geometry x nodes f)) vzero ->
  forall k, (k < 3)%nat -> Rabs (f_n (face_geometry x nodes f) k - N k) < 1e-13.
Proof.
  intros F U PA. cbv zeta. intros C NZ k K.
  assert (E : face_geometry x nodes f = geo_of (fun d => sumn 4 (fun a => dN_dxi a * face_x x nodes fc a d))
    (fun d => sumn 4 (fun a => dN_deta a * face_x x nodes fc a d)) (fun d => sumn 4 (fun a => 0.25 * face_x x nodes fc a d))).
  { unfold face_geometry, geo_of. rewrite F. reflexivity. }
  rewrite E in *. apply (geo_normal _ _ _ N (A / 8) U); [lra| |exact NZ|exact K].
  intros j J. pose proof (C j J) as Cj. unfold vscale in *. replace (A / 8 * N j) with (A * N j / 8) by field. rewrite <- Cj.
  destruct j as [|[|[|j]]]; [| | |lia]; unfold vcross, vminus, face_x; cbn [sumn dN_dxi dN_deta]; rewrite ?m25, ?d25; field.
Qed.

Lemma oriented_direction x nodes faces : let s := normal_sum x nodes faces in
  ~ same3 s vzero -> exists c, 0 < c /\ same3 (fst (oriented x nodes faces)) (vscale c s).
Proof.
  cbv zeta. intros NZ. unfold oriented. destruct faces as [|f faces]; [exfalso; apply NZ; intros k K; reflexivity|].
  cbn [fst]. set (s := normal_sum x nodes (f :: faces)) in *. unfold unit_or_zero.
  assert (P : 0 < vmag s).
  { apply vmag_pos_sq. intros Z. apply NZ. intros k K. unfold vdot in Z. unfold vzero.
    pose proof (Rle_0_sqr (s 0%nat)). pose proof (Rle_0_sqr (s 1%nat)). pose proof (Rle_0_sqr (s 2%nat)). unfold Rsqr in *.
    destruct k as [|[|[|k]]]; [| | |lia]; apply Rsqr_0_uniq; unfold Rsqr; lra. }
  destruct (Rlt_dec 0 (vmag s)) as [L|L]; [|lra]. exists (/ vmag s). split; [apply Rinv_0_lt_compat; exact P|].
  intros k K. unfold vscale. field. lra.
Qed.

(** ** Prescribed motion *)
Section Motion.
  Variables (oy oz rate : R) (X0 : nat -> vec) (flag : nat -> bool).
  Definition rows_of (M : mat3) : nat -> vec := fun i j => M i j.
  Lemma rot_entries t i : (i < 3)%nat ->
    rot_at oy oz t i 0%nat = match i with 0%nat => cos (oz * t) * cos (oy * t) | 1%nat => sin (oz * t) * cos (oy * t) | _ => - sin (oy * t) end /\
    rot_at oy oz t i 1%nat = match i with 0%nat => - sin (oz * t) | 1%nat => cos (oz * t) | _ => 0 end /\
    rot_at oy oz t i 2%nat = match i with 0%nat => cos (oz * t) * sin (oy * t) | 1%nat => sin (oz * t) * sin (oy * t) | _ => cos (oy * t) end.
  Proof. intros I. unfold rot_at, mat_mult, rot_z, rot_y. destruct i as [|[|[|i]]]; [| | |lia]; cbn [sumn]; repeat split; ring. Qed.

  Lemma rot_orthonormal t : orthonormal (rows_of (rot_at oy oz t)).
  Proof.
    intros i j I J. unfold rows_of. cbn [sumn].
    destruct (rot_entries t 0 ltac:(lia)) as (A0 & A1 & A2). destruct (rot_entries t 1 ltac:(lia)) as (B0 & B1 & B2). destruct (rot_entries t 2 ltac:(lia)) as (C0 & C1 & C2).
    pose proof (sin2_cos2 (oy * t)) as Y. pose proof (sin2_cos2 (oz * t)) as Z. unfold Rsqr in Y, Z.
    set (sy := sin (oy * t)) in *. set (cy := cos (oy * t)) in *. set (sz := sin (oz * t)) in *. set (cz := cos (oz * t)) in *.
    clearbody sy cy sz cz.
    assert (Y' : cy * cy = 1 - sy * sy) by lra. assert (Z' : cz * cz = 1 - sz * sz) by lra.
    destruct i as [|[|[|i]]]; [| | |lia]; (destruct j as [|[|[|j]]]; [| | |lia]); cbn [Nat.eqb]; rewrite ?A0, ?A1, ?A2, ?B0, ?B1, ?B2, ?C0, ?C1, ?C2; ring [Y' Z'].
  Qed.

  Definition normal_at (t : R) : vec := fun d => rot_at oy oz t d 0%nat.
  Lemma normal_unit t : unit_vec (normal_at t).
  Proof. unfold unit_vec, normal_at, vdot. pose proof (rot_orthonormal t 0%nat 0%nat ltac:(lia) ltac:(lia)) as H. cbn [sumn Nat.eqb] in H. unfold rows_of in H. lra. Qed.

  Lemma position_eq t n d : position_at oy oz rate X0 flag t n d =
    turn (rows_of (rot_at oy oz t)) (X0 n) d + (if flag n then rate * t else 0) * normal_at t d.
  Proof. unfold position_at, turn, vdot, normal_at, rows_of. destruct (flag n); ring. Qed.

  Lemma rigid_distance t a b : flag a = flag b ->
    let x := position_at oy oz rate X0 flag t in
    vdot (vminus (x a) (x b)) (vminus (x a) (x b)) = vdot (vminus (X0 a) (X0 b)) (vminus (X0 a) (X0 b)).
  Proof.
    intros F x. rewrite <- (turn_dot _ (vminus (X0 a) (X0 b)) (vminus (X0 a) (X0 b)) (rot_orthonormal t)).
    apply vdot_ext; intros k K; unfold x, vminus at 1; rewrite !position_eq, F; unfold turn, vdot, vminus; ring.
  Qed.
  Lemma opening_motion t a b : flag a = false -> flag b = true -> same3 (X0 a) (X0 b) ->
    let x := position_at oy oz rate X0 flag t in same3 (vminus (x b) (x a)) (vscale (rate * t) (normal_at t)).
  Proof.
    intros A B E x k K. unfold x, vminus, vscale. rewrite !position_eq, A, B. unfold turn, vdot.
    rewrite (E 0%nat), (E 1%nat), (E 2%nat) by lia. ring.
  Qed.
  Lemma velocity_exact t dt n d : dt <> 0 ->
    let '(x, v) := reorient oy oz rate X0 flag t dt n in x d + dt * v d = position_at oy oz rate X0 flag (t + dt) n d.
  Proof. intros D. unfold reorient. field. exact D. Qed.
End Motion.

Lemma flags_spec ne nn nodes X0 xi g : b_side_flags ne nn nodes X0 xi g = true <->
  exists e a, (e < ne)%nat /\ (a < nn)%nat /\ nodes e a = g /\ xi < sumn nn (fun a => X0 (nodes e a) 0%nat) / INR nn.
Proof.
  unfold b_side_flags.
  assert (I1 : forall e l (fl : nat -> bool), fold_left (fun fl a => SghModel.fupd fl (nodes e a) true) l fl g = true <->
            fl g = true \/ exists a, In a l /\ nodes e a = g).
  { intros e l. induction l as [|a l IH]; intros fl; cbn [fold_left].
    - split; [tauto|]. intros [H|[a [[] _]]]. exact H.
    - rewrite IH. unfold SghModel.fupd. destruct (Nat.eqb_spec g (nodes e a)) as [E|E].
      + split; [|tauto]. intros _. right. exists a. split; [left; reflexivity|auto].
      + split; (intros [H|[b [B1 B2]]]; [tauto|right; exists b]); [split; [right; exact B1|exact B2]|].
        destruct B1 as [->|B1]; [congruence|tauto]. }
  assert (I2 : forall l (fl : nat -> bool),
    fold_left (fun fl e => if Rlt_dec xi (sumn nn (fun a => X0 (nodes e a) 0%nat) / INR nn) then
      fold_left (fun fl a => SghModel.fupd fl (nodes e a) true) (seq 0 nn) fl else fl) l fl g = true <->
    fl g = true \/ exists e a, In e l /\ (a < nn)%nat /\ nodes e a = g /\ xi < sumn nn (fun a => X0 (nodes e a) 0%nat) / INR nn).
  { induction l as [|e l IH]; intros fl; cbn [fold_left].
    - split; [tauto|]. intros [H|(e & a & [] & _)]. exact H.
    - rewrite IH. destruct (Rlt_dec xi _) as [L|L].
      + rewrite I1. split.
        * intros [[H|[a [A1 A2]]]|(e' & a & H1 & H2)]; [tauto| |].
          -- right. exists e, a. apply in_seq in A1. split; [left; reflexivity|]. split; [lia|tauto].
          -- right. exists e', a. split; [right; exact H1|exact H2].
        * intros [H|(e' & a & [->|H1] & H2 & H3 & H4)]; [tauto| |].
          -- left. right. exists a. split; [apply in_seq; lia|exact H3].
          -- right. exists e', a. tauto.
      + split.
        * intros [H|(e' & a & H1 & H2)]; [tauto|]. right. exists e', a. split; [right; exact H1|exact H2].
        * intros [H|(e' & a & [->|H1] & H2 & H3 & H4)]; [tauto|contradiction|]. right. exists e', a. tauto. }
  rewrite I2. split.
  - intros [H|(e & a & H1 & H2)]; [discriminate|]. exists e, a. apply in_seq in H1. split; [lia|exact H2].
  - intros (e & a & H1 & H2). right. exists e, a. split; [apply in_seq; lia|exact H2].
Qed.
