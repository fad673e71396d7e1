(** Lemmas about GeomModel. *)
From Coq Require Import Reals Lra Psatz FunctionalExtensionality.
From Verif Require Import BaseReal GeomModel GeomSpec.
Local Open Scope R_scope.

(** ** Integrals of quadratics *)
Definition quad (c0 c1 c2 t : R) : R := c0 + c1 * t + c2 * (t * t).

Lemma quad_continuous c0 c1 c2 : continuity (quad c0 c1 c2).
Proof. unfold quad. intros x. reg. Qed.

Lemma quad_int c0 c1 c2 : is_int01 (quad c0 c1 c2) (c0 + c1 / 2 + c2 / 3).
Proof.
  assert (pr : Riemann_integrable (quad c0 c1 c2) 0 1).
  { apply continuity_implies_RiemannInt; [lra|]. intros x _. apply quad_continuous. }
  exists pr.
  set (F := fun t => c0 * t + c1 / 2 * (t * t) + c2 / 3 * (t * (t * t))).
  assert (HF : forall t, derivable_pt_lim F t (quad c0 c1 c2 t)).
  { intros t. unfold F, quad.
    replace (c0 + c1 * t + c2 * (t * t)) with
      ((0 * t + c0 * 1) + (0 * (t * t) + c1 / 2 * (1 * t + t * 1)) +
       (0 * (t * (t * t)) + c2 / 3 * (1 * (t * t) + t * (1 * t + t * 1)))) by field.
    assert (D1 : derivable_pt_lim (fun t => t) t 1) by apply derivable_pt_lim_id.
    assert (D2 : derivable_pt_lim (fun t => t * t) t (1 * t + t * 1))
      by (apply (derivable_pt_lim_mult (fun t => t) (fun t => t)); assumption).
    assert (D3 : derivable_pt_lim (fun t => t * (t * t)) t (1 * (t * t) + t * (1 * t + t * 1)))
      by (apply (derivable_pt_lim_mult (fun t => t) (fun t => t * t)); assumption).
    assert (DC : forall (k : R) g l, derivable_pt_lim g t l -> derivable_pt_lim (fun t => k * g t) t (0 * g t + k * l)).
    { intros k g l Hg. apply (derivable_pt_lim_mult (fun _ => k) g); [apply derivable_pt_lim_const|assumption]. }
    apply (derivable_pt_lim_plus (fun t => c0 * t + c1 / 2 * (t * t)) (fun t => c2 / 3 * (t * (t * t)))).
    - apply (derivable_pt_lim_plus (fun t => c0 * t) (fun t => c1 / 2 * (t * t))).
      + apply (DC c0 (fun t => t) 1 D1).
      + apply (DC (c1 / 2) (fun t => t * t) _ D2).
    - apply (DC (c2 / 3) (fun t => t * (t * t)) _ D3). }
  assert (dF : derivable F) by (intros t; exists (quad c0 c1 c2 t); apply HF).
  assert (Ed : derive F dF = quad c0 c1 c2).
  { apply functional_extensionality. intros t. unfold derive. apply derive_pt_eq. apply HF. }
  assert (cF : continuity (derive F dF)) by (rewrite Ed; apply quad_continuous).
  pose proof (FTC_Riemann (mkC1 cF)) as H.
  assert (E : forall (g : R -> R) (prg : Riemann_integrable g 0 1), g = quad c0 c1 c2 -> RiemannInt prg = RiemannInt pr).
  { intros g prg ->. apply RiemannInt_P5. }
  assert (pr2 : Riemann_integrable (derive F dF) 0 1) by (rewrite Ed; exact pr).
  rewrite <- (E _ pr2 Ed). transitivity (F 1 - F 0); [exact (H 0 1 pr2)|]. unfold F. field.
Qed.

Definition simp (f : R -> R) : R := (f 0 + 4 * f (1/2) + f 1) / 6.
Definition isq (f : R -> R) : Prop := exists c0 c1 c2, forall t, f t = quad c0 c1 c2 t.

Lemma isq_simp f : isq f -> is_int01 f (simp f).
Proof.
  intros (c0 & c1 & c2 & H). replace f with (quad c0 c1 c2) by (apply functional_extensionality; intros; symmetry; apply H).
  replace (simp (quad c0 c1 c2)) with (c0 + c1 / 2 + c2 / 3) by (unfold simp, quad; field).
  apply quad_int.
Qed.

Lemma isq_lin3 f g h : isq f -> isq g -> isq h -> isq (fun t => (f t + 4 * g t + h t) / 6).
Proof.
  intros (a0 & a1 & a2 & Ha) (b0 & b1 & b2 & Hb) (d0 & d1 & d2 & Hd).
  exists ((a0 + 4 * b0 + d0) / 6), ((a1 + 4 * b1 + d1) / 6), ((a2 + 4 * b2 + d2) / 6).
  intros t. rewrite Ha, Hb, Hd. unfold quad. field.
Qed.

Definition isl (f : R -> R) : Prop := exists c0 c1, forall t, f t = c0 + c1 * t.

Lemma isq_det_c f1 f2 f3 g1 g2 g3 h1 h2 h3 : isl f1 -> isl f2 -> isl f3 -> isl g1 -> isl g2 -> isl g3 ->
  isq (fun t => det3 (f1 t) (f2 t) (f3 t) (g1 t) (g2 t) (g3 t) h1 h2 h3).
Proof.
  intros (p1 & q1 & H1) (p2 & q2 & H2) (p3 & q3 & H3) (r1 & s1 & G1) (r2 & s2 & G2) (r3 & s3 & G3).
  exists (det3 p1 p2 p3 r1 r2 r3 h1 h2 h3),
   (det3 q1 q2 q3 r1 r2 r3 h1 h2 h3 + det3 p1 p2 p3 s1 s2 s3 h1 h2 h3), (det3 q1 q2 q3 s1 s2 s3 h1 h2 h3).
  intros t. rewrite H1, H2, H3, G1, G2, G3. unfold det3, quad. ring.
Qed.
Lemma isq_det_b f1 f2 f3 g1 g2 g3 h1 h2 h3 : isl f1 -> isl f2 -> isl f3 -> isl g1 -> isl g2 -> isl g3 ->
  isq (fun t => det3 (f1 t) (f2 t) (f3 t) h1 h2 h3 (g1 t) (g2 t) (g3 t)).
Proof.
  intros (p1 & q1 & H1) (p2 & q2 & H2) (p3 & q3 & H3) (r1 & s1 & G1) (r2 & s2 & G2) (r3 & s3 & G3).
  exists (det3 p1 p2 p3 h1 h2 h3 r1 r2 r3),
   (det3 q1 q2 q3 h1 h2 h3 r1 r2 r3 + det3 p1 p2 p3 h1 h2 h3 s1 s2 s3), (det3 q1 q2 q3 h1 h2 h3 s1 s2 s3).
  intros t. rewrite H1, H2, H3, G1, G2, G3. unfold det3, quad. ring.
Qed.
Lemma isq_det_a f1 f2 f3 g1 g2 g3 h1 h2 h3 : isl f1 -> isl f2 -> isl f3 -> isl g1 -> isl g2 -> isl g3 ->
  isq (fun t => det3 h1 h2 h3 (f1 t) (f2 t) (f3 t) (g1 t) (g2 t) (g3 t)).
Proof.
  intros (p1 & q1 & H1) (p2 & q2 & H2) (p3 & q3 & H3) (r1 & s1 & G1) (r2 & s2 & G2) (r3 & s3 & G3).
  exists (det3 h1 h2 h3 p1 p2 p3 r1 r2 r3),
   (det3 h1 h2 h3 q1 q2 q3 r1 r2 r3 + det3 h1 h2 h3 p1 p2 p3 s1 s2 s3), (det3 h1 h2 h3 q1 q2 q3 s1 s2 s3).
  intros t. rewrite H1, H2, H3, G1, G2, G3. unfold det3, quad. ring.
Qed.

Lemma isl_ab x c : isl (fun b => tri_a x b c).
Proof. exists (tri_a x 0 c), (tri_a x 1 c - tri_a x 0 c). intros; unfold tri_a; ring. Qed.
Lemma isl_ac x b : isl (fun c => tri_a x b c).
Proof. exists (tri_a x b 0), (tri_a x b 1 - tri_a x b 0). intros; unfold tri_a; ring. Qed.
Lemma isl_ba x c : isl (fun a => tri_b x a c).
Proof. exists (tri_b x 0 c), (tri_b x 1 c - tri_b x 0 c). intros; unfold tri_b; ring. Qed.
Lemma isl_bc x a : isl (fun c => tri_b x a c).
Proof. exists (tri_b x a 0), (tri_b x a 1 - tri_b x a 0). intros; unfold tri_b; ring. Qed.
Lemma isl_ca x b : isl (fun a => tri_c x a b).
Proof. exists (tri_c x 0 b), (tri_c x 1 b - tri_c x 0 b). intros; unfold tri_c; ring. Qed.
Lemma isl_cb x a : isl (fun b => tri_c x a b).
Proof. exists (tri_c x a 0), (tri_c x a 1 - tri_c x a 0). intros; unfold tri_c; ring. Qed.

Lemma jac_int x y z : is_int3 (jac3 x y z)
  (simp (fun a => simp (fun b => simp (fun c => jac3 x y z a b c)))).
Proof.
  exists (fun a b => simp (fun c => jac3 x y z a b c)). split.
  - intros a b. apply isq_simp. unfold jac3. apply isq_det_c; (apply isl_ac || apply isl_bc).
  - exists (fun a => simp (fun b => simp (fun c => jac3 x y z a b c))). split.
    + intros a. apply isq_simp. unfold simp at 1.
      apply isq_lin3; unfold jac3; apply isq_det_b; (apply isl_ab || apply isl_cb).
    + apply isq_simp. unfold simp at 1. apply isq_lin3; unfold simp; apply isq_lin3;
       unfold jac3; apply isq_det_a; (apply isl_ba || apply isl_ca).
Qed.

Lemma jac_vol x y z : simp (fun a => simp (fun b => simp (fun c => jac3 x y z a b c))) = vol_hex_raw x y z.
Proof.
  unfold simp, jac3, det3, tri_a, tri_b, tri_c, vol_hex_raw, twelth.
  generalize (x 0%nat) (x 1%nat) (x 2%nat) (x 3%nat) (x 4%nat) (x 5%nat) (x 6%nat) (x 7%nat)
   (y 0%nat) (y 1%nat) (y 2%nat) (y 3%nat) (y 4%nat) (y 5%nat) (y 6%nat) (y 7%nat)
   (z 0%nat) (z 1%nat) (z 2%nat) (z 3%nat) (z 4%nat) (z 5%nat) (z 6%nat) (z 7%nat).
  intros. field.
Qed.

Lemma vol_is_integral x y z : is_int3 (jac3 x y z) (vol_hex_raw x y z).
Proof. rewrite <- jac_vol. apply jac_int. Qed.

(** ** Hexahedron B-matrix *)
Ltac gen8 x := generalize (x 0%nat) (x 1%nat) (x 2%nat) (x 3%nat) (x 4%nat) (x 5%nat) (x 6%nat) (x 7%nat); intros.
Ltac bm := cbn [sumn]; unfold bmat; cbv [bmat0 bmat1 bmat2]; unfold vol_hex_raw, twelth.

Lemma bmat_closure x y z d : sumn 8 (fun i => bmat x y z i d) = 0.
Proof. destruct d as [|[|d]]; bm; field. Qed.

Definition shift (c : R) (x : nat -> R) : nat -> R := fun i => x i + c.
Definition scale (c : R) (x : nat -> R) : nat -> R := fun i => c * x i.
Definition comb (x v : nat -> R) (t : R) : nat -> R := fun i => x i + t * v i.

Lemma bmat_translate x y z a b c i d : (i < 8)%nat -> bmat (shift a x) (shift b y) (shift c z) i d = bmat x y z i d.
Proof.
  intros Hi. unfold bmat.
  destruct d as [|[|d]]; (do 8 (destruct i as [|i]; [cbv [bmat0 bmat1 bmat2 shift]; field|])); lia.
Qed.


Lemma bmat_moment x y z e d : (e < 3)%nat -> (d < 3)%nat ->
  sumn 8 (fun i => coord x y z e i * bmat x y z i d) = if Nat.eqb e d then vol_hex_raw x y z else 0.
Proof.
  intros He Hd.
  destruct e as [|[|[|e]]]; [| | |lia]; (destruct d as [|[|[|d]]]; [| | |lia]);
  cbn [Nat.eqb coord]; bm; gen8 x; gen8 y; gen8 z; field.
Qed.

(** trilinearity *)
Lemma vol_lin_x x v y z t : vol_hex_raw (comb x v t) y z = vol_hex_raw x y z + t * vol_hex_raw v y z.
Proof. unfold vol_hex_raw, comb. gen8 x; gen8 v; gen8 y; gen8 z. ring. Qed.
Lemma vol_lin_y x y v z t : vol_hex_raw x (comb y v t) z = vol_hex_raw x y z + t * vol_hex_raw x v z.
Proof. unfold vol_hex_raw, comb. gen8 x; gen8 v; gen8 y; gen8 z. ring. Qed.
Lemma vol_lin_z x y z v t : vol_hex_raw x y (comb z v t) = vol_hex_raw x y z + t * vol_hex_raw x y v.
Proof. unfold vol_hex_raw, comb. gen8 x; gen8 v; gen8 y; gen8 z. ring. Qed.

Lemma vol_x x v y z : vol_hex_raw v y z = sumn 8 (fun i => v i * bmat x y z i 0).
Proof. bm. gen8 v; gen8 y; gen8 z. field. Qed.
Lemma vol_y x y v z : vol_hex_raw x v z = sumn 8 (fun i => v i * bmat x y z i 1).
Proof. bm. gen8 v; gen8 x; gen8 z. field. Qed.
Lemma vol_z x y z v : vol_hex_raw x y v = sumn 8 (fun i => v i * bmat x y z i 2).
Proof. bm. gen8 v; gen8 x; gen8 y. field. Qed.

Lemma vol_expand x y z u v w t :
  vol_hex_raw (comb x u t) (comb y v t) (comb z w t) =
  vol_hex_raw x y z +
  sumn 8 (fun i => u i * bmat x y z i 0 + v i * bmat x y z i 1 + w i * bmat x y z i 2) * t +
  (vol_hex_raw u v z + vol_hex_raw u y w + vol_hex_raw x v w) * (t * t) +
  vol_hex_raw u v w * (t * (t * t)).
Proof.
  rewrite !vol_lin_x, !vol_lin_y, !vol_lin_z.
  rewrite !sumn_plus. rewrite <- (vol_x x u y z), <- (vol_y x y v z), <- (vol_z x y z w). ring.
Qed.

Lemma cubic_deriv a b c d t : derivable_pt_lim (fun t => a + b * t + c * (t * t) + d * (t * (t * t))) t
   (b + c * (2 * t) + d * (3 * (t * t))).
Proof.
  replace (b + c * (2 * t) + d * (3 * (t * t))) with
   ((0 + (0 * t + b * 1)) + (0 * (t * t) + c * (1 * t + t * 1)) + (0 * (t * (t * t)) + d * (1 * (t * t) + t * (1 * t + t * 1)))) by ring.
  assert (D1 : derivable_pt_lim (fun t => t) t 1) by apply derivable_pt_lim_id.
  assert (D2 : derivable_pt_lim (fun t => t * t) t (1 * t + t * 1))
    by (apply (derivable_pt_lim_mult (fun t => t) (fun t => t)); assumption).
  assert (D3 : derivable_pt_lim (fun t => t * (t * t)) t (1 * (t * t) + t * (1 * t + t * 1)))
    by (apply (derivable_pt_lim_mult (fun t => t) (fun t => t * t)); assumption).
  assert (DC : forall (k : R) g l, derivable_pt_lim g t l -> derivable_pt_lim (fun t => k * g t) t (0 * g t + k * l)).
  { intros k g l Hg. apply (derivable_pt_lim_mult (fun _ => k) g); [apply derivable_pt_lim_const|assumption]. }
  apply (derivable_pt_lim_plus (fun t => a + b * t + c * (t * t)) (fun t => d * (t * (t * t)))); [|apply (DC d _ _ D3)].
  apply (derivable_pt_lim_plus (fun t => a + b * t) (fun t => c * (t * t))); [|apply (DC c _ _ D2)].
  apply (derivable_pt_lim_plus (fun t => a) (fun t => b * t)); [apply derivable_pt_lim_const|apply (DC b _ _ D1)].
Qed.

Lemma vol_derivative x y z u v w :
  derivable_pt_lim (fun t => vol_hex_raw (comb x u t) (comb y v t) (comb z w t)) 0
    (sumn 8 (fun i => u i * bmat x y z i 0 + v i * bmat x y z i 1 + w i * bmat x y z i 2)).
Proof.
  replace (fun t => vol_hex_raw (comb x u t) (comb y v t) (comb z w t)) with
   (fun t => vol_hex_raw x y z +
  sumn 8 (fun i => u i * bmat x y z i 0 + v i * bmat x y z i 1 + w i * bmat x y z i 2) * t +
  (vol_hex_raw u v z + vol_hex_raw u y w + vol_hex_raw x v w) * (t * t) +
  vol_hex_raw u v w * (t * (t * t))) by (apply functional_extensionality; intros; symmetry; apply vol_expand).
  set (B := sumn 8 _).
  pose proof (cubic_deriv (vol_hex_raw x y z) B (vol_hex_raw u v z + vol_hex_raw u y w + vol_hex_raw x v w) (vol_hex_raw u v w) 0) as H.
  match type of H with derivable_pt_lim _ _ ?l => replace l with B in H by ring end. exact H.
Qed.

Lemma vol_translate x y z a b c : vol_hex_raw (shift a x) (shift b y) (shift c z) = vol_hex_raw x y z.
Proof. unfold vol_hex_raw, shift. gen8 x; gen8 y; gen8 z. ring. Qed.

Lemma vol_scale s x y z : vol_hex_raw (scale s x) (scale s y) (scale s z) = s * s * s * vol_hex_raw x y z.
Proof. unfold vol_hex_raw, scale. gen8 x; gen8 y; gen8 z. ring. Qed.

(** Any affine image: volume times determinant. *)
Definition aff (a b c d : R) (x y z : nat -> R) : nat -> R := fun i => a * x i + b * y i + c * z i + d.
Lemma vol_affine m11 m12 m13 t1 m21 m22 m23 t2 m31 m32 m33 t3 x y z :
  vol_hex_raw (aff m11 m12 m13 t1 x y z) (aff m21 m22 m23 t2 x y z) (aff m31 m32 m33 t3 x y z) =
  det3 m11 m12 m13 m21 m22 m23 m31 m32 m33 * vol_hex_raw x y z.
Proof.
  assert (A0 : forall y z, vol_hex_raw y y z = 0 /\ vol_hex_raw y z y = 0 /\ vol_hex_raw z y y = 0).
  { intros; unfold vol_hex_raw. gen8 y0; gen8 z0. repeat split; ring. }
  assert (S1 : forall x y z, vol_hex_raw y x z = - vol_hex_raw x y z).
  { intros; unfold vol_hex_raw. gen8 x0; gen8 y0; gen8 z0. ring. }
  assert (S2 : forall x y z, vol_hex_raw x z y = - vol_hex_raw x y z).
  { intros; unfold vol_hex_raw. gen8 x0; gen8 y0; gen8 z0. ring. }
  assert (C0 : forall c y z, vol_hex_raw (fun _ => c) y z = 0).
  { intros; unfold vol_hex_raw. gen8 y0; gen8 z0. ring. }
  assert (L : forall a b c d y' z', vol_hex_raw (aff a b c d x y z) y' z' =
     a * vol_hex_raw x y' z' + b * vol_hex_raw y y' z' + c * vol_hex_raw z y' z').
  { intros. replace (aff a b c d x y z) with (comb (comb (comb (fun _ => d) z c) y b) x a)
      by (apply functional_extensionality; intros; unfold comb, aff; ring).
    rewrite !vol_lin_x, C0. ring. }
  assert (L2 : forall a b c d x' z', vol_hex_raw x' (aff a b c d x y z) z' =
     a * vol_hex_raw x' x z' + b * vol_hex_raw x' y z' + c * vol_hex_raw x' z z').
  { intros. rewrite S1, L, (S1 x x'), (S1 y x'), (S1 z x'). rewrite (S1 x' x), (S1 x' y), (S1 x' z). ring. }
  assert (L3 : forall a b c d x' y', vol_hex_raw x' y' (aff a b c d x y z) =
     a * vol_hex_raw x' y' x + b * vol_hex_raw x' y' y + c * vol_hex_raw x' y' z).
  { intros. rewrite S2, L2, (S2 x' x), (S2 x' y), (S2 x' z). rewrite (S2 x' y' x), (S2 x' y' y), (S2 x' y' z). ring. }
  rewrite L, !L2, !L3.
  assert (AA : forall y z, vol_hex_raw y y z = 0) by (intros; apply A0).
  assert (AB : forall y z, vol_hex_raw y z y = 0) by (intros; apply A0).
  assert (AC : forall y z, vol_hex_raw z y y = 0) by (intros; apply A0).
  assert (P1 : vol_hex_raw y x z = - vol_hex_raw x y z) by apply S1.
  assert (P2 : vol_hex_raw x z y = - vol_hex_raw x y z) by apply S2.
  assert (P3 : vol_hex_raw y z x = vol_hex_raw x y z) by (rewrite (S2 y x z), P1; ring).
  assert (P4 : vol_hex_raw z x y = vol_hex_raw x y z) by (rewrite (S1 x z y), P2; ring).
  assert (P5 : vol_hex_raw z y x = - vol_hex_raw x y z) by (rewrite (S1 y z x), P3; ring).
  rewrite !AA, !AB, !AC, P1, P2, P3, P4, P5. unfold det3. ring.
Qed.

(** Unit cube with i-fastest numbering. *)
Lemma vol_ucube : vol_hex_raw (ucube 0) (ucube 1) (ucube 2) = 1.
Proof. unfold vol_hex_raw, ucube, twelth. cbn. field. Qed.

Lemma vol_ext x y z x' y' z' : (forall i, (i < 8)%nat -> x i = x' i /\ y i = y' i /\ z i = z' i) ->
  vol_hex_raw x y z = vol_hex_raw x' y' z'.
Proof.
  intros H. unfold vol_hex_raw.
  destruct (H 0%nat ltac:(lia)) as (-> & -> & ->). destruct (H 1%nat ltac:(lia)) as (-> & -> & ->).
  destruct (H 2%nat ltac:(lia)) as (-> & -> & ->). destruct (H 3%nat ltac:(lia)) as (-> & -> & ->).
  destruct (H 4%nat ltac:(lia)) as (-> & -> & ->). destruct (H 5%nat ltac:(lia)) as (-> & -> & ->).
  destruct (H 6%nat ltac:(lia)) as (-> & -> & ->). destruct (H 7%nat ltac:(lia)) as (-> & -> & ->). reflexivity.
Qed.

Lemma vol_box ox oy oz dx dy dz :
  vol_hex_raw (fun i => ox + dx * ucube 0 i) (fun i => oy + dy * ucube 1 i) (fun i => oz + dz * ucube 2 i) = dx * dy * dz.
Proof.
  pose proof (vol_affine dx 0 0 ox 0 dy 0 oy 0 0 dz oz (ucube 0) (ucube 1) (ucube 2)) as H.
  rewrite vol_ucube in H. rewrite (vol_ext _ _ _ (aff dx 0 0 ox (ucube 0) (ucube 1) (ucube 2))
     (aff 0 dy 0 oy (ucube 0) (ucube 1) (ucube 2)) (aff 0 0 dz oz (ucube 0) (ucube 1) (ucube 2))).
  - rewrite H. unfold det3. ring.
  - intros i _. unfold aff. repeat split; ring.
Qed.

Lemma vol_floor x y z : vol_hex x y z = Rmax (vol_hex_raw x y z) 1e-14.
Proof. reflexivity. Qed.

(** ** 2D *)
Lemma bmat2D_closure x y d : sumn 4 (fun i => bmat2D x y i d) = 0.
Proof. destruct d as [|[|d]]; cbn [sumn bmat2D]; lra. Qed.

Lemma bmat2D_moment x y e d : (e < 2)%nat -> (d < 2)%nat ->
  sumn 4 (fun i => (match e with O => x i | _ => y i end) * bmat2D x y i d) = if Nat.eqb e d then area_quad x y else 0.
Proof.
  intros He Hd. destruct e as [|[|e]]; [| |lia]; (destruct d as [|[|d]]; [| |lia]); cbn [sumn bmat2D Nat.eqb]; unfold area_quad; lra.
Qed.

Lemma bil_isl_a x y : isq (fun a => jac2 x y a 0).
Proof. unfold jac2, bil_a, bil_b. exists (jac2 x y 0 0), (jac2 x y 1 0 - jac2 x y 0 0), 0. intros; unfold quad, jac2, bil_a, bil_b; ring. Qed.

Lemma jac2_int x y : is_int2 (jac2 x y) (area_quad x y).
Proof.
  exists (fun a => simp (jac2 x y a)). split.
  - intros a. apply isq_simp. exists (jac2 x y a 0), (jac2 x y a 1 - jac2 x y a 0), 0.
    intros t. unfold quad, jac2, bil_a, bil_b. ring.
  - replace (area_quad x y) with (simp (fun a => simp (jac2 x y a))).
    + apply isq_simp. exists (simp (jac2 x y 0)), (simp (jac2 x y 1) - simp (jac2 x y 0)), 0.
      intros t. unfold quad, simp, jac2, bil_a, bil_b. field.
    + unfold simp, jac2, bil_a, bil_b, area_quad. replace 0.5 with (1/2) by lra. field.
Qed.

(** integral of the radius over the quad *)
Lemma rz_int x y : is_int2 (fun a b => bil y a b * jac2 x y a b) (vol_quad_raw x y).
Proof.
  set (f := fun a b => bil y a b * jac2 x y a b).
  assert (Q : forall (g : R -> R) , (forall t, g t = g 0 * (1 - 3 * t + 2 * (t * t)) + g (1/2) * (4 * t - 4 * (t * t)) + g 1 * (2 * (t * t) - t)) -> isq g).
  { intros g Hg. exists (g 0), (-3 * g 0 + 4 * g (1/2) - g 1), (2 * g 0 - 4 * g (1/2) + 2 * g 1).
    intros t. rewrite Hg. unfold quad. ring. }
  exists (fun a => simp (f a)). split.
  - intros a. apply isq_simp. apply Q. intros t. unfold f, bil, jac2, bil_a, bil_b. field.
  - replace (vol_quad_raw x y) with (simp (fun a => simp (f a))).
    + apply isq_simp. apply Q. intros t. unfold simp, f, bil, jac2, bil_a, bil_b. field.
    + unfold simp, f, bil, jac2, bil_a, bil_b, vol_quad_raw. field.
Qed.

(** Heron's formula *)
Lemma heron_area x1 y1 x2 y2 x3 y3 : heron x1 y1 x2 y2 x3 y3 = Rabs (tri_area x1 y1 x2 y2 x3 y3).
Proof.
  unfold heron. cbv zeta.
  set (A := (x2 - x1) * (x2 - x1) + (y2 - y1) * (y2 - y1)).
  set (B := (x3 - x2) * (x3 - x2) + (y3 - y2) * (y3 - y2)).
  set (C := (x3 - x1) * (x3 - x1) + (y3 - y1) * (y3 - y1)).
  assert (SQ : forall u v, 0 <= u * u + v * v) by (intros u v; pose proof (Rle_0_sqr u) as Hu; pose proof (Rle_0_sqr v) as Hv; unfold Rsqr in *; lra).
  assert (HA : 0 <= A) by apply SQ. assert (HB : 0 <= B) by apply SQ. assert (HC : 0 <= C) by apply SQ.
  pose proof (sqrt_sqrt A HA) as SA. pose proof (sqrt_sqrt B HB) as SB. pose proof (sqrt_sqrt C HC) as SC.
  set (a := sqrt A) in *. set (b := sqrt B) in *. set (c := sqrt C) in *.
  replace 0.5 with (1/2) by lra.
  replace ((0 + a + b + c) * (1/2) * ((0 + a + b + c) * (1/2) - a) * ((0 + a + b + c) * (1/2) - b) * ((0 + a + b + c) * (1/2) - c))
    with (Rsqr (tri_area x1 y1 x2 y2 x3 y3)).
  - apply sqrt_Rsqr_abs.
  - transitivity ((2 * ((a * a) * (b * b)) + 2 * ((b * b) * (c * c)) + 2 * ((c * c) * (a * a))
         - (a * a) * (a * a) - (b * b) * (b * b) - (c * c) * (c * c)) / 16).
    + rewrite SA, SB, SC. unfold A, B, C, tri_area, Rsqr. field.
    + field.
Qed.

Lemma corner_area_sum x y :
  let rc := (y 0%nat + y 1%nat + y 2%nat + y 3%nat) / 4 in
  let zc := (x 0%nat + x 1%nat + x 2%nat + x 3%nat) / 4 in
  let T i j := tri_area (x i) (y i) (x j) (y j) zc rc in
  sumn 4 (corner_area x y) = Rabs (T 0%nat 1%nat) + Rabs (T 1%nat 2%nat) + Rabs (T 2%nat 3%nat) + Rabs (T 3%nat 0%nat).
Proof.
  cbv zeta. cbn [sumn]. unfold corner_area. rewrite !heron_area.
  replace (centroid4 x) with ((x 0%nat + x 1%nat + x 2%nat + x 3%nat) / 4) by (unfold centroid4; lra).
  replace (centroid4 y) with ((y 0%nat + y 1%nat + y 2%nat + y 3%nat) / 4) by (unfold centroid4; lra).
  assert (F : forall x1 y1 x2 y2 x3 y3, Rabs (tri_area x1 y1 x2 y2 x3 y3) = Rabs (tri_area x1 y1 x3 y3 x2 y2)).
  { intros. rewrite <- Rabs_Ropp. f_equal. unfold tri_area. field. }
  rewrite (F (x 0%nat)), (F (x 1%nat)), (F (x 2%nat)), (F (x 3%nat)). field.
Qed.

Lemma corner_area_nonneg x y i : 0 <= corner_area x y i.
Proof.
  unfold corner_area. rewrite !heron_area.
  repeat match goal with |- context [Rabs ?t] => let H := fresh in pose proof (Rabs_pos t) as H; revert H; generalize (Rabs t); intros end.
  do 4 (destruct i as [|i]; [lra|]). lra.
Qed.

(** For a quad whose centroid sees every edge counter-clockwise (every convex CCW quad) the corner
    areas sum to its area. *)
Lemma corner_area_total x y :
  let rc := (y 0%nat + y 1%nat + y 2%nat + y 3%nat) / 4 in
  let zc := (x 0%nat + x 1%nat + x 2%nat + x 3%nat) / 4 in
  let T i j := tri_area (x i) (y i) (x j) (y j) zc rc in
  0 <= T 0%nat 1%nat -> 0 <= T 1%nat 2%nat -> 0 <= T 2%nat 3%nat -> 0 <= T 3%nat 0%nat ->
  sumn 4 (corner_area x y) = area_quad x y.
Proof.
  cbv zeta. intros H0 H1 H2 H3. rewrite corner_area_sum. cbv zeta. rewrite !Rabs_right by lra.
  unfold tri_area, area_quad. replace 0.5 with (1/2) by lra. field.
Qed.

(** Areas of box and polar cells. *)

Lemma area_box x0 x1 y0 y1 : area_quad (quad4 x0 x1 x1 x0) (quad4 y0 y0 y1 y1) = (x1 - x0) * (y1 - y0).
Proof. unfold area_quad, quad4. lra. Qed.

Lemma area_polar ox oy r0 r1 a0 a1 :
  area_quad (quad4 (ox + r0 * cos a0) (ox + r1 * cos a0) (ox + r1 * cos a1) (ox + r0 * cos a1))
            (quad4 (oy + r0 * sin a0) (oy + r1 * sin a0) (oy + r1 * sin a1) (oy + r0 * sin a1))
  = (r1 * r1 - r0 * r0) / 2 * sin (a1 - a0).
Proof. rewrite sin_minus. unfold area_quad, quad4. replace 0.5 with (1/2) by lra. field. Qed.

Lemma inverted_cell : is_int3 (jac3 (ucube 1) (ucube 0) (ucube 2)) (-1) /\ 0 < vol_hex (ucube 1) (ucube 0) (ucube 2).
Proof.
  split.
  - replace (-1) with (vol_hex_raw (ucube 1) (ucube 0) (ucube 2)); [apply vol_is_integral|].
    unfold vol_hex_raw, ucube, twelth. cbn. field.
  - unfold vol_hex, fmax. eapply Rlt_le_trans; [|apply Rmax_r]. lra.
Qed.
