(* C125: the stress and the stiffness of the large-strain solver turn with the material. *)
From Coq Require Import Reals List Arith Lia Lra Psatz Bool.
From Verif Require Import BaseReal LinModel EvpModel EvpSpec EvpBasis EvpElast EvpRot LsSpec LsModel LsMat LsInv LsPolar LsPolarProps LsExp LsKin LsKinProps.
Local Open Scope R_scope.

Lemma turned_same A B E : same A B -> same (turned A E) (turned B E).
Proof. intros H i j Hi Hj. unfold turned, S3. rewrite !H by (assumption || (unfold idx; lia)). reflexivity. Qed.

(* The stress a step leaves is turned by the rotation of the elastic increment; where
   that turns no vector by a right angle, it is the polar rotation up to 4e-12. *)
Theorem C125_transport : forall p p', p_gas p = false -> pivots (p_Fe p) -> update_defgrade_at p = Some p' ->
  (exists G, same (product (p_Fe p) G) d /\ acute (product (p_Fe p') G)) ->
  exists V Q, same (p_Fe p') (product (product V Q) (p_Fe p)) /\ stretch V /\ nearly_rotation (4 / 10 ^ 12) Q /\ same (p_sgt p') (turned Q (p_sg p)).
Proof.
  intros p p' Gs P E (G & HG & HA). unfold update_defgrade_at in E. rewrite Gs in E.
  set (Fe := mmul (p_F p) (inverted 3 (mmul (p_Fp p) (p_Fini p)))) in E. destruct (defgrad_dcmp (mmul Fe (inverted 3 (p_Fe p)))) as [V Q| |] eqn:D; try discriminate. injection E as <-.
  cbn [p_Fe p_sgt] in *. pose proof (inverted_lead _ P) as [I1 I2]. apply of2_same in HG. rewrite of2_product, of2_d in HG.
  assert (EG : of2 G = of2 (inverted 3 (p_Fe p))) by (rewrite <- (mm_1r (of2 (inverted 3 (p_Fe p)))), <- HG, mm_assoc, I2, mm_1l; reflexivity).
  assert (A : acute (mmul Fe (inverted 3 (p_Fe p)))). { apply of2_acute. rewrite of2_mmul, <- EG, <- of2_product. apply of2_acute. exact HA. }
  destruct (C121_decomposed _ _ _ A D) as (C1 & C2 & C3). exists V, Q. split; [|split; [exact C2|split; [exact C3|]]].
  - apply of2_same. rewrite of2_product. apply of2_same in C1. rewrite C1, of2_mmul, <- mm_assoc, I2, mm_1r. reflexivity.
  - intros i j _ _. rewrite sum1_3. unfold turned, S3. rewrite !sum1_3. unfold S3. ring.
Qed.

(* A rigid rotation Q of the elastic deformation turns the stress by Q, and leaves it
   for the next step with the deformation Q Fe. *)
Theorem C125_rigid : forall p Q H, p_gas p = false -> pivots (p_Fe p) -> pivots (product (p_Fp p) (p_Fini p)) ->
  inverses (product (p_Fp p) (p_Fini p)) H -> same (product (p_F p) H) (product Q (p_Fe p)) -> acute Q -> rotation Q ->
  exists p', update_defgrade_at p = Some p' /\ same (p_Fe p') (product Q (p_Fe p)) /\ same (p_sgt p') (turned Q (p_sg p)).
Proof.
  intros p Q H Gs P P2 IH HE HA HR. unfold update_defgrade_at. rewrite Gs. set (Fe := mmul (p_F p) (inverted 3 (mmul (p_Fp p) (p_Fini p)))).
  assert (L2 : lead (of2 (mmul (p_Fp p) (p_Fini p)))) by (rewrite of2_mmul, <- of2_product; exact P2).
  pose proof (inverted_lead _ L2) as J. apply of2_inverses in IH. rewrite of2_mmul, <- of2_product in J. pose proof (inv3_unique _ _ _ J IH) as EH.
  assert (EF : of2 Fe = mm (of2 Q) (of2 (p_Fe p))). { unfold Fe. rewrite of2_mmul, EH, <- of2_product, <- of2_product. apply of2_same. exact HE. }
  pose proof (inverted_lead _ P) as [I1 I2]. assert (EQ : same (mmul Fe (inverted 3 (p_Fe p))) Q) by (apply of2_same; rewrite of2_mmul, EF, <- mm_assoc, I1, mm_1r; reflexivity).
  assert (A : acute (mmul Fe (inverted 3 (p_Fe p)))) by (apply of2_acute; apply of2_same in EQ; rewrite EQ; apply of2_acute; exact HA).
  assert (Ro : rotation (mmul Fe (inverted 3 (p_Fe p)))) by (apply (rotation_ext Q); [intros i j Hi Hj; symmetry; apply EQ; assumption|exact HR]).
  destruct (C121_rotation _ A Ro) as (V & R & D & ER & _). rewrite D. eexists. split; [reflexivity|]. cbn [p_Fe p_sgt]. split; [apply of2_same; rewrite of2_product; exact EF|].
  intros i j Hi Hj. rewrite sum1_3. transitivity (turned R (p_sg p) i j); [unfold turned, S3; rewrite !sum1_3; unfold S3; ring|].
  apply turned_same; [|exact Hi|exact Hj]. intros a b Ha Hb. rewrite (ER a b Ha Hb). apply EQ; assumption.
Qed.

(* The stiffness in use is that of the crystal in the axes of its first orientation turned by the
   elastic rotation: it answers a turned strain with the turned stress. *)
Theorem C125_stiffness : forall p cc, acute (p_Fe p) -> rotation (p_Fe p) -> rotation (p_ag p) ->
  exists C, turned_stiffness cc p = Some C /\
    forall E, same (act C (turned (product (p_Fe p) (p_ag p)) E)) (turned (product (p_Fe p) (p_ag p)) (act cc E)).
Proof.
  intros p cc A Ro Ra. destruct (C121_rotation _ A Ro) as (V & R & D & ER & _). unfold turned_stiffness. rewrite D. eexists. split; [reflexivity|].
  set (aa := mmul R (p_ag p)). assert (EA : same aa (product (p_Fe p) (p_ag p))) by (intros i j Hi Hj; unfold aa, mmul, product; rewrite sum1_3; unfold S3; rewrite !ER by (assumption || (unfold idx; lia)); reflexivity).
  pose proof (product_rotation _ _ Ro Ra) as Rp. set (Q := product (p_Fe p) (p_ag p)) in *. clearbody aa Q.
  intros E i j Hi Hj.
  transitivity (act (rotate_stiffness (transposed Q) cc) (turned Q E) i j).
  - unfold act. apply S3_ext. intros k K. apply S3_ext. intros l L. f_equal. rewrite rot_stiff. unfold S9. rewrite sum1_3. apply S3_ext. intros i2 I2. rewrite sum1_3. apply S3_ext. intros j2 J2.
    rewrite sum1_3. apply S3_ext. intros k2 K2. rewrite sum1_3. apply S3_ext. intros l2 L2. unfold transposed. rewrite !EA by assumption. ring.
  - rewrite act_rot. change (transposed (transposed Q)) with Q. unfold turned at 1. symmetry. unfold turned at 1. apply S3_ext. intros k K. apply S3_ext. intros l L. f_equal.
    unfold act. apply S3_ext. intros k2 K2. apply S3_ext. intros l2 L2. f_equal.
    assert (C : forall a b, idx 3 a -> idx 3 b -> S3 (fun k => Q k a * Q k b) = d a b) by (apply rows_cols; exact (proj1 Rp)).
    assert (X : turned (transposed Q) (turned Q E) k2 l2 = S3 (fun a => S3 (fun b => S3 (fun m => Q m k2 * Q m a) * S3 (fun n => Q n l2 * Q n b) * E a b))) by (unfold turned, transposed, S3; ring).
    rewrite X. rewrite (S3_ext _ (fun a => S3 (fun b => d k2 a * d l2 b * E a b))) by (intros a Ha; apply S3_ext; intros b Hb; rewrite !C by assumption; reflexivity).
    unfold S3, d. destruct (idx3 k2 K2) as [->|[->| ->]], (idx3 l2 L2) as [->|[->| ->]]; cbn [Nat.eqb]; ring.
Qed.

(* A case: a turn about the third axis with cosine 4/5, of a stress along the first. *)
Definition turn : T2 := fun i j => match i, j with 1%nat, 1%nat => 4 / 5 | 1%nat, 2%nat => - (3 / 5) | 2%nat, 1%nat => 3 / 5 | 2%nat, 2%nat => 4 / 5 | 3%nat, 3%nat => 1 | _, _ => 0 end.
Definition pulled_grain (Fe : T2) : point := mkPoint turn ident ident Fe ident (fun _ _ => 0) (fun _ _ => 0) 1 1 (diag (axis 1)) (fun _ _ => 0) (fun _ _ => 0) d false false nil.
Lemma turn_rotation : rotation turn.
Proof. split; [intros i j; cases_ij i j; unfold S3, turn, d; cbn [Nat.eqb]; field|unfold det3, turn; field]. Qed.
Lemma turn_acute : acute turn.
Proof.
  intros x (i & I & X). unfold vdot, mul_v, S3, turn. set (a := x 1%nat). set (b := x 2%nat). set (c := x 3%nat).
  replace (a * (4 / 5 * a + - (3 / 5) * b + 0 * c) + b * (3 / 5 * a + 4 / 5 * b + 0 * c) + c * (0 * a + 0 * b + 1 * c)) with (4 / 5 * (a * a) + 4 / 5 * (b * b) + c * c) by field.
  pose proof (Rle_0_sqr a). pose proof (Rle_0_sqr b). pose proof (Rle_0_sqr c). unfold Rsqr in *.
  assert (Pos : forall y, y <> 0 -> 0 < y * y) by (intros y Y; destruct (Rtotal_order y 0) as [|[|]]; [nra|contradiction|nra]).
  destruct (idx3 i I) as [->|[->| ->]]; apply Pos in X; unfold a, b, c in *; lra.
Qed.
Example C125_met : exists p', update_defgrade_at (pulled_grain ident) = Some p' /\ p_sgt p' 1%nat 1%nat = 16 / 25 /\ p_sgt p' 1%nat 2%nat = 12 / 25.
Proof.
  assert (P : pivots (p_Fe (pulled_grain ident))) by (unfold pivots, det3, pulled_grain, ident; cbn [p_Fe Nat.eqb]; repeat split; lra).
  assert (P2 : pivots (product (p_Fp (pulled_grain ident)) (p_Fini (pulled_grain ident)))) by (unfold pivots, det3, product, S3, pulled_grain, ident; cbn [p_Fp p_Fini Nat.eqb]; repeat split; lra).
  assert (O : of2 ident = one) by (apply m3_ext; reflexivity).
  destruct (C125_rigid (pulled_grain ident) turn d eq_refl P P2) as (p' & E & _ & S).
  - apply of2_inverses. rewrite of2_product. cbn [pulled_grain p_Fp p_Fini]. rewrite O, of2_d, mm_1l. split; apply mm_1l.
  - apply of2_same. rewrite !of2_product. cbn [pulled_grain p_F p_Fe]. rewrite O, of2_d. reflexivity.
  - exact turn_acute.
  - exact turn_rotation.
  - exists p'. split; [exact E|]. rewrite !S by (unfold idx; lia). unfold turned, S3, pulled_grain, diag, axis, turn. cbn [p_sg Nat.eqb]. split; field.
Qed.
Example C125_stiffness_met : acute (p_Fe (pulled_grain turn)) /\ rotation (p_Fe (pulled_grain turn)) /\ rotation (p_ag (pulled_grain turn)).
Proof.
  split; [exact turn_acute|]. split; [exact turn_rotation|]. split; [intros i j; cases_ij i j; unfold S3, pulled_grain, d; cbn [p_ag Nat.eqb]; ring|unfold det3, pulled_grain, d; cbn [p_ag Nat.eqb]; ring].
Qed.
Print Assumptions C125_transport.
Print Assumptions C125_rigid.
Print Assumptions C125_stiffness.
