(* Elastic constants. *)
From Coq Require Import Reals List Arith Lia Lra.
From Verif Require Import BaseReal LinModel LinSpec LinProofs EvpModel EvpSpec EvpBasis.
Import ListNotations.
Local Open Scope R_scope.

Lemma voigt_spec c2 c4 a b p q : idx 3 a -> idx 3 b -> idx 3 p -> idx 3 q -> voigt_1 c2 c4 a b p q = c2 (voigt_index a b) (voigt_index p q).
Proof. intros A B P Q. all3 A; all3 B; all3 P; all3 Q; reflexivity. Qed.

Lemma aniso_act s c2 c4 C E i j : symmetric E -> data_crystal_elast s c4 (AnisotropicFile c2) = Some C -> idx 3 i -> idx 3 j ->
  act C E i j = s * S6 (fun J => c2 (voigt_index i j) J * engineering E J).
Proof.
  intros S H I J. injection H as <-. unfold act.
  rewrite (S3_ext _ (fun k => S3 (fun l => c2 (voigt_index i j) (voigt_index k l) * s * E k l))) by (intros; apply S3_ext; intros; rewrite voigt_spec by assumption; reflexivity).
  pose proof (S 2 1 ltac:(unfold idx; lia) ltac:(unfold idx; lia))%nat as H12. pose proof (S 3 1 ltac:(unfold idx; lia) ltac:(unfold idx; lia))%nat as H13.
  pose proof (S 3 2 ltac:(unfold idx; lia) ltac:(unfold idx; lia))%nat as H23.
  generalize (c2 (voigt_index i j)). intros c. unfold S3, S6. cbn [voigt_index engineering]. rewrite H12, H13, H23. ring.
Qed.

Lemma iso_act s young nu c4 C E i j : symmetric E -> data_crystal_elast s c4 (IsotropicFile young nu) = Some C -> idx 3 i -> idx 3 j ->
  act C E i j = s * (young * nu / ((1 + nu) * (1 - 2 * nu)) * trace E * d i j + young / (1 + nu) * E i j).
Proof.
  intros S H I J. unfold data_crystal_elast in H. destruct (Req_EM_T (2 * (1 + nu)) 0) as [|N1]; [discriminate|].
  destruct (Req_EM_T (1 - 2 * nu) 0) as [|N2]; [discriminate|]. injection H as <-.
  pose proof (S 2 1 ltac:(unfold idx; lia) ltac:(unfold idx; lia))%nat as H12. pose proof (S 3 1 ltac:(unfold idx; lia) ltac:(unfold idx; lia))%nat as H13.
  pose proof (S 3 2 ltac:(unfold idx; lia) ltac:(unfold idx; lia))%nat as H23.
  all3 I; all3 J; unfold act, trace, S3, xid4, dde, d; cbn [Nat.eqb]; rewrite ?H12, ?H13, ?H23; field; repeat split; try exact N2; intros Z; apply N1; lra.
Qed.

(* ---------- rotation ---------- *)

Definition S9 (f : nat -> nat -> R) : R := S3 (fun i => S3 (fun j => f i j)).
Lemma S9_ext f g : (forall i j, idx 3 i -> idx 3 j -> f i j = g i j) -> S9 f = S9 g.
Proof. intros H. unfold S9. apply S3_ext. intros i I. apply S3_ext. intros j J. apply H; assumption. Qed.
Lemma S9_scal c f : S9 (fun i j => c * f i j) = c * S9 f.
Proof. unfold S9, S3. ring. Qed.
Lemma S9_scal_r c f : S9 (fun i j => f i j * c) = S9 f * c.
Proof. unfold S9, S3. ring. Qed.
Lemma S9_swap f : S9 (fun i j => S9 (fun k l => f i j k l)) = S9 (fun k l => S9 (fun i j => f i j k l)).
Proof. unfold S9, S3. ring. Qed.
Lemma ddot_S9 A B : ddot A B = S9 (fun i j => A i j * B i j).
Proof. reflexivity. Qed.

Lemma rot_stiff aa cc i j k l : rotate_stiffness aa cc i j k l =
  S9 (fun i2 j2 => S9 (fun k2 l2 => aa i2 i * aa j2 j * aa k2 k * aa l2 l * cc i2 j2 k2 l2)).
Proof.
  unfold rotate_stiffness, S9. rewrite sum1_3. apply S3_ext. intros i2 _. rewrite sum1_3. apply S3_ext. intros j2 _.
  rewrite sum1_3. apply S3_ext. intros k2 _. apply sum1_3.
Qed.

Lemma act_rot aa cc E i j : act (rotate_stiffness aa cc) E i j = turned (transposed aa) (act cc (turned aa E)) i j.
Proof.
  change (act (rotate_stiffness aa cc) E i j) with (S9 (fun k l => rotate_stiffness aa cc i j k l * E k l)).
  rewrite (S9_ext _ (fun k l => S9 (fun i2 j2 => S9 (fun k2 l2 => aa i2 i * aa j2 j * aa k2 k * aa l2 l * cc i2 j2 k2 l2) * E k l))) by (intros; rewrite rot_stiff, S9_scal_r; reflexivity).
  rewrite S9_swap. change (turned (transposed aa) (act cc (turned aa E)) i j) with (S9 (fun i2 j2 => aa i2 i * aa j2 j * S9 (fun k2 l2 => cc i2 j2 k2 l2 * S9 (fun k l => aa k2 k * aa l2 l * E k l)))).
  apply S9_ext. intros i2 j2 _ _. rewrite <- S9_scal.
  rewrite (S9_ext (fun k l => S9 (fun k2 l2 => aa i2 i * aa j2 j * aa k2 k * aa l2 l * cc i2 j2 k2 l2) * E k l) (fun k l => S9 (fun k2 l2 => aa i2 i * aa j2 j * (cc i2 j2 k2 l2 * (aa k2 k * aa l2 l * E k l))))).
  2:{ intros k l _ _. rewrite <- S9_scal_r. apply S9_ext. intros. ring. }
  rewrite S9_swap. apply S9_ext. intros k2 l2 _ _. rewrite !S9_scal. reflexivity.
Qed.

Lemma ddot_turned A E F : ddot E (turned (transposed A) F) = ddot (turned A E) F.
Proof.
  rewrite !ddot_S9. change (S9 (fun i j => E i j * S9 (fun k l => A k i * A l j * F k l)) = S9 (fun i j => S9 (fun k l => A i k * A j l * E k l) * F i j)).
  rewrite (S9_ext _ (fun i j => S9 (fun k l => E i j * (A k i * A l j * F k l)))) by (intros; rewrite S9_scal; reflexivity).
  rewrite S9_swap. apply S9_ext. intros i j _ _. rewrite <- S9_scal_r. apply S9_ext. intros. ring.
Qed.

Lemma turned_ext A E F i j : (forall k l, idx 3 k -> idx 3 l -> E k l = F k l) -> turned A E i j = turned A F i j.
Proof. intros H. unfold turned. apply S3_ext. intros k K. apply S3_ext. intros l L. rewrite H by assumption. reflexivity. Qed.
Lemma act_ext C E F i j : (forall k l, idx 3 k -> idx 3 l -> E k l = F k l) -> act C E i j = act C F i j.
Proof. intros H. unfold act. apply S3_ext. intros k K. apply S3_ext. intros l L. rewrite H by assumption. reflexivity. Qed.
Lemma turned_sym A E : symmetric E -> symmetric (turned A E).
Proof.
  intros S i j I J. unfold turned. rewrite S3_S3. apply S3_ext. intros k K. apply S3_ext. intros l L. rewrite (S l k L K). ring.
Qed.

(* Rows orthonormal. *)
Definition orthogonal_rows (A : T2) : Prop := forall i j, idx 3 i -> idx 3 j -> S3 (fun k => A i k * A j k) = d i j.
Definition orthogonal_cols (A : T2) : Prop := forall i j, idx 3 i -> idx 3 j -> S3 (fun k => A k i * A k j) = d i j.

Lemma det_square (a b c dd e f g h i : R) :
  a * a + b * b + c * c = 1 -> a * dd + b * e + c * f = 0 -> a * g + b * h + c * i = 0 ->
  dd * dd + e * e + f * f = 1 -> dd * g + e * h + f * i = 0 -> g * g + h * h + i * i = 1 ->
  (a * (e * i - f * h) - b * (dd * i - f * g) + c * (dd * h - e * g)) * (a * (e * i - f * h) - b * (dd * i - f * g) + c * (dd * h - e * g)) = 1.
Proof.
  intros h11 h12 h13 h22 h23 h33.
  transitivity ((a * a + b * b + c * c) * ((dd * dd + e * e + f * f) * (g * g + h * h + i * i) - (dd * g + e * h + f * i) * (dd * g + e * h + f * i))
    - (a * dd + b * e + c * f) * ((a * dd + b * e + c * f) * (g * g + h * h + i * i) - (dd * g + e * h + f * i) * (a * g + b * h + c * i))
    + (a * g + b * h + c * i) * ((a * dd + b * e + c * f) * (dd * g + e * h + f * i) - (dd * dd + e * e + f * f) * (a * g + b * h + c * i))); [ring|].
  rewrite h11, h12, h13, h22, h23, h33. ring.
Qed.

Lemma cramer (a b c dd e f g h i x y z : R) :
  a * x + b * y + c * z = 0 -> dd * x + e * y + f * z = 0 -> g * x + h * y + i * z = 0 ->
  a * (e * i - f * h) - b * (dd * i - f * g) + c * (dd * h - e * g) <> 0 -> x = 0 /\ y = 0 /\ z = 0.
Proof.
  intros x1 x2 x3 N. repeat split; apply (Rmult_eq_reg_l _ _ _) with (2 := N); rewrite Rmult_0_r.
  - transitivity ((e * i - f * h) * (a * x + b * y + c * z) - (b * i - c * h) * (dd * x + e * y + f * z) + (b * f - c * e) * (g * x + h * y + i * z)); [ring|]. rewrite x1, x2, x3. ring.
  - transitivity (- (dd * i - f * g) * (a * x + b * y + c * z) + (a * i - c * g) * (dd * x + e * y + f * z) - (a * f - c * dd) * (g * x + h * y + i * z)); [ring|]. rewrite x1, x2, x3. ring.
  - transitivity ((dd * h - e * g) * (a * x + b * y + c * z) - (a * h - b * g) * (dd * x + e * y + f * z) + (a * e - b * dd) * (g * x + h * y + i * z)); [ring|]. rewrite x1, x2, x3. ring.
Qed.

Lemma rows_det A : orthogonal_rows A -> det3 A * det3 A = 1.
Proof.
  intros O. apply det_square.
  - apply (O 1 1)%nat; unfold idx; lia.
  - apply (O 1 2)%nat; unfold idx; lia.
  - apply (O 1 3)%nat; unfold idx; lia.
  - apply (O 2 2)%nat; unfold idx; lia.
  - apply (O 2 3)%nat; unfold idx; lia.
  - apply (O 3 3)%nat; unfold idx; lia.
Qed.

(* X = A^T A - 1 satisfies A X = 0, so X = 0. *)
Lemma rows_cols A : orthogonal_rows A -> orthogonal_cols A.
Proof.
  intros O. pose proof (rows_det A O) as D. intros p q P Q.
  assert (H : forall r, idx 3 r -> S3 (fun k => A r k * (S3 (fun s => A s k * A s q) - d k q)) = 0).
  { intros r R. transitivity (S3 (fun s => S3 (fun k => A r k * A s k) * A s q) - S3 (fun k => A r k * d k q)); [unfold S3; ring|].
    rewrite (S3_ext _ (fun s => d r s * A s q)) by (intros s Sx; rewrite (O r s) by assumption; reflexivity).
    rewrite S3_d' by exact R. rewrite S3_d by exact Q. ring. }
  assert (N : det3 A <> 0) by (intros Z; rewrite Z in D; lra).
  destruct (cramer _ _ _ _ _ _ _ _ _ _ _ _ (H 1%nat ltac:(unfold idx; lia)) (H 2%nat ltac:(unfold idx; lia)) (H 3%nat ltac:(unfold idx; lia)) N) as (Z1 & Z2 & Z3).
  all3 P; lra.
Qed.

Lemma rotation_transposed A : rotation A -> rotation (transposed A).
Proof.
  intros [O D]. split; [exact (rows_cols A O)|]. rewrite <- D. unfold det3, transposed. ring.
Qed.

Lemma turned_back A E i j : orthogonal_cols A -> idx 3 i -> idx 3 j -> turned (transposed A) (turned A E) i j = E i j.
Proof.
  intros O I J. unfold turned, transposed.
  transitivity (S3 (fun p => S3 (fun q => S3 (fun k => A k i * A k p) * S3 (fun l => A l j * A l q) * E p q))); [unfold S3; ring|].
  rewrite (S3_ext _ (fun p => S3 (fun q => d i p * d j q * E p q))) by (intros p P; apply S3_ext; intros q Q; rewrite (O i p), (O j q) by assumption; reflexivity).
  all3 I; all3 J; unfold S3, d; cbn [Nat.eqb]; ring.
Qed.

Lemma turned_trace A E : orthogonal_cols A -> trace (turned A E) = trace E.
Proof.
  intros O. unfold trace, turned.
  transitivity (S3 (fun k => S3 (fun l => S3 (fun i => A i k * A i l) * E k l))); [unfold S3; ring|].
  rewrite (S3_ext _ (fun k => S3 (fun l => d k l * E k l))) by (intros p P; apply S3_ext; intros q Q; rewrite (O p q) by assumption; reflexivity).
  unfold S3, d; cbn [Nat.eqb]; ring.
Qed.

Lemma nonzero_turned A E : orthogonal_cols A -> (exists i j, idx 3 i /\ idx 3 j /\ E i j <> 0) -> exists i j, idx 3 i /\ idx 3 j /\ turned A E i j <> 0.
Proof.
  intros O (i & j & I & J & N).
  destruct (Req_dec (turned A E 1 1)%nat 0) as [z11|]; [|exists 1%nat, 1%nat; unfold idx; repeat split; [lia|lia|lia|lia|assumption]].
  destruct (Req_dec (turned A E 1 2)%nat 0) as [z12|]; [|exists 1%nat, 2%nat; unfold idx; repeat split; [lia|lia|lia|lia|assumption]].
  destruct (Req_dec (turned A E 1 3)%nat 0) as [z13|]; [|exists 1%nat, 3%nat; unfold idx; repeat split; [lia|lia|lia|lia|assumption]].
  destruct (Req_dec (turned A E 2 1)%nat 0) as [z21|]; [|exists 2%nat, 1%nat; unfold idx; repeat split; [lia|lia|lia|lia|assumption]].
  destruct (Req_dec (turned A E 2 2)%nat 0) as [z22|]; [|exists 2%nat, 2%nat; unfold idx; repeat split; [lia|lia|lia|lia|assumption]].
  destruct (Req_dec (turned A E 2 3)%nat 0) as [z23|]; [|exists 2%nat, 3%nat; unfold idx; repeat split; [lia|lia|lia|lia|assumption]].
  destruct (Req_dec (turned A E 3 1)%nat 0) as [z31|]; [|exists 3%nat, 1%nat; unfold idx; repeat split; [lia|lia|lia|lia|assumption]].
  destruct (Req_dec (turned A E 3 2)%nat 0) as [z32|]; [|exists 3%nat, 2%nat; unfold idx; repeat split; [lia|lia|lia|lia|assumption]].
  destruct (Req_dec (turned A E 3 3)%nat 0) as [z33|]; [|exists 3%nat, 3%nat; unfold idx; repeat split; [lia|lia|lia|lia|assumption]].
  exfalso. apply N. rewrite <- (turned_back A E i j O I J). unfold turned at 1. unfold S3 at 1 2. rewrite z11, z12, z13. unfold S3. rewrite z21, z22, z23, z31, z32, z33. ring.
Qed.

Lemma rot_minor A C : minor_symmetric C -> minor_symmetric (rotate_stiffness A C).
Proof.
  intros M i j k l I J K L. rewrite !rot_stiff. split.
  - rewrite (S9_ext _ (fun i2 j2 => S9 (fun k2 l2 => A j2 j * A i2 i * A k2 k * A l2 l * C j2 i2 k2 l2))).
    + unfold S9 at 1 3. rewrite S3_S3. reflexivity.
    + intros i2 j2 I2 J2. apply S9_ext. intros k2 l2 K2 L2. destruct (M i2 j2 k2 l2 I2 J2 K2 L2) as [-> _]. ring.
  - apply S9_ext. intros i2 j2 I2 J2. unfold S9. rewrite S3_S3. apply S3_ext. intros k2 K2. apply S3_ext. intros l2 L2.
    destruct (M i2 j2 l2 k2 I2 J2 L2 K2) as [_ ->]. ring.
Qed.

Lemma rot_major A C : major_symmetric C -> major_symmetric (rotate_stiffness A C).
Proof.
  intros M i j k l I J K L. rewrite !rot_stiff. rewrite S9_swap. apply S9_ext. intros a b Ha Hb. apply S9_ext. intros c e Hc He.
  rewrite (M c e a b Hc He Ha Hb). ring.
Qed.

Lemma rot_elastic A C : orthogonal_cols A -> elastic C -> elastic (rotate_stiffness A C).
Proof.
  intros O (Mi & Ma & P). split; [apply rot_minor; exact Mi|]. split; [apply rot_major; exact Ma|].
  intros E S N. rewrite (ddot_ext E E _ (turned (transposed A) (act C (turned A E)))); [|reflexivity|intros; apply act_rot].
  rewrite ddot_turned. apply P; [apply turned_sym; exact S|apply nonzero_turned; assumption].
Qed.

(* ---------- 6 x 6 ---------- *)

Lemma mat_form C x : minor_symmetric C -> S6 (fun n => S6 (fun m => x n * chg_basis_4 6 C n m * x m)) = ddot (expand x) (act C (expand x)).
Proof.
  intros M. rewrite ddot_expand. apply S6_ext. intros n N. rewrite <- (mat_act C (expand x) n M (expand_sym x) N).
  unfold mat_v. rewrite <- S6_scal. apply S6_ext. intros m Hm. rewrite comps_expand by exact Hm. ring.
Qed.

Lemma expand_nonzero x : (exists n, idx 6 n /\ x n <> 0) -> exists i j, idx 3 i /\ idx 3 j /\ expand x i j <> 0.
Proof.
  intros (n & N & X).
  destruct (Req_dec (expand x 1 1)%nat 0) as [z11|]; [|exists 1%nat, 1%nat; unfold idx; repeat split; [lia|lia|lia|lia|assumption]].
  destruct (Req_dec (expand x 1 2)%nat 0) as [z12|]; [|exists 1%nat, 2%nat; unfold idx; repeat split; [lia|lia|lia|lia|assumption]].
  destruct (Req_dec (expand x 1 3)%nat 0) as [z13|]; [|exists 1%nat, 3%nat; unfold idx; repeat split; [lia|lia|lia|lia|assumption]].
  destruct (Req_dec (expand x 2 1)%nat 0) as [z21|]; [|exists 2%nat, 1%nat; unfold idx; repeat split; [lia|lia|lia|lia|assumption]].
  destruct (Req_dec (expand x 2 2)%nat 0) as [z22|]; [|exists 2%nat, 2%nat; unfold idx; repeat split; [lia|lia|lia|lia|assumption]].
  destruct (Req_dec (expand x 2 3)%nat 0) as [z23|]; [|exists 2%nat, 3%nat; unfold idx; repeat split; [lia|lia|lia|lia|assumption]].
  destruct (Req_dec (expand x 3 1)%nat 0) as [z31|]; [|exists 3%nat, 1%nat; unfold idx; repeat split; [lia|lia|lia|lia|assumption]].
  destruct (Req_dec (expand x 3 2)%nat 0) as [z32|]; [|exists 3%nat, 2%nat; unfold idx; repeat split; [lia|lia|lia|lia|assumption]].
  destruct (Req_dec (expand x 3 3)%nat 0) as [z33|]; [|exists 3%nat, 3%nat; unfold idx; repeat split; [lia|lia|lia|lia|assumption]].
  exfalso. apply X. rewrite <- (comps_expand x n N). unfold comps, S3. rewrite z11, z12, z13, z21, z22, z23, z31, z32, z33. ring.
Qed.

Lemma mat_pos C : elastic C -> pos6 (chg_basis_4 6 C).
Proof.
  intros (Mi & _ & P) x X. rewrite mat_form by exact Mi. apply P; [apply expand_sym|apply expand_nonzero; exact X].
Qed.

Lemma pos6_scal w A : 0 < w -> pos6 A -> pos6 (fun n m => A n m * w).
Proof.
  intros W P x X. replace (S6 _) with (w * S6 (fun n => S6 (fun m => x n * A n m * x m))) by (unfold S6; ring). apply Rmult_lt_0_compat; [exact W|apply P; exact X].
Qed.

Lemma reference_pos w (vs : list (bool * T2)) : 0 < w -> (forall v, In v vs -> fst v = false -> pos6 (snd v)) -> (exists v, In v vs /\ fst v = false) -> pos6 (reference_stiffness w vs).
Proof.
  intros W P E x X.
  assert (Q : S6 (fun n => S6 (fun m => x n * reference_stiffness w vs n m * x m)) =
    suml (fun v : bool * T2 => if fst v then 0 else w * S6 (fun n => S6 (fun m => x n * snd v n m * x m))) vs).
  { unfold reference_stiffness. clear E P. induction vs as [|[gas A] vs IH].
    - unfold suml. cbn [fold_right]. unfold S6. ring.
    - rewrite suml_cons, <- IH. cbn [fst snd]. rewrite (S6_ext _ (fun n => S6 (fun m => x n * (if gas then 0 else A n m * w) * x m) + S6 (fun m => x n * suml (fun v0 : bool * T2 => if fst v0 then 0 else snd v0 n m * w) vs * x m))).
      + rewrite S6_plus. f_equal. destruct gas; unfold S6; ring.
      + intros n N. rewrite <- S6_plus. apply S6_ext. intros m M. rewrite suml_cons. cbn [fst snd]. destruct gas; ring. }
  rewrite Q. clear Q. destruct E as (v & V & F). revert V P. induction vs as [|u vs IH]; intros V P; [destruct V|].
  rewrite suml_cons. assert (T : forall l, (forall v, In v l -> fst v = false -> pos6 (snd v)) -> 0 <= suml (fun v : bool * T2 => if fst v then 0 else w * S6 (fun n => S6 (fun m => x n * snd v n m * x m))) l).
  { intros l HL. apply suml_nonneg. intros y Y. destruct (fst y) eqn:FY; [lra|]. apply Rmult_le_pos; [lra|]. left. apply HL; assumption. }
  destruct V as [<-|V].
  - rewrite F. apply Rplus_lt_le_0_compat; [|apply T; intros; apply P; [right|]; assumption]. apply Rmult_lt_0_compat; [exact W|]. apply P; [left; reflexivity|exact F|exact X].
  - apply Rplus_le_lt_0_compat; [|apply IH; [exact V|intros; apply P; [right|]; assumption]].
    destruct (fst u) eqn:FU; [lra|]. apply Rmult_le_pos; [lra|]. left. apply P; [left; reflexivity|exact FU|exact X].
Qed.

(* ---------- inversion ---------- *)

Lemma pack_holds n A : (0 < n)%nat -> fholds n (pack n A) A.
Proof.
  intros N i j I J. unfold pack. rewrite Nat.mod_add by lia. rewrite Nat.mod_small by lia. rewrite Nat.div_add by lia. rewrite Nat.div_small by lia. f_equal; lia.
Qed.

Lemma sumn_S6 f : sumn 6 f = S6 (fun n => f (n - 1)%nat).
Proof. unfold S6. cbn [sumn Nat.sub]. ring. Qed.

Lemma inverted6 A : pos6 A -> inverse6 A (inverted 6 A).
Proof.
  intros P.
  destruct (invert_fortran 6 (fun _ => 0) (pack 6 A) A (pack_holds 6 A ltac:(lia))) as (r & B & E & HB & V).
  - intros x (i & I & X). rewrite sumn_S6. specialize (P (fun n => x (n - 1)%nat)).
    assert (Q : exists n, idx 6 n /\ x (n - 1)%nat <> 0). { exists (S i). split; [unfold idx; lia|]. cbn [Nat.sub]. rewrite Nat.sub_0_r. exact X. }
    specialize (P Q). erewrite S6_ext; [exact P|]. intros n N. rewrite sumn_S6. apply S6_ext. intros m M. unfold idx in *.
    replace (S (n - 1)) with n by lia. replace (S (m - 1)) with m by lia. reflexivity.
  - intros n m N M. unfold inverted. rewrite E. cbn [snd]. unfold unpack.
    unfold idx in N, M.
    assert (R : forall a b, idx 6 a -> idx 6 b -> r ((a - 1) + (b - 1) * 6)%nat = B a b) by (intros a b Ha Hb; apply HB; assumption).
    destruct (V (n - 1)%nat (m - 1)%nat ltac:(lia) ltac:(lia)) as [V1 V2]. rewrite sumn_S6 in V1, V2.
    replace (S (n - 1)) with n in * by lia. replace (S (m - 1)) with m in * by lia.
    assert (DD : LinSpec.delta (n - 1) (m - 1) = d n m). { unfold LinSpec.delta, d. destruct (Nat.eqb_spec (n - 1) (m - 1)), (Nat.eqb_spec n m); try reflexivity; lia. }
    rewrite DD in V1, V2. split; [rewrite <- V1|rewrite <- V2]; apply S6_ext; intros k K; rewrite R by (unfold idx in *; lia); unfold idx in K; replace (S (k - 1)) with k by lia; reflexivity.
Qed.

Lemma mat_inverse A B v n : inverse6 A B -> idx 6 n -> mat_v A (mat_v B v) n = v n /\ mat_v B (mat_v A v) n = v n.
Proof.
  intros V N. split; unfold mat_v.
  - transitivity (S6 (fun k => S6 (fun m => A n m * B m k) * v k)); [unfold S6; ring|].
    rewrite (S6_ext _ (fun k => d n k * v k)) by (intros k K; destruct (V n k N K) as [-> _]; reflexivity). apply S6_d'. exact N.
  - transitivity (S6 (fun k => S6 (fun m => B n m * A m k) * v k)); [unfold S6; ring|].
    rewrite (S6_ext _ (fun k => d n k * v k)) by (intros k K; destruct (V n k N K) as [_ ->]; reflexivity). apply S6_d'. exact N.
Qed.

Lemma mat_v_ext A v w n : (forall m, idx 6 m -> v m = w m) -> mat_v A v n = mat_v A w n.
Proof. intros H. unfold mat_v. apply S6_ext. intros m M. rewrite H by exact M. reflexivity. Qed.

Lemma compliance A B E i j : inverse6 A B -> symmetric E -> idx 3 i -> idx 3 j ->
  act (chg_basis_3 6 B) (act (chg_basis_3 6 A) E) i j = E i j /\ act (chg_basis_3 6 A) (act (chg_basis_3 6 B) E) i j = E i j.
Proof.
  intros V S I J.
  assert (G : forall A B, (forall v n, idx 6 n -> mat_v B (mat_v A v) n = v n) -> act (chg_basis_3 6 B) (act (chg_basis_3 6 A) E) i j = E i j).
  { clear A B V. intros A B V. rewrite act_expand. rewrite <- (expand_comps_sym E i j S I J). apply expand_ext. intros n N.
    rewrite (mat_v_ext _ _ (mat_v A (comps E))); [apply V; exact N|]. intros m M.
    rewrite (comps_ext _ (expand (mat_v A (comps E)))) by (intros; apply act_expand). apply comps_expand. exact M. }
  split; apply G; intros v n N; apply (mat_inverse A B v n V N).
Qed.
