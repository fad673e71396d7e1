(* C105: the elastic constants. *)
From Coq Require Import Reals List Arith Lia Lra Bool ZArith.
From Verif Require Import BaseReal LinModel EvpModel EvpSpec EvpBasis EvpElast.
Import ListNotations.
Local Open Scope R_scope.

(* C105: the stress of a strain is the file's matrix in Voigt's order times the
   strain with engineering shears. *)
Theorem C105_anisotropic s c2 scratch C E i j : data_crystal_elast s scratch (AnisotropicFile c2) = Some C -> symmetric E -> idx 3 i -> idx 3 j ->
  act C E i j = s * S6 (fun J => c2 (voigt_index i j) J * engineering E J).
Proof. intros H S I J. exact (aniso_act s c2 scratch C E i j S H I J). Qed.
Print Assumptions C105_anisotropic.

(* Young's modulus and Poisson's ratio give Hooke's law. *)
Theorem C105_isotropic s young nu scratch : nu <> -1 -> nu <> 1 / 2 ->
  exists C, data_crystal_elast s scratch (IsotropicFile young nu) = Some C /\
  forall E i j, symmetric E -> idx 3 i -> idx 3 j -> s * young * E i j = (1 + nu) * act C E i j - nu * trace (act C E) * d i j.
Proof.
  intros N1 N2. assert (X : exists C, data_crystal_elast s scratch (IsotropicFile young nu) = Some C).
  { unfold data_crystal_elast. destruct (Req_EM_T (2 * (1 + nu)) 0); [lra|]. destruct (Req_EM_T (1 - 2 * nu) 0); [lra|]. eexists; reflexivity. }
  destruct X as (C & H). exists C. split; [exact H|]. intros E i j S I J.
  assert (T : trace (act C E) = s * (young * nu / ((1 + nu) * (1 - 2 * nu)) * trace E * 3 + young / (1 + nu) * trace E)).
  { unfold trace at 1. rewrite (S3_ext _ (fun k => s * (young * nu / ((1 + nu) * (1 - 2 * nu)) * trace E * d k k + young / (1 + nu) * E k k))) by
      (intros k K; apply (iso_act s young nu scratch C E k k S H K K)). unfold S3, d. rewrite !Nat.eqb_refl. unfold trace, S3. ring. }
  rewrite T, (iso_act s young nu scratch C E i j S H I J). field. split; lra.
Qed.
Print Assumptions C105_isotropic.

Lemma dde_sym i j : dde i j = dde j i.
Proof. unfold dde. rewrite Nat.eqb_sym. reflexivity. Qed.

(* It resists every strain if the modulus is positive and the ratio in range. *)
Theorem C105_isotropic_elastic s young nu scratch : 0 < s -> 0 < young -> -1 < nu < 1 / 2 ->
  exists C, data_crystal_elast s scratch (IsotropicFile young nu) = Some C /\ elastic C.
Proof.
  intros Hs Y [N1 N2]. destruct (C105_isotropic s young nu scratch ltac:(lra) ltac:(lra)) as (C & H & _). exists C. split; [exact H|].
  assert (F : C = fun i j k l => (2 * (young / (2 * (1 + nu))) * nu / (1 - 2 * nu) * dde i j * dde k l + 2 * (young / (2 * (1 + nu))) * xid4 i j k l) * s).
  { unfold data_crystal_elast in H. destruct (Req_EM_T (2 * (1 + nu)) 0); [lra|]. destruct (Req_EM_T (1 - 2 * nu) 0); [lra|]. injection H as <-. reflexivity. }
  split; [|split].
  - intros i j k l I J K L. rewrite F. unfold xid4. rewrite (dde_sym j i), (dde_sym l k). generalize (young / (2 * (1 + nu))). intros y. split; field; lra.
  - intros i j k l I J K L. rewrite F. unfold xid4. rewrite (dde_sym k i), (dde_sym l j), (dde_sym k j), (dde_sym l i). generalize (young / (2 * (1 + nu))). intros y. field; lra.
  - intros E S (i & j & I & J & N).
    rewrite (ddot_ext E E _ (fun i j => s * (young * nu / ((1 + nu) * (1 - 2 * nu)) * trace E * d i j + young / (1 + nu) * E i j))); [|reflexivity|intros; apply (iso_act s young nu scratch C E); assumption].
    set (mu := young / (1 + nu)). assert (M : 0 < mu) by (apply Rdiv_lt_0_compat; lra).
    replace (young * nu / ((1 + nu) * (1 - 2 * nu))) with (mu * (nu / (1 - 2 * nu))) by (unfold mu; field; lra).
    set (r := nu / (1 - 2 * nu)). assert (Rr : - (1 / 3) < r). { unfold r. apply Rmult_lt_reg_r with (1 - 2 * nu); [lra|]. unfold Rdiv at 2. rewrite Rmult_assoc, Rinv_l by lra. lra. }
    assert (Q : ddot E (fun i j => s * (mu * r * trace E * d i j + mu * E i j)) = s * mu * (r * (trace E * trace E) + ddot E E)) by (unfold ddot, trace, S3, d; cbn [Nat.eqb]; ring).
    rewrite Q. apply Rmult_lt_0_compat; [apply Rmult_lt_0_compat; assumption|].
    assert (P : trace E * trace E / 3 <= ddot E E /\ 0 < ddot E E).
    { assert (Z : 0 < E i j * E i j) by nra.
      assert (SQ : forall a b, 0 <= E a b * E a b) by (intros; nra).
      pose proof (SQ 1 1)%nat. pose proof (SQ 2 2)%nat. pose proof (SQ 3 3)%nat. pose proof (SQ 1 2)%nat. pose proof (SQ 2 1)%nat. pose proof (SQ 1 3)%nat. pose proof (SQ 3 1)%nat. pose proof (SQ 2 3)%nat. pose proof (SQ 3 2)%nat.
      split.
      - unfold trace, ddot, S3. cut ((E 1%nat 1%nat + E 2%nat 2%nat + E 3%nat 3%nat) * (E 1%nat 1%nat + E 2%nat 2%nat + E 3%nat 3%nat) / 3 <= E 1%nat 1%nat * E 1%nat 1%nat + E 2%nat 2%nat * E 2%nat 2%nat + E 3%nat 3%nat * E 3%nat 3%nat); [lra|].
        clear. generalize (E 1 1)%nat (E 2 2)%nat (E 3 3)%nat. intros x y z. assert (0 <= (x - y) * (x - y) /\ 0 <= (y - z) * (y - z) /\ 0 <= (x - z) * (x - z)) as (? & ? & ?) by (repeat split; apply Rle_0_sqr). lra.
      - all3 I; all3 J; unfold ddot, S3; lra. }
    destruct P as [P1 P2]. assert (T : 0 <= trace E * trace E) by nra. generalize dependent (trace E * trace E). intros t _ P1 T.
    destruct (Req_dec t 0) as [->|NT]; [lra|]. assert (0 < (r + 1 / 3) * t) by (apply Rmult_lt_0_compat; lra). lra.
Qed.
Print Assumptions C105_isotropic_elastic.

(* Turning the crystal turns the law: the stress is computed in the axes of the
   crystal and turned back; symmetry and stability stay, whatever the angles. *)
Theorem C105_rotated aa C E i j : act (rotate_stiffness aa C) E i j = turned (transposed aa) (act C (turned aa E)) i j.
Proof. apply act_rot. Qed.
Print Assumptions C105_rotated.

Theorem C105_stable aa C : rotation aa -> elastic C -> elastic (rotate_stiffness aa C) /\ pos6 (grain_stiffness aa C).
Proof.
  intros [O D] EL. assert (X : elastic (rotate_stiffness aa C)) by (apply rot_elastic; [apply rows_cols; exact O|exact EL]).
  split; [exact X|]. apply mat_pos. exact X.
Qed.
Print Assumptions C105_stable.

(* An isotropic material does not notice. *)
Theorem C105_isotropy aa s young nu scratch C E i j : rotation aa -> data_crystal_elast s scratch (IsotropicFile young nu) = Some C ->
  symmetric E -> idx 3 i -> idx 3 j -> act (rotate_stiffness aa C) E i j = act C E i j.
Proof.
  intros [O D] H S I J. pose proof (rows_cols aa O) as OC. rewrite act_rot.
  rewrite (turned_ext _ _ (fun k l => s * (young * nu / ((1 + nu) * (1 - 2 * nu)) * trace E * d k l + young / (1 + nu) * turned aa E k l))).
  - rewrite (iso_act s young nu scratch C E i j S H I J).
    pose proof (turned_back aa E i j OC I J) as TB.
    assert (ID : turned (transposed aa) d i j = d i j).
    { unfold turned, transposed. rewrite <- (OC i j I J). unfold S3, d. cbn [Nat.eqb]. unfold transposed. ring. }
    rewrite <- ID, <- TB. generalize (turned aa E). intros X. unfold turned. generalize (young * nu / ((1 + nu) * (1 - 2 * nu)) * trace E) (young / (1 + nu)). intros p q. unfold S3. ring.
  - intros k l K L. rewrite (iso_act s young nu scratch C (turned aa E) k l (turned_sym aa E S) H K L). rewrite (turned_trace aa E OC). reflexivity.
Qed.
Print Assumptions C105_isotropy.

(* The reference medium: the mean stiffness of the solid points, with a compliance
   that is its inverse. *)
Theorem C105_reference w (vs : list (bool * (T2 * T4))) c0 s0 :
  0 < w -> (exists v, In v vs /\ fst v = false) ->
  (forall v, In v vs -> fst v = false -> rotation (fst (snd v)) /\ elastic (snd (snd v))) ->
  reference_tensors (reference_stiffness w (map (fun v => (fst v, grain_stiffness (fst (snd v)) (snd (snd v)))) vs)) = (c0, s0) ->
  forall E i j, symmetric E -> idx 3 i -> idx 3 j ->
    act c0 E i j = suml (fun v : bool * (T2 * T4) => if fst v then 0 else w * act (rotate_stiffness (fst (snd v)) (snd (snd v))) E i j) vs /\
    act s0 (act c0 E) i j = E i j /\ act c0 (act s0 E) i j = E i j.
Proof.
  intros W X P H E i j S I J. injection H as <- <-.
  set (us := map (fun v => (fst v, grain_stiffness (fst (snd v)) (snd (snd v)))) vs).
  assert (PP : pos6 (reference_stiffness w us)).
  { apply reference_pos; [exact W| |].
    - intros u U F. unfold us in U. apply in_map_iff in U. destruct U as (v & <- & V). cbn [fst snd] in *. destruct (P v V F) as [P1 P2]. apply C105_stable; assumption.
    - destruct X as (v & V & F). exists (fst v, grain_stiffness (fst (snd v)) (snd (snd v))). split; [|exact F]. unfold us. apply in_map_iff. exists v. split; [reflexivity|exact V]. }
  split.
  - rewrite act_expand. unfold us. clear PP X us. induction vs as [|v vs IH].
    + unfold expand, mat_v, reference_stiffness, S6. cbn [map suml fold_right]. unfold suml. cbn [fold_right]. ring.
    + rewrite suml_cons, <- IH by (intros; apply P; [right|]; assumption). cbn [map].
      destruct v as [gas [aa C]]. cbn [fst snd]. destruct gas.
      * transitivity (expand (mat_v (reference_stiffness w (map (fun v => (fst v, grain_stiffness (fst (snd v)) (snd (snd v)))) vs)) (comps E)) i j); [|ring].
        apply expand_ext. intros n N. unfold mat_v. apply S6_ext. intros m M. unfold reference_stiffness. rewrite suml_cons. cbn [fst]. ring.
      * assert (G : act (rotate_stiffness aa C) E i j = expand (mat_v (grain_stiffness aa C) (comps E)) i j).
        { destruct (P (false, (aa, C)) (or_introl eq_refl) eq_refl) as [[O D] EL]. cbn [fst snd] in *.
          assert (MI : minor_symmetric (rotate_stiffness aa C)) by (apply rot_minor; apply EL).
          rewrite (expand_ext _ (comps (act (rotate_stiffness aa C) E))) by (intros n N; apply mat_act; assumption).
          symmetry. apply expand_comps_sym; [|assumption|assumption]. intros a b Ha Hb. apply S3_ext. intros k K. apply S3_ext. intros l L. destruct (MI a b k l Ha Hb K L) as [-> _]. reflexivity. }
        rewrite G. unfold expand, mat_v, reference_stiffness. unfold S6. rewrite !suml_cons. cbn [fst snd]. ring.
  - exact (compliance _ _ E i j (inverted6 _ PP) S I J).
Qed.
Print Assumptions C105_reference.

(* Isotropic grains at any orientation meet the hypotheses. *)
Example C105_met : exists C, data_crystal_elast 1 (fun _ _ _ _ => 0) (IsotropicFile 200 (3 / 10)) = Some C /\ elastic C /\ rotation d /\
  exists v, In v [(true, (d, C)); (false, (d, C))] /\ fst v = false.
Proof.
  destruct (C105_isotropic_elastic 1 200 (3 / 10) (fun _ _ _ _ => 0) ltac:(lra) ltac:(lra) ltac:(lra)) as (C & H & EL).
  exists C. split; [exact H|]. split; [exact EL|]. split.
  - split; [intros i j I J; all3 I; all3 J; unfold S3, d; cbn [Nat.eqb]; ring|unfold det3, d; cbn [Nat.eqb]; ring].
  - exists (false, (d, C)). split; [right; left; reflexivity|reflexivity].
Qed.
