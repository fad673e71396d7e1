(* Hardening: C110. *)
From Coq Require Import Reals List Arith Lia Lra ZArith.
From Verif Require Import BaseReal LinModel EvpModel EvpFlowModel EvpSpec EvpFlowSpec.
Import ListNotations.
Local Open Scope R_scope.

(* C110: a step from the shear g by dg hardens by the difference of Voce's law. *)
Theorem C110_voce tau0 tau1 th0 th1 g dg : 1 / 10 ^ 4 * tau0 < Rabs th0 -> 1 / 10 ^ 4 * tau0 < Rabs tau1 -> th0 <> 0 -> tau1 <> 0 ->
  voce_factor tau0 tau1 th0 th1 g dg = voce tau1 th0 th1 (g + dg) - voce tau1 th0 th1 g.
Proof.
  intros H0 H1 N0 N1. unfold voce_factor, voce. cbv zeta. destruct (Rlt_dec (1 / 10 ^ 4 * tau0) (Rabs th0)) as [_|]; [|contradiction].
  destruct (Rlt_dec (1 / 10 ^ 4 * tau0) (Rabs tau1)) as [_|]; [|contradiction].
  set (f := Rabs (th0 / tau1)). assert (F : f <> 0) by (apply Rabs_no_R0; apply Rmult_integral_contrapositive; split; [exact N0|apply Rinv_neq_0_compat; exact N1]).
  clearbody f. replace (- (g + dg) * f) with (- g * f + - dg * f) by ring. rewrite exp_plus. generalize (exp (- g * f)) (exp (- dg * f)). intros a b. field. exact F.
Qed.
Print Assumptions C110_voce.

(* The law grows. *)
Lemma voce_mono tau1 th0 th1 a b : 0 <= tau1 -> 0 <= th1 -> 0 <= a <= b -> voce tau1 th0 th1 a <= voce tau1 th0 th1 b.
Proof.
  intros T H [A B]. unfold voce. pose proof (Rabs_pos (th0 / tau1)) as F. set (f := Rabs (th0 / tau1)) in *. clearbody f.
  assert (exp (- a * f) <= 1) by (rewrite <- exp_0; destruct (Req_dec (- a * f) 0) as [->|N]; [lra|left; apply exp_increasing; nra]).
  assert (exp (- b * f) <= exp (- a * f)) by (destruct (Req_dec (- b * f) (- a * f)) as [->|N]; [lra|left; apply exp_increasing; nra]).
  apply Rmult_le_compat; [nra|lra|nra|lra].
Qed.

(* A history of steps: the shear rates of the systems and the length of the step. *)
Definition hardened (hs : list hsystem) (crss : list (R * R)) (steps : list (list R * R)) : list (R * R) * R :=
  fold_left (fun st s => harden_point (snd s) hs (fst s) (fst st) (snd st)) steps (crss, 0).
Definition shear_of (s : list R * R) : R := total (map (fun g => Rabs g * snd s) (fst s)).

Lemma suml_total {A} (f : A -> R) l : suml f l = total (map f l).
Proof. induction l as [|a l IH]; [reflexivity|]. rewrite suml_cons, IH. reflexivity. Qed.

Lemma shear_pos s : 0 <= snd s -> 0 <= shear_of s.
Proof. intros H. unfold shear_of. rewrite <- suml_total. apply suml_nonneg. intros g _. apply Rmult_le_pos; [apply Rabs_pos|exact H]. Qed.

Lemma harden_shear tdot hs gd crss g : snd (harden_point tdot hs gd crss g) = g + shear_of (gd, tdot).
Proof. unfold harden_point, shear_of. cbn [snd fst]. rewrite suml_total. reflexivity. Qed.

Lemma hardened_snoc hs crss steps s : hardened hs crss (steps ++ [s]) = harden_point (snd s) hs (fst s) (fst (hardened hs crss steps)) (snd (hardened hs crss steps)).
Proof. unfold hardened. rewrite fold_left_app. reflexivity. Qed.

Lemma total_app l l' : total (l ++ l') = total l + total l'.
Proof. induction l as [|x l IH]; cbn [app total]; [ring|rewrite IH; ring]. Qed.

(* The shear of a point is that of all its systems in all its steps. *)
Theorem C110_shear hs crss steps : snd (hardened hs crss steps) = total (map shear_of steps).
Proof.
  induction steps as [|s l IH] using rev_ind; [reflexivity|]. rewrite hardened_snoc, harden_shear, IH, map_app, total_app. cbn [map total].
  destruct s; cbn [fst snd]; ring.
Qed.
Print Assumptions C110_shear.

Lemma harden_len tdot hs gd crss g : length crss = length hs -> length (fst (harden_point tdot hs gd crss g)) = length hs.
Proof. intros L. unfold harden_point. cbn [fst]. rewrite map_length, combine_length, L. apply Nat.min_id. Qed.
Lemma hardened_len hs crss steps : length crss = length hs -> length (fst (hardened hs crss steps)) = length hs.
Proof. intros L. induction steps as [|s l IH] using rev_ind; [exact L|]. rewrite hardened_snoc. apply harden_len. exact IH. Qed.

Lemma dtau_ones (h : list R) gd tdot : length h = length gd -> (forall x, In x h -> x = 1) ->
  suml (fun q : R * R => fst q * Rabs (snd q) * tdot) (combine h gd) = shear_of (gd, tdot).
Proof.
  intros L O. unfold shear_of. cbn [fst snd]. rewrite <- suml_total. revert gd L. induction h as [|x h IH]; intros [|y gd] L; try discriminate; [reflexivity|].
  cbn [combine]. rewrite !suml_cons. cbn [fst snd]. rewrite IH; [|intros z Z; apply O; right; exact Z|injection L as L; exact L].
  rewrite (O x (or_introl eq_refl)). ring.
Qed.

(* One system of one step. *)
Lemma harden_nth tdot hs gd crss g k h c : nth_error hs k = Some h -> nth_error crss k = Some c ->
  let dg := shear_of (gd, tdot) in
  let dtau := suml (fun q : R * R => fst q * Rabs (snd q) * tdot) (combine (h_hard h) gd) in
  let v := voce_factor (h_tau0 h) (h_tau1 h) (h_thet0 h) (h_thet1 h) g dg in
  nth_error (fst (harden_point tdot hs gd crss g)) k =
    Some (if Rlt_dec 0 (Rabs dg) then (fst c + dtau * v / dg, snd c + dtau * v / dg) else c).
Proof.
  cbv zeta. intros H C. unfold harden_point. cbn [fst].
  assert (E : nth_error (combine hs crss) k = Some (h, c)).
  { revert hs crss H C. induction k as [|k IH]; intros [|h' hs] [|c' crss] H C; try discriminate; cbn in *; [congruence|apply IH; assumption]. }
  rewrite (map_nth_error _ _ _ E). cbn [fst snd].
  change (suml (fun g0 : R => Rabs g0 * tdot) gd) with (suml (fun g0 : R => Rabs g0 * snd (gd, tdot)) gd). rewrite suml_total.
  change (total (map (fun g0 : R => Rabs g0 * snd (gd, tdot)) gd)) with (shear_of (gd, tdot)). reflexivity.
Qed.

(* Hardening parameters with a saturating law the solver resolves. *)
Definition saturating (h : hsystem) : Prop :=
  1 / 10 ^ 4 * h_tau0 h < Rabs (h_thet0 h) /\ 1 / 10 ^ 4 * h_tau0 h < Rabs (h_tau1 h) /\ h_thet0 h <> 0 /\ h_tau1 h <> 0.

(* Where every system hardens every other alike, the strength is Voce's law at the
   accumulated shear, however the shear was split into steps. *)
Theorem C110_history hs crss steps k h c : length crss = length hs ->
  nth_error hs k = Some h -> nth_error crss k = Some c -> saturating h -> (forall x, In x (h_hard h) -> x = 1) ->
  (forall s, In s steps -> length (fst s) = length (h_hard h) /\ 0 <= snd s) ->
  let v := voce (h_tau1 h) (h_thet0 h) (h_thet1 h) (total (map shear_of steps)) in
  nth_error (fst (hardened hs crss steps)) k = Some (fst c + v, snd c + v).
Proof.
  cbv zeta. intros L H C (S1 & S2 & S3' & S4) O. induction steps as [|s l IH] using rev_ind; intros G.
  - cbn [map total]. unfold voce. replace (- 0 * Rabs (h_thet0 h / h_tau1 h)) with 0 by ring. rewrite exp_0. cbn [hardened fold_left fst]. unfold hardened. cbn [fold_left fst].
    rewrite C. f_equal. destruct c as [c1 c2]. cbn [fst snd]. f_equal; ring.
  - assert (G' : forall s, In s l -> length (fst s) = length (h_hard h) /\ 0 <= snd s) by (intros x X; apply G; apply in_or_app; left; exact X).
    specialize (IH G'). destruct (G s (in_elt s l [])) as [GL GD].
    rewrite hardened_snoc. pose proof (harden_nth (snd s) hs (fst s) _ (snd (hardened hs crss l)) k h _ H IH) as E. cbv zeta in E. rewrite E. clear E.
    rewrite C110_shear, map_app, total_app. cbn [map total]. rewrite Rplus_0_r. replace (fst s, snd s) with s by (destruct s; reflexivity).
    pose proof (dtau_ones (h_hard h) (fst s) (snd s) (eq_sym GL) O) as D. rewrite D. replace (fst s, snd s) with s by (destruct s; reflexivity).
    rewrite C110_voce by assumption. destruct (Rlt_dec 0 (Rabs (shear_of s))) as [P|P].
    + assert (shear_of s <> 0) by (intros Z; rewrite Z, Rabs_R0 in P; lra). f_equal. cbn [fst snd]. f_equal; field; assumption.
    + assert (Z : shear_of s = 0) by (destruct (Req_dec (shear_of s) 0) as [Z|Z]; [exact Z|exfalso; apply P; apply Rabs_pos_lt; exact Z]). rewrite Z, Rplus_0_r. reflexivity.
Qed.
Print Assumptions C110_history.

(* Systems only grow stronger, both ways alike. *)
Theorem C110_grows hs crss steps k h c : length crss = length hs ->
  nth_error hs k = Some h -> nth_error crss k = Some c -> 0 < h_tau0 h -> 0 <= h_tau1 h -> 0 <= h_thet1 h -> (forall x, In x (h_hard h) -> 0 <= x) ->
  (forall s, In s steps -> 0 <= snd s) ->
  exists g, 0 <= g /\ nth_error (fst (hardened hs crss steps)) k = Some (fst c + g, snd c + g).
Proof.
  intros L H C T0 T1 H1 O. induction steps as [|s l IH] using rev_ind; intros G.
  - exists 0. split; [lra|]. unfold hardened. cbn [fold_left fst]. rewrite C. destruct c. cbn [fst snd]. rewrite !Rplus_0_r. reflexivity.
  - destruct (IH ltac:(intros x X; apply G; apply in_or_app; left; exact X)) as (g & GP & E). clear IH.
    pose proof (G s (in_elt s l [])) as GD.
    rewrite hardened_snoc. pose proof (harden_nth (snd s) hs (fst s) _ (snd (hardened hs crss l)) k h _ H E) as X. cbv zeta in X. rewrite X. clear X.
    replace (fst s, snd s) with s by (destruct s; reflexivity). cbn [fst snd].
    destruct (Rlt_dec 0 (Rabs (shear_of s))) as [P|P]; [|exists g; split; [exact GP|reflexivity]].
    pose proof (shear_pos s GD) as SP. assert (0 < shear_of s) by (destruct SP as [SP|SP]; [exact SP|rewrite <- SP, Rabs_R0 in P; lra]).
    set (dt := suml _ _). set (v := voce_factor _ _ _ _ _ _).
    assert (DT : 0 <= dt).
    { unfold dt. apply suml_nonneg. intros [x y] I. cbn [fst snd]. apply Rmult_le_pos; [apply Rmult_le_pos; [apply O; apply (in_combine_l _ _ _ _ I)|apply Rabs_pos]|exact GD]. }
    assert (V : 0 <= v).
    { unfold v. rewrite C110_shear. assert (TP : 0 <= total (map shear_of l)).
      { rewrite <- suml_total. apply suml_nonneg. intros x I. apply shear_pos. apply G. apply in_or_app. left. exact I. }
      destruct (Rlt_dec (1 / 10 ^ 4 * h_tau0 h) (Rabs (h_thet0 h))) as [A|A].
      - destruct (Rlt_dec (1 / 10 ^ 4 * h_tau0 h) (Rabs (h_tau1 h))) as [B|B].
        + assert (0 < 1 / 10 ^ 4 * h_tau0 h) by (apply Rmult_lt_0_compat; [lra|exact T0]).
          rewrite C110_voce; [|exact A|exact B|intros Z; rewrite Z, Rabs_R0 in A; lra|intros Z; rewrite Z, Rabs_R0 in B; lra].
          pose proof (voce_mono (h_tau1 h) (h_thet0 h) (h_thet1 h) (total (map shear_of l)) (total (map shear_of l) + shear_of s) T1 H1 ltac:(lra)). lra.
        + unfold voce_factor. cbv zeta. destruct (Rlt_dec (1 / 10 ^ 4 * h_tau0 h) (Rabs (h_thet0 h))); [|contradiction].
          destruct (Rlt_dec (1 / 10 ^ 4 * h_tau0 h) (Rabs (h_tau1 h))); [contradiction|]. apply Rmult_le_pos; lra.
      - unfold voce_factor. cbv zeta. destruct (Rlt_dec (1 / 10 ^ 4 * h_tau0 h) (Rabs (h_thet0 h))); [contradiction|lra]. }
    exists (g + dt * v / shear_of s). split.
    + assert (0 <= dt * v / shear_of s) by (apply Rmult_le_pos; [apply Rmult_le_pos; assumption|left; apply Rinv_0_lt_compat; assumption]). lra.
    + f_equal. f_equal; ring.
Qed.
Print Assumptions C110_grows.

(* A slope below a ten-thousandth of the strength counts for nothing, although the law
   grows without bound. *)
Theorem C110_weak_refuted : exists tau0 tau1 th0 th1, 0 < th1 <= th0 /\ 0 < tau1 /\
  (forall g dg, voce_factor tau0 tau1 th0 th1 g dg = 0) /\ (forall g, 0 < g -> g * (1 - exp (- g)) < voce tau1 th0 th1 g).
Proof.
  exists (10 ^ 4), 1, 1, 1. split; [lra|]. split; [lra|]. split.
  - intros g dg. unfold voce_factor. cbv zeta. destruct (Rlt_dec (1 / 10 ^ 4 * 10 ^ 4) (Rabs 1)) as [L|]; [rewrite Rabs_R1 in L; lra|reflexivity].
  - intros g G. unfold voce. replace (1 / 1) with 1 by field. rewrite Rabs_R1, Rmult_1_r, Rmult_1_l.
    assert (exp (- g) < 1) by (rewrite <- exp_0; apply exp_increasing; lra). nra.
Qed.
Print Assumptions C110_weak_refuted.

(* What the reader lets through. *)
Theorem C110_parameters t1 h0 h1 : (h0 < h1 -> mode_hardening t1 h0 h1 = None) /\
  (h1 <= h0 -> exists a b, mode_hardening t1 h0 h1 = Some (a, b) /\ 0 < a /\ h1 <= b /\ (1 / 10 ^ 6 < t1 -> a = t1 /\ b = h0)).
Proof.
  unfold mode_hardening. destruct (Rlt_dec h0 h1) as [L|L]; [split; [reflexivity|intros; lra]|]. split; [intros; contradiction|]. intros _.
  destruct (Rle_dec t1 (1 / 10 ^ 6)) as [A|A]; eexists; eexists; (split; [reflexivity|]); [split; [lra|split; [lra|intros; lra]]|].
  apply Rnot_le_lt in A. split; [lra|]. split; [lra|]. intros _. split; reflexivity.
Qed.
Print Assumptions C110_parameters.

(* ---------- coefficients ---------- *)

Lemma for1_S {S} n (body : nat -> S -> S) s : for1 (Datatypes.S n) body s = body (Datatypes.S n) (for1 n body s).
Proof. unfold for1. rewrite seq_S, fold_left_app. reflexivity. Qed.

Lemma upd2_at h a b v i j : upd2 h a b v i j = if (Nat.eqb i a && Nat.eqb j b)%bool then v else h i j.
Proof. reflexivity. Qed.

Lemma fill_row n r (v : nat -> R) h i j : for1 n (fun jm h => upd2 h r jm (v jm)) h i j = if (Nat.eqb i r && ((1 <=? j) && (j <=? n)))%nat%bool then v j else h i j.
Proof.
  induction n as [|n IH]; [cbn; destruct (Nat.eqb i r); [destruct j; reflexivity|reflexivity]|]. rewrite for1_S, upd2_at, IH.
  destruct (Nat.eqb_spec i r) as [->|]; [|reflexivity]. cbn [andb]. destruct (Nat.eqb_spec j (S n)) as [->|N].
  - rewrite (proj2 (Nat.leb_le 1 (S n))), (proj2 (Nat.leb_le (S n) (S n))) by lia. reflexivity.
  - destruct (Nat.leb_spec 1 j), (Nat.leb_spec j n), (Nat.leb_spec j (S n)); cbn [andb]; try reflexivity; lia.
Qed.

Lemma move_row n k nm (mode : nat -> nat) h i j : (k < nm \/ (k = nm /\ forall i, (1 <= i <= n)%nat -> (i <= mode i)%nat))%nat ->
  for1 n (fun i h => upd2 h k i (h nm (mode i))) h i j = if (Nat.eqb i k && ((1 <=? j) && (j <=? n)))%nat%bool then h nm (mode j) else h i j.
Proof.
  intros K. revert i j. induction n as [|n IH]; intros i j; [cbn; destruct (Nat.eqb i k); [destruct j; reflexivity|reflexivity]|]. rewrite for1_S.
  assert (K' : (k < nm \/ (k = nm /\ forall i, (1 <= i <= n)%nat -> (i <= mode i)%nat))%nat) by (destruct K as [K|[K1 K2]]; [left; exact K|right; split; [exact K1|intros; apply K2; lia]]).
  rewrite upd2_at. destruct (Nat.eqb_spec i k) as [->|Hi].
  - cbn [andb]. destruct (Nat.eqb_spec j (S n)) as [->|N].
    + rewrite (proj2 (Nat.leb_le 1 (S n))), (proj2 (Nat.leb_le (S n) (S n))) by lia. cbn [andb]. rewrite (IH K').
      destruct K as [K|[K1 K2]].
      * destruct (Nat.eqb_spec nm k); [lia|]. reflexivity.
      * rewrite K1, Nat.eqb_refl. cbn [andb]. pose proof (K2 (S n) ltac:(lia)). rewrite (proj2 (Nat.leb_gt (mode (S n)) n)) by lia. rewrite Bool.andb_false_r. reflexivity.
    + rewrite (IH K'), Nat.eqb_refl. cbn [andb]. destruct (Nat.leb_spec 1 j), (Nat.leb_spec j n), (Nat.leb_spec j (S n)); cbn [andb]; try reflexivity; lia.
  - cbn [andb]. rewrite (IH K'). destruct (Nat.eqb_spec i k); [contradiction|]. reflexivity.
Qed.

Lemma increasing_ge (mode : nat -> nat) n : (forall i, (1 <= i <= n)%nat -> (1 <= mode i)%nat) -> (forall i j, (1 <= i < j)%nat -> (j <= n)%nat -> (mode i < mode j)%nat) ->
  forall i, (1 <= i <= n)%nat -> (i <= mode i)%nat.
Proof.
  intros P M i. induction i as [|i IH]; intros H; [lia|]. destruct i as [|i]; [apply P; exact H|].
  pose proof (IH ltac:(lia)). pose proof (M (S i) (S (S i)) ltac:(lia) ltac:(lia)). lia.
Qed.

Section Coefs.
Variables (nmodesx nmodes : nat) (mode : nat -> nat) (fself : nat -> R) (flat : nat -> nat -> R).
Hypothesis inside : forall i, (1 <= i <= nmodes)%nat -> (1 <= mode i <= nmodesx)%nat.
Hypothesis outside : forall i, (nmodes < i)%nat -> mode i = 0%nat.
Hypothesis increasing : forall i j, (1 <= i < j)%nat -> (j <= nmodes)%nat -> (mode i < mode j)%nat.

Lemma reorder_inv (c : nat) : forall nm k hs hl,
  (nm + c = S nmodesx)%nat -> (1 <= k <= nm)%nat -> (k <= S nmodes)%nat ->
  (forall i, (1 <= i < k)%nat -> (mode i < nm)%nat) -> (forall i, (k <= i <= nmodes)%nat -> (nm <= mode i)%nat) ->
  (forall i, (1 <= i < k)%nat -> hs i = fself (mode i)) ->
  (forall i j, (1 <= i < k)%nat -> (1 <= j <= nmodes)%nat -> hl i j = flat (mode i) (mode j)) ->
  forall hs' hl', reorder nmodesx nmodes mode (map (fun p => (p, (fself p, flat p))) (seq nm c)) nm k hs hl = (hs', hl') ->
  (forall i, (1 <= i <= nmodes)%nat -> hs' i = fself (mode i)) /\
  (forall i j, (1 <= i <= nmodes)%nat -> (1 <= j <= nmodes)%nat -> hl' i j = flat (mode i) (mode j)).
Proof.
  induction c as [|c IH]; intros nm k hs hl C K KN LO HI HS HL hs' hl' E.
  - cbn [seq map reorder] in E. injection E as <- <-. assert (k = S nmodes) by (destruct (Nat.eq_dec k (S nmodes)); [assumption|pose proof (HI k ltac:(lia)); pose proof (inside k ltac:(lia)); lia]).
    subst k. split; [intros; apply HS; lia|intros; apply HL; lia].
  - cbn [seq map reorder] in E. destruct (Nat.eqb_spec nm (mode k)) as [M|M].
    + assert (KM : (k <= nmodes)%nat) by (destruct (le_lt_dec k nmodes) as [|L]; [assumption|rewrite (outside k L) in M; lia]).
      assert (MV : forall i j, for1 nmodes (fun i h => upd2 h k i (h nm (mode i))) (for1 nmodesx (fun jm h => upd2 h nm jm (flat nm jm)) hl) i j =
        if (Nat.eqb i k && ((1 <=? j) && (j <=? nmodes)))%nat%bool then for1 nmodesx (fun jm h => upd2 h nm jm (flat nm jm)) hl nm (mode j) else for1 nmodesx (fun jm h => upd2 h nm jm (flat nm jm)) hl i j).
      { intros. apply move_row. destruct (Nat.eq_dec k nm) as [->|]; [right|left; lia]. split; [reflexivity|].
        apply increasing_ge; [intros p I; pose proof (inside p I); lia|exact increasing]. }
      refine (IH (S nm) (S k) _ _ ltac:(lia) ltac:(lia) ltac:(lia) _ _ _ _ hs' hl' E).
      * intros i I. destruct (Nat.eq_dec i k) as [->|]; [lia|]. pose proof (LO i ltac:(lia)). lia.
      * intros i I. pose proof (increasing k i ltac:(lia) ltac:(lia)). lia.
      * intros i I. unfold upd1. destruct (Nat.eqb_spec i k) as [->|].
        -- rewrite Nat.eqb_refl, <- M. reflexivity.
        -- destruct (Nat.eqb_spec i nm); [lia|]. apply HS. lia.
      * intros i j I J. rewrite MV. destruct (Nat.eqb_spec i k) as [->|].
        -- rewrite (proj2 (Nat.leb_le 1 j)), (proj2 (Nat.leb_le j nmodes)) by lia. cbn [andb]. rewrite fill_row, Nat.eqb_refl. cbn [andb].
           pose proof (inside j J). rewrite (proj2 (Nat.leb_le 1 (mode j))), (proj2 (Nat.leb_le (mode j) nmodesx)) by lia. cbn [andb]. rewrite <- M. reflexivity.
        -- cbn [andb]. rewrite fill_row. destruct (Nat.eqb_spec i nm); [lia|]. cbn [andb]. apply HL; lia.
    + refine (IH (S nm) k _ _ ltac:(lia) ltac:(lia) ltac:(lia) _ _ _ _ hs' hl' E).
      * intros i I. pose proof (LO i I). lia.
      * intros i I. pose proof (HI i I). destruct (Nat.eq_dec i k) as [->|]; [lia|]. pose proof (increasing k i ltac:(lia) ltac:(lia)). pose proof (HI k ltac:(lia)). lia.
      * intros i I. unfold upd1. destruct (Nat.eqb_spec i nm); [lia|]. apply HS. exact I.
      * intros i j I J. rewrite fill_row. destruct (Nat.eqb_spec i nm); [lia|]. cbn [andb]. apply HL; assumption.
Qed.
End Coefs.

(* The file numbers its modes by their places; asked for in that order, each pair of
   systems gets the coefficient the file has for their modes. *)
Theorem C110_coefficients nmodesx nmodes mode fself flat hs0 hl0 hs hl mode_of :
  (forall i, (1 <= i <= nmodes)%nat -> (1 <= mode i <= nmodesx)%nat) -> (forall i, (nmodes < i)%nat -> mode i = 0%nat) ->
  (forall i j, (1 <= i < j)%nat -> (j <= nmodes)%nat -> (mode i < mode j)%nat) ->
  reorder nmodesx nmodes mode (map (fun p => (p, (fself p, flat p))) (seq 1 nmodesx)) 1 1 hs0 hl0 = (hs, hl) ->
  (forall a, (1 <= mode_of a <= nmodes)%nat) ->
  forall a b, hard_coef mode_of hs hl a b = if Nat.eqb a b then fself (mode (mode_of a)) else flat (mode (mode_of a)) (mode (mode_of b)).
Proof.
  intros I O M E MO a b.
  destruct (reorder_inv nmodesx nmodes mode fself flat I O M nmodesx 1 1 hs0 hl0 ltac:(lia) ltac:(lia) ltac:(lia) ltac:(intros; lia) ltac:(intros i H; pose proof (I i H); lia) ltac:(intros; lia) ltac:(intros; lia) hs hl E) as [A B].
  unfold hard_coef. destruct (Nat.eqb a b); [apply A; apply MO|apply B; apply MO].
Qed.
Print Assumptions C110_coefficients.

(* Numbered otherwise, a coefficient of another pair of modes is taken: here the file
   has the modes 2 and 1 in this order. *)
Theorem C110_numbers_refuted : exists file hs hl, map fst file = [2; 1]%nat /\
  reorder 2 2 (fun i => match i with 1 => 2 | 2 => 1 | _ => 0 end)%nat file 1 1 (fun _ => 0) (fun _ _ => 0) = (hs, hl) /\
  (forall row, nth_error file 0 = Some row -> snd (snd row) 1%nat = 3 /\ snd (snd row) 2%nat = 4) /\ hl 1%nat 1%nat = 4 /\ hl 1%nat 2%nat = 4.
Proof.
  exists [(2%nat, (1, fun j => if Nat.eqb j 1 then 3 else 4)); (1%nat, (2, fun j => if Nat.eqb j 1 then 5 else 6))]. eexists. eexists.
  split; [reflexivity|]. split; [reflexivity|]. split; [intros row H; injection H as <-; split; reflexivity|].
  split; vm_compute; reflexivity.
Qed.
Print Assumptions C110_numbers_refuted.

Example C110_met : exists h, saturating h /\ 0 < h_tau0 h /\ 0 <= h_thet1 h /\ (forall x, In x (h_hard h) -> x = 1) /\ length (h_hard h) = 2%nat /\
  0 < total (map shear_of [([1; -2], 1 / 2); ([0; 3], 1 / 4)]) /\ (forall i j, (1 <= i < j)%nat -> (j <= 2)%nat -> ((fun i => match i with 1 => 1 | 2 => 3 | _ => 0 end) i < (fun i => match i with 1 => 1 | 2 => 3 | _ => 0 end) j)%nat).
Proof.
  exists {| h_tau0 := 20; h_tau1 := 15; h_thet0 := 100; h_thet1 := 1; h_hard := [1; 1] |}. unfold saturating. cbn [h_tau0 h_tau1 h_thet0 h_thet1 h_hard].
  rewrite !Rabs_pos_eq by lra. repeat split; try lra.
  - intros x [<-|[<-|[]]]; reflexivity.
  - unfold shear_of. cbn [map total fst snd]. rewrite Rabs_R1, Rabs_R0, (Rabs_left (-2)), (Rabs_pos_eq 3) by lra. lra.
  - intros i j I J. destruct i as [|[|[|i]]], j as [|[|[|j]]]; lia.
Qed.
