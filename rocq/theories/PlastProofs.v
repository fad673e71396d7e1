(** Proofs about the strength models. *)
From Coq Require Import Reals List Lia Lra Psatz.
From Verif Require Import BaseArr BaseReal SghModel RzModel PlastModel PlastSpec.
Import ListNotations.
Open Scope R_scope.

Lemma fuzz_pos : 0 < fuzz.
Proof. unfold fuzz. lra. Qed.
#[global] Opaque fuzz.

Lemma below3 i : (i < 3)%nat -> i = 0%nat \/ i = 1%nat \/ i = 2%nat.
Proof. lia. Qed.

Ltac cases3 H := destruct (below3 _ H) as [-> | [-> | ->]].

Lemma sumn3 f : sumn 3 f = sum3 f.
Proof. unfold sumn, sum3. cbn. lra. Qed.

Lemma sum3_ext f g : (forall i, (i < 3)%nat -> f i = g i) -> sum3 f = sum3 g.
Proof. intros H. unfold sum3. rewrite (H 0%nat), (H 1%nat), (H 2%nat) by lia. reflexivity. Qed.

Lemma half_eq : 0.5 = / 2.
Proof. lra. Qed.

Lemma dot_ext a b a' b' : same a a' -> same b b' -> dot a b = dot a' b'.
Proof. intros Ha Hb. unfold dot. apply sum3_ext. intros i Hi. apply sum3_ext. intros j Hj.
  rewrite Ha, Hb by assumption. reflexivity. Qed.

Lemma dot_nonneg t : 0 <= dot t t.
Proof.
  assert (Q : forall x : R, 0 <= x * x) by (intros x; apply Rle_0_sqr).
  unfold dot, sum3. repeat apply Rplus_le_le_0_compat; apply Q.
Qed.

Lemma dot_scale c t : dot (fun i j => t i j * c) (fun i j => t i j * c) = c * c * dot t t.
Proof. unfold dot, sum3. ring. Qed.

Lemma J2_dot t : 3 * J2 t = mises_sq t.
Proof. unfold J2, mises_sq, dot. rewrite sumn3. rewrite (sum3_ext _ (fun i => sum3 (fun j => t i j * t i j)))
  by (intros; apply sumn3). lra. Qed.

Lemma contraction_dot t : contraction t = dot t t.
Proof. unfold contraction, dot. rewrite sumn3. apply sum3_ext. intros; apply sumn3. Qed.

Lemma divg_trace g : divg g = trace g.
Proof. unfold divg, trace. apply sumn3. Qed.

Lemma mises_nonneg t : 0 <= mises_sq t.
Proof. unfold mises_sq. pose proof (dot_nonneg t). lra. Qed.

(** ** the rate *)
Lemma jaumann_sym G g s : symmetric s -> symmetric (jaumann G g s).
Proof.
  intros H i k Hi Hk. unfold jaumann. rewrite !sumn3. unfold sum3, Dpart, Wpart, eye. rewrite half_eq.
  pose proof (H 0%nat 1%nat ltac:(lia) ltac:(lia)) as A. pose proof (H 0%nat 2%nat ltac:(lia) ltac:(lia)) as B.
  pose proof (H 1%nat 2%nat ltac:(lia) ltac:(lia)) as C.
  cases3 Hi; cases3 Hk; cbn [Nat.eqb]; rewrite ?A, ?B, ?C; field.
Qed.

Lemma jaumann_trace G g s : trace (jaumann G g s) = 0.
Proof.
  unfold trace, jaumann. unfold sum3 at 1. rewrite !sumn3, !divg_trace. unfold trace, sum3, Dpart, Wpart, eye. cbn [Nat.eqb].
  rewrite half_eq. field.
Qed.

Lemma trial_sym G a dt g sn s : symmetric sn -> symmetric s -> symmetric (trial G a dt g sn s).
Proof. intros A B i j Hi Hj. unfold trial. rewrite (A i j), (jaumann_sym G g s B i j) by assumption. reflexivity. Qed.

Lemma trial_trace G a dt g sn s : trace (trial G a dt g sn s) = trace sn.
Proof.
  pose proof (jaumann_trace G g s) as H. unfold trace, trial, sum3 in *.
  replace (sn 0%nat 0%nat + a * dt * jaumann G g s 0%nat 0%nat + (sn 1%nat 1%nat + a * dt * jaumann G g s 1%nat 1%nat) +
    (sn 2%nat 2%nat + a * dt * jaumann G g s 2%nat 2%nat)) with
    (sn 0%nat 0%nat + sn 1%nat 1%nat + sn 2%nat 2%nat + a * dt *
      (jaumann G g s 0%nat 0%nat + jaumann G g s 1%nat 1%nat + jaumann G g s 2%nat 2%nat)) by ring.
  rewrite H. ring.
Qed.

(** ** the return to the yield surface *)
Lemma yield_den_pos t : 0 < 3 * J2 t + fuzz.
Proof. rewrite J2_dot. pose proof (mises_nonneg t). pose proof fuzz_pos. lra. Qed.

Lemma factor_range Y t : 0 <= Y -> 0 <= yield_factor Y t.
Proof.
  intros H. unfold yield_factor. apply Rmult_le_pos; [exact H|]. apply Rlt_le, Rinv_0_lt_compat, sqrt_lt_R0, yield_den_pos.
Qed.

Lemma factor_sq Y t : yield_factor Y t * yield_factor Y t * (mises_sq t + fuzz) = Y * Y.
Proof.
  unfold yield_factor. rewrite J2_dot. assert (P : 0 < mises_sq t + fuzz) by (rewrite <- J2_dot; apply yield_den_pos).
  pose proof (sqrt_lt_R0 _ P) as Q.
  pose proof (sqrt_sqrt (mises_sq t + fuzz) (Rlt_le _ _ P)) as S.
  rewrite <- S at 3. field. lra.
Qed.

Lemma scale_back_sym Y t : symmetric t -> symmetric (scale_back Y t).
Proof. intros H i j Hi Hj. unfold scale_back. destruct Rlt_dec; rewrite (H i j) by assumption; reflexivity. Qed.

Lemma scale_back_trace Y t : trace t = 0 -> trace (scale_back Y t) = 0.
Proof. unfold trace, sum3, scale_back. intros H. destruct Rlt_dec; [|exact H].
  rewrite <- !Rmult_plus_distr_r, H. ring. Qed.

Lemma mises_scale c t : mises_sq (fun i j => t i j * c) = c * c * mises_sq t.
Proof. unfold mises_sq. rewrite dot_scale. ring. Qed.

Lemma scale_back_within Y t : 0 <= Y -> within_yield Y (scale_back Y t).
Proof.
  intros HY. unfold within_yield. pose proof (factor_sq Y t) as E. pose proof (factor_range Y t HY) as F.
  pose proof (mises_nonneg t) as N. pose proof fuzz_pos as Z.
  unfold scale_back. destruct (Rlt_dec (yield_factor Y t) 1) as [L|L].
  - rewrite (mises_scale (yield_factor Y t) t). rewrite <- E.
    assert (0 <= yield_factor Y t * yield_factor Y t) by nra. nra.
  - change (mises_sq (fun i j => t i j)) with (mises_sq t). rewrite <- E.
    assert (1 <= yield_factor Y t * yield_factor Y t) by nra. nra.
Qed.

(** not scaled when strictly inside *)
Lemma scale_back_inside Y t : 0 <= Y -> mises_sq t + fuzz <= Y * Y -> forall i j, scale_back Y t i j = t i j.
Proof.
  intros HY H i j. unfold scale_back. destruct (Rlt_dec (yield_factor Y t) 1) as [L|L]; [|reflexivity]. exfalso.
  pose proof (factor_sq Y t) as E. pose proof (factor_range Y t HY) as F. pose proof (mises_nonneg t) as N. pose proof fuzz_pos as Z.
  assert (yield_factor Y t * yield_factor Y t < 1) by nra. nra.
Qed.

Theorem hypo_admissible G Y a dt g sn s : 0 <= Y -> symmetric sn -> trace sn = 0 -> symmetric s ->
  admissible Y (hypo_plastic G Y a dt g sn s).
Proof.
  intros HY A T B. repeat split.
  - apply scale_back_sym, trial_sym; assumption.
  - apply scale_back_trace. rewrite trial_trace. exact T.
  - apply scale_back_within, HY.
Qed.

Lemma admissible_zero Y : admissible Y (fun _ _ => 0).
Proof. repeat split. - unfold trace, sum3. lra. - unfold within_yield, mises_sq, dot, sum3. nra. Qed.

Lemma admissible_ext Y a b : same a b -> admissible Y a -> admissible Y b.
Proof.
  intros E (S & T & W). repeat split.
  - intros i j Hi Hj. rewrite <- !E by assumption. apply S; assumption.
  - rewrite <- T. unfold trace. apply sum3_ext. intros i Hi. symmetry. apply E; assumption.
  - unfold within_yield, mises_sq in *. rewrite <- (dot_ext a a b b E E). exact W.
Qed.

(** ** whole runs, 3D *)
Section Invariant.
  Variable P : tensor -> Prop.
  Hypothesis P_ext : forall a b, same a b -> P a -> P b.
  Hypothesis P_zero : P (fun _ _ => 0).
  Variables (L : layout) (mat : nat).

  Definition stress_ok (s : sgh) : Prop := forall sid, (sid < num_mat_elems L mat)%nat ->
    P (s_stress s mat sid) /\ P (s_stress0 s mat sid).

  Lemma same_stress_ok s s' : (forall sid, s_stress s' mat sid = s_stress s mat sid) ->
    (forall sid, s_stress0 s' mat sid = s_stress0 s mat sid) -> stress_ok s -> stress_ok s'.
  Proof. intros A B H sid Hs. rewrite A, B. apply H, Hs. Qed.

  Lemma for_mat_other {A} k n (old new : nat -> nat -> A) m sid : m <> k -> for_mat k n old new m sid = old m sid.
  Proof. intros H. unfold for_mat. rewrite (proj2 (Nat.eqb_neq m k) H). reflexivity. Qed.

  Lemma state_density_stress M k s : stress_ok s -> stress_ok (state_density L M k s).
  Proof. apply same_stress_ok; intros; reflexivity. Qed.
  Lemma state_pressure_stress M k s : stress_ok s -> stress_ok (state_pressure L M k s).
  Proof. apply same_stress_ok; intros; unfold state_pressure; destruct (decoupled M k); reflexivity. Qed.
  Lemma state_sspd_stress M k s : stress_ok s -> stress_ok (state_sspd L M k s).
  Proof. apply same_stress_ok; intros; unfold state_sspd; destruct (decoupled M k); reflexivity. Qed.
  Lemma state_erode_stress M k s : stress_ok s -> stress_ok (state_erode L M k s).
  Proof. apply same_stress_ok; intros; unfold state_erode; destruct (has_erosion M k); reflexivity. Qed.
  Lemma state_stress_stress M k s : state_based M mat = false -> stress_ok s -> stress_ok (state_stress L M k s).
  Proof.
    intros HS. apply same_stress_ok; intros; unfold state_stress; destruct (state_based M k) eqn:E; try reflexivity.
    cbn [s_stress set_stress]. apply for_mat_other. intros ->. congruence.
  Qed.
  Lemma state_void_stress M k s : stress_ok s -> stress_ok (state_void L M k s).
  Proof.
    intros H sid Hs. unfold state_void. destruct (has_erosion M k); [|apply H, Hs].
    cbn [s_stress s_stress0 set_stress set_den set_sspd set_pres]. split; [|apply H, Hs].
    unfold for_mat. destruct (Nat.eqb mat k && Nat.ltb sid (num_mat_elems L k))%bool; [|apply H, Hs].
    unfold void_value. destruct (s_eroded s mat sid); [apply P_zero|apply H, Hs].
  Qed.
  Lemma update_state_stress M k s : state_based M mat = false -> stress_ok s -> stress_ok (update_state L M k s).
  Proof.
    intros E H. unfold update_state. apply state_void_stress, state_erode_stress, state_stress_stress; [exact E|].
    apply state_sspd_stress, state_pressure_stress, state_density_stress, H.
  Qed.

  Lemma fold_ok {A} (f : sgh -> A -> sgh) l s : (forall s a, In a l -> stress_ok s -> stress_ok (f s a)) -> stress_ok s ->
    stress_ok (fold_left f l s).
  Proof.
    revert s. induction l as [|x l IH]; cbn [fold_left]; intros s H Hs; [exact Hs|].
    apply IH. - intros; apply H; [right|]; assumption. - apply H; [left; reflexivity|exact Hs].
  Qed.

  (** the material's stress model keeps P *)
  Definition keeps (M : models) : Prop := increment_based M mat = true /\ state_based M mat = false /\
    forall s sid, (sid < num_mat_elems L mat)%nat -> P (s_stress s mat sid) -> P (s_stress0 s mat sid) -> P (calc_stress M s mat sid).

  Lemma update_stress_ok M k s : keeps M -> stress_ok s -> stress_ok (update_stress L M k s).
  Proof.
    intros (_ & _ & K) H sid Hs. unfold update_stress. destruct (increment_based M k); [|apply H, Hs].
    cbn [s_stress s_stress0 set_stress]. split; [|apply H, Hs].
    unfold for_mat. destruct (Nat.eqb mat k && Nat.ltb sid (num_mat_elems L k))%bool; [|apply H, Hs].
    apply K; [exact Hs| |]; apply H, Hs.
  Qed.

  Lemma forces_ok m M s : keeps M -> stress_ok s -> stress_ok (forces_and_stress m L M s).
  Proof.
    intros K H. unfold forces_and_stress. apply fold_ok.
    - intros s' k _ H'. apply update_stress_ok; [exact K|]. exact H'.
    - exact H.
  Qed.
  Lemma forces_rz_ok m M s : keeps M -> stress_ok s -> stress_ok (forces_and_stress_rz m L M s).
  Proof.
    intros K H. unfold forces_and_stress_rz. apply fold_ok.
    - intros s' k _ H'. apply update_stress_ok; [exact K|]. exact H'.
    - exact H.
  Qed.
  Lemma energies_ok m a dt s : stress_ok s -> stress_ok (all_energies m L a dt s).
  Proof. intros H. unfold all_energies. apply fold_ok; [|exact H]. intros s' k _ H'. exact H'. Qed.
  Lemma energies_rz_ok m a dt s : stress_ok s -> stress_ok (all_energies_rz m L a dt s).
  Proof. intros H. unfold all_energies_rz. apply fold_ok; [|exact H]. intros s' k _ H'. exact H'. Qed.
End Invariant.

Section Runs.
  Variable P : tensor -> Prop.
  Hypothesis P_ext : forall a b, same a b -> P a -> P b.
  Hypothesis P_zero : P (fun _ _ => 0).
  Variables (L : layout) (mat : nat).
  Notation ok := (stress_ok P L mat).
  Notation good := (keeps P L mat).

  Lemma stage_ok m M a dt s : good M -> ok s -> ok (rk_stage m L M a dt s).
  Proof.
    intros K H. unfold rk_stage. cbv zeta. apply fold_ok.
    - intros s' k _ H'. apply update_state_stress; [exact P_zero|exact (proj1 (proj2 K))|exact H'].
    - match goal with |- ok (set_vol _ (set_x _ ?s1)) => enough (H1 : ok s1) by exact H1 end.
      apply energies_ok.
      match goal with |- ok (set_v _ (set_v _ (set_nforce _ ?s1))) => enough (H1 : ok s1) by exact H1 end.
      apply forces_ok; [exact K|]. exact H.
  Qed.

  Lemma start_ok s : ok s -> ok (set_start s).
  Proof. intros H sid Hs. cbn [s_stress s_stress0 set_start]. split; apply H, Hs. Qed.

  Lemma step_ok m Ms N dt s : (forall k, (k < N)%nat -> good (Ms k)) -> ok s -> ok (rk_step m L Ms N dt s).
  Proof.
    intros K H. unfold rk_step. apply fold_ok.
    - intros s' k Hk H'. apply stage_ok; [|exact H']. apply K. apply in_seq in Hk. lia.
    - apply start_ok, H.
  Qed.

  Lemma run_ok m N cycles s : (forall dt Ms k, In (dt, Ms) cycles -> (k < N)%nat -> good (Ms k)) -> ok s ->
    ok (run m L N cycles s).
  Proof.
    intros K H. unfold run. apply fold_ok; [|exact H]. intros s' (dt & Ms) Hc H'. apply step_ok; [|exact H'].
    intros k Hk. exact (K dt Ms k Hc Hk).
  Qed.

  Lemma update_state_rz_ok M k s : state_based M mat = false -> ok s -> ok (update_state_rz L M k s).
  Proof.
    intros E H. unfold update_state_rz. apply state_void_stress; [exact P_zero|].
    apply state_erode_stress, state_stress_stress; [exact E|].
    assert (H2 : forall s', ok s' -> ok (state_density2_rz L M k s')).
    { intros s'. apply same_stress_ok; intros; unfold state_density2_rz;
        repeat match goal with |- context [if ?b then _ else _] => destruct b end; reflexivity. }
    apply H2. apply state_sspd_stress, state_pressure_stress.
    revert H. apply same_stress_ok; intros; reflexivity.
  Qed.

  Lemma stage_rz_ok m M tiny ext a dt s : good M -> ok s -> ok (rk_stage_rz m L M tiny ext a dt s).
  Proof.
    intros K H. unfold rk_stage_rz. cbv zeta.
    match goal with |- ok (set_nmass _ ?s1) => enough (H1 : ok s1) by exact H1 end. apply fold_ok.
    - intros s' k _ H'. apply update_state_rz_ok; [exact (proj1 (proj2 K))|exact H'].
    - match goal with |- ok (set_vol _ (set_x _ ?s1)) => enough (H1 : ok s1) by exact H1 end.
      apply energies_rz_ok.
      match goal with |- ok (set_v _ (set_v _ ?s1)) => enough (H1 : ok s1) by exact H1 end.
      apply forces_rz_ok; [exact K|]. exact H.
  Qed.

  Lemma step_rz_ok m Ms tiny ext N dt s : (forall k, (k < N)%nat -> good (Ms k)) -> ok s -> ok (rk_step_rz m L Ms tiny ext N dt s).
  Proof.
    intros K H. unfold rk_step_rz. apply fold_ok.
    - intros s' k Hk H'. apply stage_rz_ok; [|exact H']. apply K. apply in_seq in Hk. lia.
    - apply start_ok, H.
  Qed.

  Lemma run_rz_ok m tiny ext N cycles s : (forall dt Ms k, In (dt, Ms) cycles -> (k < N)%nat -> good (Ms k)) -> ok s ->
    ok (run_rz m L tiny ext N cycles s).
  Proof.
    intros K H. unfold run_rz. apply fold_ok; [|exact H]. intros s' (dt & Ms) Hc H'. apply step_rz_ok; [|exact H'].
    intros k Hk. exact (K dt Ms k Hc Hk).
  Qed.
End Runs.
