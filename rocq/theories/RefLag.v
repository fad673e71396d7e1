(** Lagrange's polynomials over any distinct nodes. *)
From Coq Require Import Reals List Arith Lia Lra.
From Verif Require Import BaseArr BaseReal RefSpec.
Import ListNotations.
Open Scope R_scope.

(** * Products over lists *)
Definition prodl {A} (f : A -> R) (l : list A) : R := fold_right (fun a p => f a * p) 1 l.

Lemma prodl_cons {A} (f : A -> R) a l : prodl f (a :: l) = f a * prodl f l.
Proof. reflexivity. Qed.

Lemma prodl_ext {A} (f g : A -> R) l : (forall a, In a l -> f a = g a) -> prodl f l = prodl g l.
Proof.
  induction l as [|a l IH]; intros H; [reflexivity|]. rewrite !prodl_cons.
  rewrite (H a (or_introl eq_refl)), IH; auto. intros b Hb; apply H; right; exact Hb.
Qed.

Lemma prodl_zero {A} (f : A -> R) l a : In a l -> f a = 0 -> prodl f l = 0.
Proof.
  induction l as [|b l IH]; intros H Hf; [destruct H|]. rewrite prodl_cons.
  destruct H as [E|H].
  - subst. rewrite Hf; ring.
  - rewrite IH by assumption; ring.
Qed.

Lemma prodl_nonzero {A} (f : A -> R) l : (forall a, In a l -> f a <> 0) -> prodl f l <> 0.
Proof.
  induction l as [|b l IH]; intros H; [cbn; lra|]. rewrite prodl_cons.
  apply Rmult_integral_contrapositive_currified; [apply H; left; reflexivity|].
  apply IH. intros a Ha; apply H; right; exact Ha.
Qed.

Lemma prodl_fold {A} (f : A -> R) l s : fold_left (fun p a => p * f a) l s = s * prodl f l.
Proof.
  revert s. induction l as [|a l IH]; intros s; cbn [fold_left]; [cbn; ring|].
  rewrite IH, prodl_cons; ring.
Qed.

(** * Polynomials by coefficients *)
Lemma peval_plus c : forall d, exists e, length e = Nat.max (length c) (length d) /\
  forall x, peval e x = peval c x + peval d x.
Proof.
  induction c as [|a c IH]; intros d.
  - exists d. split; [reflexivity|]. intros x; cbn; ring.
  - destruct d as [|b d].
    + exists (a :: c). split; [reflexivity|]. intros x; cbn; ring.
    + destruct (IH d) as (e & L & H). exists (a + b :: e). split; [cbn; lia|].
      intros x. cbn [peval]. rewrite H; ring.
Qed.

Lemma peval_scal k c : exists e, length e = length c /\ forall x, peval e x = k * peval c x.
Proof.
  induction c as [|a c (e & L & H)].
  - exists []. split; [reflexivity|]. intros; cbn; ring.
  - exists (k * a :: e). split; [cbn; lia|]. intros x; cbn [peval]; rewrite H; ring.
Qed.

(** Times (x - r). *)
Lemma peval_linear r c : exists e, length e = S (length c) /\ forall x, peval e x = (x - r) * peval c x.
Proof.
  destruct (peval_scal (- r) c) as (d & L & H).
  destruct (peval_plus (0 :: c) d) as (e & Le & He).
  exists e. split; [rewrite Le; cbn [length]; lia|].
  intros x. rewrite He, H. cbn [peval]. ring.
Qed.

(** A polynomial minus its value at r has the factor x - r. *)
Lemma peval_factor r c : exists e, length e = pred (length c) /\
  forall x, peval c x = peval c r + (x - r) * peval e x.
Proof.
  induction c as [|a c (e & L & H)].
  - exists []. split; [reflexivity|]. intros; cbn; ring.
  - destruct c as [|b c].
    + exists []. split; [reflexivity|]. intros; cbn; ring.
    + destruct (peval_scal r e) as (d & Ld & Hd).
      destruct (peval_plus (b :: c) d) as (f & Lf & Hf).
      exists f. split; [rewrite Lf, Ld, L; cbn [length pred]; lia|].
      intros x. rewrite Hf, Hd.
      change (peval (a :: b :: c) x) with (a + x * peval (b :: c) x).
      change (peval (a :: b :: c) r) with (a + r * peval (b :: c) r).
      assert (Hr : peval (b :: c) r = peval (b :: c) x - (x - r) * peval e x) by (rewrite (H x); ring).
      rewrite Hr. ring.
Qed.

(** At least as many distinct roots as coefficients: the polynomial vanishes. *)
Lemma peval_roots c : forall l, NoDup l -> (length c <= length l)%nat ->
  (forall r, In r l -> peval c r = 0) -> forall x, peval c x = 0.
Proof.
  intros l. revert c. induction l as [|r l IH]; intros c ND L H x.
  - destruct c; [reflexivity|cbn in L; lia].
  - destruct (peval_factor r c) as (e & Le & He).
    inversion ND as [|? ? Hr ND']; subst.
    assert (Hr0 : peval c r = 0) by (apply H; left; reflexivity).
    rewrite He, Hr0. rewrite (IH e ND'); [ring| |].
    + rewrite Le. cbn [length] in L. lia.
    + intros s Hs. assert (Hs0 : peval c s = 0) by (apply H; right; exact Hs).
      rewrite He, Hr0 in Hs0. assert (s - r <> 0) by (intros E; apply Hr; replace r with s by lra; exact Hs).
      apply (Rmult_eq_reg_l (s - r)); [|assumption]. lra.
Qed.

Lemma peval_prod {A} (P : A -> R) l : exists e, length e = S (length l) /\
  forall x, peval e x = prodl (fun a => x - P a) l.
Proof.
  induction l as [|a l (e & L & H)].
  - exists [1]. split; [reflexivity|]. intros; cbn; ring.
  - destruct (peval_linear (P a) e) as (d & Ld & Hd). exists d. split; [cbn; lia|].
    intros x. rewrite Hd, H. reflexivity.
Qed.

Lemma peval_suml {A} n (g : A -> R -> R) l :
  (forall a, In a l -> exists e, (length e <= n)%nat /\ forall x, peval e x = g a x) ->
  exists e, (length e <= n)%nat /\ forall x, peval e x = suml (fun a => g a x) l.
Proof.
  induction l as [|a l IH]; intros H.
  - exists []. split; [cbn; lia|]. reflexivity.
  - destruct IH as (e & L & He); [intros b Hb; apply H; right; exact Hb|].
    destruct (H a (or_introl eq_refl)) as (d & Ld & Hd).
    destruct (peval_plus d e) as (f & Lf & Hf). exists f. split; [lia|].
    intros x. rewrite Hf, Hd, He, suml_cons. reflexivity.
Qed.

Lemma peval_monomial a : exists e, length e = S a /\ forall x, peval e x = x ^ a.
Proof.
  induction a as [|a (e & L & H)].
  - exists [1]. split; [reflexivity|]. intros; cbn; ring.
  - exists (0 :: e). split; [cbn; lia|]. intros x; cbn [peval pow]; rewrite H; ring.
Qed.

(** * The basis *)
Section Basis.
Variable n : nat.
Variable P : nat -> R.
Definition distinct : Prop := forall i j, (i < n)%nat -> (j < n)%nat -> i <> j -> P i <> P j.

Definition others (i : nat) : list nat := filter (fun j => negb (j =? i)%nat) (seq 0 n).
Definition lag (i : nat) (x : R) : R :=
  prodl (fun j => x - P j) (others i) / prodl (fun j => P i - P j) (others i).
Definition dlag (i : nat) (x : R) : R :=
  suml (fun j => prodl (fun m => x - P m) (filter (fun m => negb (m =? j)%nat) (others i))) (others i)
  / prodl (fun j => P i - P j) (others i).

Lemma in_others i j : In j (others i) <-> (j < n)%nat /\ j <> i.
Proof.
  unfold others. rewrite filter_In, in_seq, Bool.negb_true_iff, Nat.eqb_neq. lia.
Qed.

Lemma NoDup_others i : NoDup (others i).
Proof. apply NoDup_filter, seq_NoDup. Qed.

Lemma length_others i : (i < n)%nat -> length (others i) = pred n.
Proof.
  intros Hi. assert (H : length (i :: others i) = length (seq 0 n)).
  { apply Nat.le_antisymm; apply NoDup_incl_length.
    - constructor; [rewrite in_others; lia|apply NoDup_others].
    - intros j [<-|Hj]; [apply in_seq; lia|apply in_others in Hj; apply in_seq; lia].
    - apply seq_NoDup.
    - intros j Hj. apply in_seq in Hj. destruct (Nat.eq_dec j i) as [->|N]; [left; reflexivity|].
      right. apply in_others. lia. }
  rewrite seq_length in H. cbn [length] in H. lia.
Qed.

Lemma lag_den i : distinct -> (i < n)%nat -> prodl (fun j => P i - P j) (others i) <> 0.
Proof.
  intros D Hi. apply prodl_nonzero. intros j Hj. apply in_others in Hj.
  intros E. apply (D i j); try lia. lra.
Qed.

Lemma lag_same i : distinct -> (i < n)%nat -> lag i (P i) = 1.
Proof. intros D Hi. unfold lag. field. apply lag_den; assumption. Qed.

Lemma lag_other i j : (j < n)%nat -> j <> i -> lag i (P j) = 0.
Proof.
  intros Hj N. unfold lag. rewrite (prodl_zero _ _ j); [unfold Rdiv; ring| |ring].
  apply in_others. lia.
Qed.

Lemma lag_poly i : (i < n)%nat -> exists e, (length e <= n)%nat /\ forall x, peval e x = lag i x.
Proof.
  intros Hi. destruct (peval_prod P (others i)) as (e & L & H).
  destruct (peval_scal (/ prodl (fun j => P i - P j) (others i)) e) as (d & Ld & Hd).
  exists d. split; [rewrite Ld, L, length_others by assumption; lia|].
  intros x. rewrite Hd, H. unfold lag, Rdiv. ring.
Qed.

(** Interpolation returns every polynomial with at most n coefficients. *)
Lemma lag_reproduce c x : distinct -> (length c <= n)%nat ->
  sumn n (fun i => peval c (P i) * lag i x) = peval c x.
Proof.
  intros D L.
  destruct (peval_suml n (fun i x => peval c (P i) * lag i x) (seq 0 n)) as (e & Le & He).
  { intros i Hi. apply in_seq in Hi. destruct (lag_poly i) as (e & L1 & H1); [lia|].
    destruct (peval_scal (peval c (P i)) e) as (d & Ld & Hd). exists d. split; [lia|].
    intros y. rewrite Hd, H1. reflexivity. }
  destruct (peval_scal (-1) c) as (c' & Lc & Hc).
  destruct (peval_plus e c') as (f & Lf & Hf).
  assert (Z : peval f x = 0).
  { apply (peval_roots f (map P (seq 0 n))).
    - apply NoDup_nth with (d := P 0). rewrite map_length, seq_length. intros a b Ha Hb.
      rewrite !(map_nth P (seq 0 n) 0%nat), !seq_nth by assumption. cbn [plus].
      intros E. destruct (Nat.eq_dec a b); [assumption|]. exfalso. apply (D a b); assumption.
    - rewrite map_length, seq_length. lia.
    - intros r Hr. apply in_map_iff in Hr as (m & <- & Hm). apply in_seq in Hm.
      rewrite Hf, He, Hc, suml_seq.
      rewrite (sumn_ext n _ (fun i => if Nat.eqb i m then peval c (P m) else 0)).
      + rewrite sumn_delta by lia. ring.
      + intros i Hi. destruct (Nat.eqb_spec i m) as [->|N].
        * rewrite lag_same by (assumption || lia). ring.
        * rewrite lag_other by lia. ring. }
  rewrite Hf, He, Hc, suml_seq in Z. lra.
Qed.

Lemma lag_power a x : distinct -> (a < n)%nat -> sumn n (fun i => P i ^ a * lag i x) = x ^ a.
Proof.
  intros D Ha. destruct (peval_monomial a) as (e & L & H).
  rewrite <- H, <- (lag_reproduce e x D) by lia.
  apply sumn_ext. intros i _. now rewrite H.
Qed.
End Basis.

(** * Derivatives *)
Lemma prodl_drop (f : nat -> R) l j : ~ In j l ->
  prodl f (filter (fun m => negb (m =? j)%nat) l) = prodl f l.
Proof.
  intros H. induction l as [|a l IH]; [reflexivity|]. cbn [filter].
  destruct (Nat.eqb_spec a j) as [->|N]; cbn [negb].
  - exfalso; apply H; left; reflexivity.
  - rewrite !prodl_cons, IH; [reflexivity|]. intros Hj; apply H; right; exact Hj.
Qed.

Lemma derive_prodl (P : nat -> R) l x : NoDup l ->
  derivable_pt_lim (fun x => prodl (fun j => x - P j) l) x
    (suml (fun j => prodl (fun m => x - P m) (filter (fun m => negb (m =? j)%nat) l)) l).
Proof.
  induction l as [|a l IH]; intros ND.
  - cbn. apply derivable_pt_lim_const.
  - inversion ND as [|? ? Ha ND']; subst.
    rewrite suml_cons. cbn [filter]. rewrite Nat.eqb_refl. cbn [negb].
    rewrite prodl_drop by exact Ha.
    rewrite (suml_ext _ (fun j => (x - P a) * prodl (fun m => x - P m) (filter (fun m => negb (m =? j)%nat) l))).
    2:{ intros j Hj. destruct (Nat.eqb_spec a j) as [->|N]; [contradiction|]. cbn [negb]. reflexivity. }
    rewrite suml_scal.
    replace (prodl (fun m => x - P m) l) with (1 * prodl (fun m => x - P m) l) by ring.
    apply (derivable_pt_lim_mult (fun x => x - P a) (fun x => prodl (fun j => x - P j) l)).
    + replace 1 with (1 - 0) by ring. apply derivable_pt_lim_minus; [apply derivable_pt_lim_id|apply derivable_pt_lim_const].
    + apply IH. exact ND'.
Qed.

Lemma derive_lag n P i x : derivable_pt_lim (lag n P i) x (dlag n P i x).
Proof.
  unfold lag, dlag, Rdiv.
  set (d := / _).
  replace (suml _ _ * d) with
    (suml (fun j => prodl (fun m => x - P m) (filter (fun m => negb (m =? j)%nat) (others n i))) (others n i) * d
     + prodl (fun j => x - P j) (others n i) * 0) by ring.
  apply (derivable_pt_lim_mult (fun x => prodl (fun j => x - P j) (others n i)) (fun _ => d)).
  - apply derive_prodl, NoDup_others.
  - apply derivable_pt_lim_const.
Qed.

Lemma derive_sumn n (f : nat -> R -> R) (g : nat -> R) x :
  (forall i, (i < n)%nat -> derivable_pt_lim (f i) x (g i)) ->
  derivable_pt_lim (fun x => sumn n (fun i => f i x)) x (sumn n g).
Proof.
  induction n as [|n IH]; intros H; cbn [sumn].
  - apply derivable_pt_lim_const.
  - apply (derivable_pt_lim_plus (fun x => sumn n (fun i => f i x)) (f n)).
    + apply IH. intros; apply H; lia.
    + apply H; lia.
Qed.

Lemma derive_ext f g x l : (forall y, f y = g y) -> derivable_pt_lim f x l -> derivable_pt_lim g x l.
Proof.
  intros E H eps He. destruct (H eps He) as [d Hd]. exists d. intros h Hh Hl.
  rewrite <- !E. apply Hd; assumption.
Qed.

Lemma dlag_power n P a x : distinct n P -> (a < n)%nat ->
  derivable_pt_lim (fun x => x ^ a) x (sumn n (fun i => P i ^ a * dlag n P i x)).
Proof.
  intros D Ha. apply (derive_ext (fun x => sumn n (fun i => P i ^ a * lag n P i x))).
  - intros y. apply lag_power; assumption.
  - apply (derive_sumn n (fun i x => P i ^ a * lag n P i x)). intros i Hi.
    replace (P i ^ a * dlag n P i x) with (0 * lag n P i x + P i ^ a * dlag n P i x) by ring.
    apply (derivable_pt_lim_mult (fun _ => P i ^ a)); [apply derivable_pt_lim_const|apply derive_lag].
Qed.
