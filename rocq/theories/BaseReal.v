(** Helper library over the reals: sums over index ranges and lists, min/max.
    Nothing in this file is specific to Fierro. *)
From Coq Require Export Reals List Arith Lia Lra Bool Permutation.
Export ListNotations.
Local Open Scope R_scope.

(** C's [fmin]/[fmax] on non-NaN arguments. *)
Definition fmin (x y : R) : R := Rmin x y.
Definition fmax (x y : R) : R := Rmax x y.

(** [double s = 0; for (i = 0; i < n; i++) s += f(i);] *)
Fixpoint sumn (n : nat) (f : nat -> R) : R :=
  match n with
  | O => 0
  | S k => sumn k f + f k
  end.

(** [double s = 0; for (x in l) s += f(x);] *)
Definition suml {A} (f : A -> R) (l : list A) : R :=
  fold_right (fun x s => f x + s) 0 l.

Lemma sumn_ext n f g : (forall i, (i < n)%nat -> f i = g i) -> sumn n f = sumn n g.
Proof.
  induction n as [|k IH]; cbn; intros H; [reflexivity|].
  rewrite IH by (intros; apply H; lia). now rewrite (H k) by lia.
Qed.

Lemma sumn_0 n : sumn n (fun _ => 0) = 0.
Proof. induction n as [|k IH]; cbn; [reflexivity|rewrite IH; lra]. Qed.

Lemma sumn_const n c : sumn n (fun _ => c) = INR n * c.
Proof. induction n as [|k IH]; [cbn; lra|]. rewrite S_INR. cbn [sumn]. rewrite IH. lra. Qed.

Lemma sumn_plus n f g : sumn n (fun i => f i + g i) = sumn n f + sumn n g.
Proof. induction n as [|k IH]; cbn; [lra|rewrite IH; lra]. Qed.

Lemma sumn_minus n f g : sumn n (fun i => f i - g i) = sumn n f - sumn n g.
Proof. induction n as [|k IH]; cbn; [lra|rewrite IH; lra]. Qed.

Lemma sumn_scal n c f : sumn n (fun i => c * f i) = c * sumn n f.
Proof. induction n as [|k IH]; cbn; [lra|rewrite IH; lra]. Qed.

Lemma sumn_scal_r n c f : sumn n (fun i => f i * c) = sumn n f * c.
Proof. induction n as [|k IH]; cbn; [lra|rewrite IH; lra]. Qed.

Lemma sumn_exchange n m f :
  sumn n (fun i => sumn m (fun j => f i j)) = sumn m (fun j => sumn n (fun i => f i j)).
Proof.
  induction n as [|k IH]; cbn.
  - now rewrite sumn_0.
  - now rewrite IH, <- sumn_plus.
Qed.

Lemma sumn_nonneg n f : (forall i, (i < n)%nat -> 0 <= f i) -> 0 <= sumn n f.
Proof.
  induction n as [|k IH]; cbn; intros H; [lra|].
  assert (0 <= sumn k f) by (apply IH; intros; apply H; lia).
  assert (0 <= f k) by (apply H; lia). lra.
Qed.

Lemma sumn_le n f g : (forall i, (i < n)%nat -> f i <= g i) -> sumn n f <= sumn n g.
Proof.
  induction n as [|k IH]; cbn; intros H; [lra|].
  assert (sumn k f <= sumn k g) by (apply IH; intros; apply H; lia).
  assert (f k <= g k) by (apply H; lia). lra.
Qed.

Lemma sumn_split n m f : sumn (n + m) f = sumn n f + sumn m (fun i => f (n + i)%nat).
Proof.
  induction m as [|k IH]; cbn.
  - rewrite Nat.add_0_r; lra.
  - rewrite Nat.add_succ_r; cbn. rewrite IH; lra.
Qed.

(** Sum of one singled-out index. *)
Lemma sumn_delta n k c : (k < n)%nat -> sumn n (fun i => if Nat.eqb i k then c else 0) = c.
Proof.
  induction n as [|m IH]; intros H; [lia|]. cbn.
  destruct (Nat.eqb_spec m k) as [->|Hne].
  - rewrite (sumn_ext k _ (fun _ => 0)).
    + rewrite sumn_0; lra.
    + intros i Hi. destruct (Nat.eqb_spec i k); [exfalso; lia|reflexivity].
  - rewrite IH by lia. lra.
Qed.

Lemma sumn_delta_out n k c : (n <= k)%nat -> sumn n (fun i => if Nat.eqb i k then c else 0) = 0.
Proof.
  intros H. rewrite (sumn_ext _ _ (fun _ => 0)); [apply sumn_0|].
  intros i Hi. destruct (Nat.eqb_spec i k); [exfalso; lia|reflexivity].
Qed.

Lemma suml_cons {A} (f : A -> R) x l : suml f (x :: l) = f x + suml f l.
Proof. reflexivity. Qed.

Lemma suml_app {A} (f : A -> R) l1 l2 : suml f (l1 ++ l2) = suml f l1 + suml f l2.
Proof.
  induction l1 as [|x l IH]; [change (suml f []) with 0; rewrite app_nil_l; lra|].
  rewrite <- app_comm_cons, !suml_cons, IH. lra.
Qed.

Lemma suml_ext {A} (f g : A -> R) l : (forall x, In x l -> f x = g x) -> suml f l = suml g l.
Proof.
  induction l as [|x l IH]; intros H; [reflexivity|].
  rewrite !suml_cons, (H x), IH; [reflexivity| |left; reflexivity].
  intros; apply H; right; assumption.
Qed.

Lemma suml_0 {A} (l : list A) : suml (fun _ => 0) l = 0.
Proof. induction l as [|x l IH]; [reflexivity|]. rewrite suml_cons, IH; lra. Qed.

Lemma suml_plus {A} (f g : A -> R) l : suml (fun x => f x + g x) l = suml f l + suml g l.
Proof. induction l as [|x l IH]; [cbn; lra|]. rewrite !suml_cons, IH; lra. Qed.

Lemma suml_minus {A} (f g : A -> R) l : suml (fun x => f x - g x) l = suml f l - suml g l.
Proof. induction l as [|x l IH]; [cbn; lra|]. rewrite !suml_cons, IH; lra. Qed.

Lemma suml_scal {A} c (f : A -> R) l : suml (fun x => c * f x) l = c * suml f l.
Proof. induction l as [|x l IH]; [cbn; lra|]. rewrite !suml_cons, IH; lra. Qed.

Lemma suml_nonneg {A} (f : A -> R) l : (forall x, In x l -> 0 <= f x) -> 0 <= suml f l.
Proof.
  induction l as [|x l IH]; intros H; [cbn; lra|]. rewrite suml_cons.
  assert (0 <= f x) by (apply H; left; reflexivity).
  assert (0 <= suml f l) by (apply IH; intros; apply H; right; assumption). lra.
Qed.

Lemma suml_le {A} (f g : A -> R) l : (forall x, In x l -> f x <= g x) -> suml f l <= suml g l.
Proof.
  induction l as [|x l IH]; intros H; [cbn; lra|]. rewrite !suml_cons.
  assert (f x <= g x) by (apply H; left; reflexivity).
  assert (suml f l <= suml g l) by (apply IH; intros; apply H; right; assumption). lra.
Qed.

Lemma suml_perm {A} (f : A -> R) l1 l2 : Permutation l1 l2 -> suml f l1 = suml f l2.
Proof.
  induction 1; rewrite ?suml_cons; lra.
Qed.

Lemma suml_map {A B} (f : B -> R) (g : A -> B) l : suml f (map g l) = suml (fun x => f (g x)) l.
Proof. induction l as [|x l IH]; [reflexivity|]. cbn [map]. now rewrite !suml_cons, IH. Qed.

Lemma suml_concat {A} (f : A -> R) (ll : list (list A)) :
  suml f (concat ll) = suml (fun l => suml f l) ll.
Proof. induction ll as [|l ll IH]; [reflexivity|]. cbn [concat]. now rewrite suml_app, suml_cons, IH. Qed.

Lemma suml_seq n f : suml f (seq 0 n) = sumn n f.
Proof.
  induction n as [|k IH]; [reflexivity|].
  rewrite seq_S, suml_app, IH. cbn. lra.
Qed.

Lemma suml_exchange {A B} (f : A -> B -> R) la lb :
  suml (fun a => suml (fun b => f a b) lb) la = suml (fun b => suml (fun a => f a b) la) lb.
Proof.
  induction la as [|a la IH].
  - cbn. now rewrite suml_0.
  - rewrite suml_cons, IH. rewrite <- suml_plus. reflexivity.
Qed.

(** A left fold of additions, as C accumulates, is the sum. *)
Lemma fold_left_suml {A} (f : A -> R) l s :
  fold_left (fun acc x => acc + f x) l s = s + suml f l.
Proof.
  revert s; induction l as [|x l IH]; intros s; cbn [fold_left].
  - cbn; lra.
  - rewrite IH, suml_cons; lra.
Qed.

(** Left fold of [fmin]. *)
Definition minl (l : list R) (d : R) : R := fold_left (fun m x => fmin x m) l d.

Lemma minl_le_init l d : minl l d <= d.
Proof.
  unfold minl. revert d; induction l as [|x l IH]; intros d; cbn [fold_left]; [lra|].
  eapply Rle_trans; [apply IH|]. unfold fmin. apply Rmin_r.
Qed.

Lemma minl_le_in l d x : In x l -> minl l d <= x.
Proof.
  unfold minl. revert d; induction l as [|y l IH]; intros d Hin; [destruct Hin|].
  cbn [fold_left]. destruct Hin as [->|Hin].
  - eapply Rle_trans; [apply minl_le_init|]. unfold fmin. apply Rmin_l.
  - apply IH; assumption.
Qed.

Lemma minl_in l d : minl l d = d \/ In (minl l d) l.
Proof.
  unfold minl. revert d; induction l as [|x l IH]; intros d; cbn [fold_left]; [left; reflexivity|].
  destruct (IH (fmin x d)) as [H|H].
  - rewrite H. unfold fmin, Rmin. destruct (Rle_dec x d); [right; left; reflexivity|left; reflexivity].
  - right; right; exact H.
Qed.

Lemma minl_glb l d c : c <= d -> (forall x, In x l -> c <= x) -> c <= minl l d.
Proof.
  intros Hd Hl. destruct (minl_in l d) as [->|H]; [assumption|]. now apply Hl.
Qed.
