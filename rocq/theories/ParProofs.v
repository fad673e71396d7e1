(** Proofs about parallel loops. *)
From Coq Require Import Reals Lra Permutation FunctionalExtensionality.
From Verif Require Import BaseReal BaseArr GeomModel SghModel SghSpec TimeModel ParModel ParSpec.
Local Open Scope R_scope.

Section Machine.
Context {L : Type} (eq_dec : forall x y : L, {x = y} + {x <> y}).
Notation events := (events eq_dec).
Notation store := (store eq_dec).
Notation step := (step eq_dec).
Notation exec := (exec eq_dec).
Notation solo := (solo eq_dec).
Notation serial := (serial eq_dec).
Notation race_free := (race_free eq_dec).

Lemma store_eq m x v : store m x v x = v.
Proof. unfold ParModel.store. destruct (eq_dec x x); congruence. Qed.
Lemma store_neq (m : L -> R) x v y : y <> x -> store m x v y = m y.
Proof. unfold ParModel.store. destruct (eq_dec y x); congruence. Qed.

(** ** Termination *)

Inductive next : prog L -> prog L -> Prop :=
| next_rd x k v : next (k v) (Rd x k)
| next_wr x v p : next p (Wr x v p).
Inductive nexts : list (prog L) -> list (prog L) -> Prop :=
| nexts_at before p' p after : next p' p -> nexts (before ++ p' :: after) (before ++ p :: after).

Lemma next_acc p : Acc next p.
Proof.
  induction p as [|x k IH|x v p IH]; constructor; intros q H; inversion H; subst.
  - apply IH.
  - exact IH.
Qed.

Lemma nexts_nil a : ~ nexts a [].
Proof. intros H. inversion H as [b p' p af Hn E1 E]. destruct b; discriminate. Qed.

Lemma nexts_acc ps : Acc nexts ps.
Proof.
  induction ps as [|p ps IH]; [constructor; intros a H; now apply nexts_nil in H|].
  revert ps IH. induction (next_acc p) as [p _ IHp]. intros ps A. induction A as [ps Aps IHps].
  constructor. intros a H. remember (p :: ps) as b eqn:E. destruct H as [before q' q after Hn].
  destruct before as [|b0 before]; cbn [app] in *; injection E as -> <-.
  - apply IHp; [exact Hn|]. constructor. exact Aps.
  - apply IHps. now constructor.
Qed.

Lemma step_nexts a b : step a b -> nexts (fst b) (fst a).
Proof.
  intros [before p after m p' m' H]. cbn [fst]. constructor. destruct p as [|x k|x v p]; cbn in H; [discriminate| |]; injection H as <- _; constructor.
Qed.

Lemma ends ps m : Acc (fun a b => step b a) (ps, m).
Proof.
  cut (forall a, fst a = ps -> Acc (fun a b => step b a) a); [intros H; now apply H|].
  induction (nexts_acc ps) as [ps _ IH]. intros a <-. constructor. intros b Hb. eapply IH; [|reflexivity]. now apply step_nexts.
Qed.

(** ** A serial execution *)

Lemma exec_solo before p ps m e : exec (before ++ Done :: ps) (solo p m) e -> exec (before ++ p :: ps) m e.
Proof.
  revert m. induction p as [|x k IH|x v p IH]; intros m H.
  - exact H.
  - eapply exec_step; [apply step_thread with (p' := k (m x)) (m' := m); reflexivity|]. apply IH. exact H.
  - eapply exec_step; [apply step_thread with (p' := p) (m' := store m x v); reflexivity|]. apply IH. exact H.
Qed.

Lemma exec_serial_from ps : forall before m, Forall (eq Done) before -> exec (before ++ ps) m (serial ps m).
Proof.
  induction ps as [|p ps IH]; intros before m H.
  - rewrite app_nil_r. now constructor.
  - apply exec_solo. unfold serial. cbn [fold_left]. fold (serial ps (solo p m)).
    replace (before ++ Done :: ps) with ((before ++ [Done]) ++ ps) by now rewrite <- app_assoc.
    apply IH. apply Forall_app. split; [exact H|]. now repeat constructor.
Qed.
Lemma exec_serial ps m : exec ps m (serial ps m).
Proof. apply (exec_serial_from ps [] m). constructor. Qed.

(** ** Race freedom *)

(** a thread that has run alone from [(p, m)] to [(q, n)], with what it has written so far *)
Inductive reached : prog L -> (L -> R) -> prog L -> (L -> R) -> list (L * R) -> Prop :=
| reached_here p m : reached p m p m []
| reached_rd x k m q n w : reached (k (m x)) m q n w -> reached (Rd x k) m q n w
| reached_wr x v p m q n w : reached p (store m x v) q n w -> reached (Wr x v p) m q n ((x, v) :: w).

Lemma reached_events p m q n w : reached p m q n w -> forall e, In e (events q n) -> In e (events p m).
Proof. induction 1; intros e H1; [exact H1|right; auto|right; auto]. Qed.
Lemma reached_writes p m q n w : reached p m q n w -> forall x v, In (x, v) w -> In (Writes x v) (events p m).
Proof.
  induction 1 as [|x0 k m q n w _ IH|x v p m q n w _ IH]; intros y u H1; [destruct H1|right; auto|].
  destruct H1 as [E|H1]; [injection E as -> ->; left; reflexivity|right; auto].
Qed.
Lemma reached_solo p m q n w : reached p m q n w -> solo p m = solo q n.
Proof. induction 1; cbn; auto. Qed.
Lemma reached_local p m q n w : reached p m q n w -> forall x, ~ (exists v, In (x, v) w) -> n x = m x.
Proof.
  induction 1 as [|x0 k m q n w _ IH|y v p m q n w _ IH]; intros x H1; [reflexivity|auto|].
  rewrite IH; [apply store_neq|].
  - intros ->. apply H1. exists v. now left.
  - intros [u Hu]. apply H1. exists u. now right.
Qed.
Lemma reached_value p m q n w : reached p m q n w -> forall x, (exists v, In (x, v) w) -> exists v, In (x, v) w /\ n x = v.
Proof.
  induction 1 as [| x0 k m q n w _ IH |y v p m q n w H IH]; intros x H1; [destruct H1 as [? []]|auto|].
  destruct (in_dec eq_dec x (map fst w)) as [I|I].
  - apply in_map_iff in I as [[a b] [E I]]. cbn in E. subst a. destruct (IH x (ex_intro _ b I)) as (u & Hu & E).
    exists u. split; [now right|exact E].
  - assert (~ exists u, In (x, u) w) as N. { intros [u Hu]. apply I. apply in_map_iff. exists (x, u). auto. }
    destruct H1 as [u [E|Hu]]; [|exfalso; apply N; eauto]. injection E as -> ->.
    exists u. split; [now left|]. rewrite (reached_local _ _ _ _ _ H x N). apply store_eq.
Qed.
Lemma reached_step_rd p m x k n w : reached p m (Rd x k) n w -> reached p m (k (n x)) n w.
Proof.
  remember (Rd x k) as q eqn:E. induction 1; subst; [constructor; constructor|constructor; auto|constructor; auto].
Qed.
Lemma reached_step_wr p m x v q n w : reached p m (Wr x v q) n w -> reached p m q (store n x v) (w ++ [(x, v)]).
Proof.
  remember (Wr x v q) as q0 eqn:E. induction 1; subst; cbn [app]; [constructor; constructor|constructor; auto|constructor; auto].
Qed.

(** The invariant: every thread has the state of a run alone, and the memory holds what was written. *)
Record inv (ps : list (prog L)) (m0 : L -> R) (qs : list (prog L)) (m : L -> R) (ns : list (L -> R)) (ws : list (list (L * R))) : Prop := mk_inv {
  inv_thread : forall i p, nth_error ps i = Some p -> exists q n w,
    nth_error qs i = Some q /\ nth_error ns i = Some n /\ nth_error ws i = Some w /\ reached p m0 q n w;
  inv_qs : length qs = length ps; inv_ns : length ns = length ps; inv_ws : length ws = length ps;
  inv_written : forall i n w x v, nth_error ns i = Some n -> nth_error ws i = Some w -> In (x, v) w -> m x = n x;
  inv_rest : forall x, (forall i w v, nth_error ws i = Some w -> ~ In (x, v) w) -> m x = m0 x
}.

Lemma inv_start ps m0 : inv ps m0 ps m0 (map (fun _ => m0) ps) (map (fun _ => []) ps).
Proof.
  constructor; rewrite ?map_length; auto.
  - intros i p H. exists p, m0, []. rewrite !nth_error_map, H. repeat split. constructor.
  - intros i n w x v _ H. rewrite nth_error_map in H. destruct (nth_error ps i); [|discriminate]. injection H as <-. intros [].
Qed.

Lemma nth_mid {A} (a b : list A) x : nth_error (a ++ x :: b) (length a) = Some x.
Proof. rewrite nth_error_app2 by lia. now rewrite Nat.sub_diag. Qed.
Lemma nth_mid_other {A} (a b : list A) x y i : i <> length a -> nth_error (a ++ x :: b) i = nth_error (a ++ y :: b) i.
Proof.
  intros H. destruct (Nat.lt_ge_cases i (length a)) as [H1|H1].
  - now rewrite !nth_error_app1.
  - rewrite !nth_error_app2 by lia. destruct (i - length a)%nat eqn:E; [lia|reflexivity].
Qed.
Lemma split_at {A} (l : list A) i x : nth_error l i = Some x -> exists a b, l = a ++ x :: b /\ length a = i.
Proof. apply nth_error_split. Qed.

Lemma some_written (ws : list (list (L * R))) x :
  (exists i w v, nth_error ws i = Some w /\ In (x, v) w) \/ (forall i w v, nth_error ws i = Some w -> ~ In (x, v) w).
Proof.
  destruct (in_dec eq_dec x (map fst (concat ws))) as [I|I].
  - left. apply in_map_iff in I as [[a b] [E I]]. cbn in E. subst a. apply in_concat in I as (w & Hw & Hb).
    apply In_nth_error in Hw as [i Hi]. eauto.
  - right. intros i w v Hi Hv. apply I. apply in_map_iff. exists (x, v). split; [reflexivity|]. apply in_concat. exists w. split; [|exact Hv].
    now apply nth_error_In in Hi.
Qed.

Lemma inv_step ps m0 qs m ns ws qs' m' : race_free ps m0 -> inv ps m0 qs m ns ws -> step (qs, m) (qs', m') ->
  exists ns' ws', inv ps m0 qs' m' ns' ws'.
Proof.
  intros RF [It Lq Ln Lw Iw Ir] H. inversion H as [before q after m1 q' m2 Ha E1 E2]; subst.
  set (i := length before).
  assert (Hi : (i < length ps)%nat). { rewrite <- Lq, app_length. cbn. unfold i. lia. }
  destruct (nth_error ps i) as [p|] eqn:Ep; [|apply nth_error_None in Ep; lia].
  destruct (It i p Ep) as (q0 & n & w & Eq & En & Ew & Hr).
  unfold i in Eq. rewrite nth_mid in Eq. injection Eq as <-. fold i in En, Ew.
  destruct q as [|x k|x v q2]; cbn in Ha; [discriminate| |]; injection Ha as <- <-.
  - (* a read *)
    assert (Ex : m x = n x).
    { destruct (some_written ws x) as [(j & wj & v & Hj & Hv)|N].
      - destruct (Nat.eq_dec j i) as [->|Hji].
        + rewrite Ew in Hj. injection Hj as <-. eapply Iw; eauto.
        + exfalso. assert (Hjl : (j < length ps)%nat) by (rewrite <- Lw; apply nth_error_Some; congruence).
          destruct (nth_error ps j) as [pj|] eqn:Epj; [|apply nth_error_None in Epj; lia].
          destruct (It j pj Epj) as (qj & nj & wj' & _ & _ & Ewj & Hrj). rewrite Hj in Ewj. injection Ewj as <-.
          destruct (RF j i pj p x v Hji Epj Ep (reached_writes _ _ _ _ _ Hrj x v Hv)) as [NR _].
          apply NR. apply (reached_events _ _ _ _ _ Hr). left. reflexivity.
      - rewrite (Ir x N). symmetry. apply (reached_local _ _ _ _ _ Hr). intros [v Hv]. exact (N i w v Ew Hv). }
    exists ns, ws. constructor; auto.
    + intros j pj Epj. destruct (Nat.eq_dec j i) as [->|Hji].
      * rewrite Ep in Epj. injection Epj as <-. exists (k (n x)), n, w. unfold i at 1. rewrite nth_mid. rewrite Ex.
        repeat split; auto. now apply reached_step_rd.
      * destruct (It j pj Epj) as (qj & nj & wj & Eqj & Enj & Ewj & Hrj). exists qj, nj, wj. repeat split; auto.
        rewrite <- Eqj. now apply nth_mid_other.
    + rewrite <- Lq, !app_length. reflexivity.
  - (* a write *)
    destruct (split_at _ _ _ En) as (na & nb & -> & Lna). destruct (split_at _ _ _ Ew) as (wa & wb & -> & Lwa).
    exists (na ++ store n x v :: nb), (wa ++ (w ++ [(x, v)]) :: wb). constructor.
    + intros j pj Epj. destruct (Nat.eq_dec j i) as [->|Hji].
      * rewrite Ep in Epj. injection Epj as <-. exists q2, (store n x v), (w ++ [(x, v)]). unfold i at 1. rewrite nth_mid.
        rewrite <- Lna at 1. rewrite nth_mid. rewrite <- Lwa. rewrite nth_mid. repeat split; auto. now apply reached_step_wr.
      * destruct (It j pj Epj) as (qj & nj & wj & Eqj & Enj & Ewj & Hrj). exists qj, nj, wj. repeat split; auto.
        -- rewrite <- Eqj. now apply nth_mid_other.
        -- rewrite <- Enj. apply nth_mid_other. congruence.
        -- rewrite <- Ewj. apply nth_mid_other. congruence.
    + rewrite <- Lq, !app_length. reflexivity.
    + rewrite <- Ln, !app_length. reflexivity.
    + rewrite <- Lw, !app_length. reflexivity.
    + intros j nj wj y u Hnj Hwj Hy. destruct (Nat.eq_dec j i) as [->|Hji].
      * rewrite <- Lna in Hnj at 1. rewrite nth_mid in Hnj. injection Hnj as <-. rewrite <- Lwa in Hwj. rewrite nth_mid in Hwj. injection Hwj as <-.
        destruct (eq_dec y x) as [->|Hyx]; [now rewrite !store_eq|]. rewrite !store_neq by assumption.
        apply in_app_or in Hy as [Hy|[E|[]]]; [|congruence]. eapply Iw; eauto.
      * rewrite (nth_mid_other na nb _ n j) in Hnj by congruence. rewrite (nth_mid_other wa wb _ w j) in Hwj by congruence.
        destruct (eq_dec y x) as [->|Hyx]; [|rewrite store_neq by assumption; eapply Iw; eauto].
        rewrite store_eq.
        assert (Hjl : (j < length ps)%nat) by (rewrite <- Lw; apply nth_error_Some; congruence).
        destruct (nth_error ps j) as [pj|] eqn:Epj; [|apply nth_error_None in Epj; lia].
        destruct (It j pj Epj) as (qj & nj' & wj' & _ & Enj & Ewj & Hrj). rewrite Hwj in Ewj. injection Ewj as <-. rewrite Hnj in Enj. injection Enj as <-.
        destruct (reached_value _ _ _ _ _ Hrj x (ex_intro _ u Hy)) as (u' & Hu' & ->).
        symmetry. assert (Hv : In (Writes x v) (events p m0)) by (apply (reached_events _ _ _ _ _ Hr); left; reflexivity).
        destruct (RF i j p pj x v (not_eq_sym Hji) Ep Epj Hv) as [_ S]. apply S. apply (reached_writes _ _ _ _ _ Hrj x u' Hu').
    + intros y N. assert (Hyx : y <> x).
      { intros ->. apply (N i (w ++ [(x, v)]) v); [rewrite <- Lwa; apply nth_mid|]. apply in_or_app. right. now left. }
      rewrite store_neq by assumption. apply Ir. intros j wj u Hj Hu. destruct (Nat.eq_dec j i) as [->|Hji].
      * rewrite <- Lwa in Hj. rewrite nth_mid in Hj. injection Hj as <-. apply (N i (w ++ [(x, v)]) u); [rewrite <- Lwa; apply nth_mid|].
        apply in_or_app. now left.
      * apply (N j wj u); [|exact Hu]. rewrite <- Hj. apply nth_mid_other. congruence.
Qed.

(** the final memory, written with runs of single iterations *)
Definition final (ps : list (prog L)) (m0 e : L -> R) : Prop :=
  (forall i p x v, nth_error ps i = Some p -> In (Writes x v) (events p m0) -> e x = solo p m0 x) /\
  (forall x, (forall i p v, nth_error ps i = Some p -> ~ In (Writes x v) (events p m0)) -> e x = m0 x).

Lemma reached_all p m n w : reached p m Done n w -> forall x v, In (Writes x v) (events p m) <-> In (x, v) w.
Proof.
  remember Done as q eqn:E. induction 1 as [|y k m q n w _ IH|y u p m q n w _ IH]; intros x v; subst; cbn [ParSpec.events].
  - cbn. tauto.
  - cbn [In]. rewrite <- (IH eq_refl x v). split; [intros [H|H]; [discriminate|exact H]|auto].
  - cbn [In]. rewrite <- (IH eq_refl x v). split; (intros [H|H]; [left; congruence|now right]).
Qed.

Lemma exec_final_from ps m0 qs m e : race_free ps m0 -> exec qs m e -> forall ns ws, inv ps m0 qs m ns ws -> final ps m0 e.
Proof.
  intros RF. induction 1 as [qs m F|qs m qs' m' e S _ IH]; intros ns ws I.
  - destruct I as [It Lq Ln Lw Iw Ir]. assert (D : forall i p, nth_error ps i = Some p -> exists n w,
      nth_error ns i = Some n /\ nth_error ws i = Some w /\ reached p m0 Done n w).
    { intros i p Hp. destruct (It i p Hp) as (q & n & w & Hq & Hn & Hw & Hr). exists n, w.
      assert (Done = q) as ->. { eapply Forall_forall; [exact F|]. now apply nth_error_In in Hq. } auto. }
    split.
    + intros i p x v Hp Hx. destruct (D i p Hp) as (n & w & Hn & Hw & Hr).
      rewrite (reached_solo _ _ _ _ _ Hr). cbn [ParModel.solo]. apply (Iw i n w x v Hn Hw). apply (reached_all _ _ _ _ Hr x v). exact Hx.
    + intros x N. apply Ir. intros i w v Hw Hv. assert (Hi : (i < length ps)%nat) by (rewrite <- Lw; apply nth_error_Some; congruence).
      destruct (nth_error ps i) as [p|] eqn:Ep; [|apply nth_error_None in Ep; lia].
      destruct (D i p Ep) as (n & w' & _ & Hw' & Hr). rewrite Hw in Hw'. injection Hw' as <-.
      apply (N i p v Ep). now apply (reached_all _ _ _ _ Hr).
  - destruct (inv_step ps m0 qs m ns ws qs' m' RF I S) as (ns' & ws' & I'). eapply IH; eauto.
Qed.
Lemma exec_final ps m e : race_free ps m -> exec ps m e -> final ps m e.
Proof. intros RF E. eapply exec_final_from; eauto. apply inv_start. Qed.

Lemma events_dec p m x : (exists v, In (Writes x v) (events p m)) \/ (forall v, ~ In (Writes x v) (events p m)).
Proof.
  revert m. induction p as [|y k IH|y u p IH]; intros m; cbn [ParSpec.events].
  - right. intros v [].
  - destruct (IH (m y) m) as [[v H]|H]; [left; exists v; now right|]. right. intros v [E|E]; [discriminate|now apply (H v)].
  - destruct (eq_dec y x) as [->|N]; [left; exists u; now left|].
    destruct (IH (store m y u)) as [[v H]|H]; [left; exists v; now right|]. right. intros v [E|E]; [congruence|now apply (H v)].
Qed.

Lemma final_unique ps m e e' : final ps m e -> final ps m e' -> forall x, e x = e' x.
Proof.
  intros [W R0] [W' R0'] x.
  assert (D : (exists i p v, nth_error ps i = Some p /\ In (Writes x v) (events p m)) \/
              (forall i p v, nth_error ps i = Some p -> ~ In (Writes x v) (events p m))).
  { clear. induction ps as [|p ps [(i & q & v & H1 & H2)|H]].
    - right. intros i p v H. destruct i; discriminate.
    - left. exists (S i), q, v. auto.
    - destruct (events_dec p m x) as [[v Hv]|N]; [left; exists O, p, v; auto|]. right. intros [|i] q v Hq; [injection Hq as <-; apply N|eauto]. }
  destruct D as [(i & p & v & Hp & Hv)|N]; [rewrite (W i p x v Hp Hv), (W' i p x v Hp Hv)|rewrite (R0 x N), (R0' x N)]; reflexivity.
Qed.

Lemma race_free_ends ps m : race_free ps m -> always_ends_in eq_dec ps m (serial ps m).
Proof.
  intros RF. split; [apply ends|]. split; [exists (serial ps m); apply exec_serial|].
  intros e He. apply (final_unique ps m); apply exec_final; auto. apply exec_serial.
Qed.

Lemma always_ext ps m e e' : (forall x, e x = e' x) -> always_ends_in eq_dec ps m e -> always_ends_in eq_dec ps m e'.
Proof. intros E (A & X & U). split; [exact A|]. split; [exact X|]. intros f Hf x. rewrite (U f Hf x). apply E. Qed.
End Machine.
