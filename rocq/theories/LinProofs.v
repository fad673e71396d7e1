From Coq Require Import Reals List Arith Lia Lra Bool ZArith.
From Verif Require Import BaseReal LinModel LinSpec.
Import ListNotations.
Local Open Scope R_scope.

Lemma upd_same m k v : upd m k v k = v.
Proof. unfold upd. rewrite Nat.eqb_refl. reflexivity. Qed.
Lemma upd_other m k v q : q <> k -> upd m k v q = m q.
Proof. unfold upd. intros H. destruct (Nat.eqb_spec q k); congruence. Qed.

Lemma loop_S {S} n (body : nat -> S -> S) s : loop (Datatypes.S n) body s = body n (loop n body s).
Proof. unfold loop. rewrite seq_S, fold_left_app. reflexivity. Qed.
Lemma loop_0 {S} (body : nat -> S -> S) s : loop 0 body s = s.
Proof. reflexivity. Qed.

Lemma idx_inj n i j i' j' : (j < n)%nat -> (j' < n)%nat -> (i * n + j)%nat = (i' * n + j')%nat -> i = i' /\ j = j'.
Proof.
  intros J J' E. assert (i = i') by (destruct (Nat.lt_trichotomy i i') as [H|[H|H]]; [exfalso; nia|exact H|exfalso; nia]).
  subst. split; [reflexivity|nia].
Qed.

(* A loop over one row. *)
Lemma row_loop n row (f : nat -> mem -> R) m :
  (forall i m m', (i < n)%nat -> (forall q, (forall j, (j < i)%nat -> q <> row * n + j)%nat -> m q = m' q) -> f i m = f i m') ->
  forall q, loop n (fun i m => upd m (row * n + i) (f i m)) m q =
    (if ((row * n <=? q) && (q <? row * n + n))%bool then f (q - row * n)%nat m else m q).
Proof.
  intros F.
  assert (X : forall k, (k <= n)%nat -> forall q, loop k (fun i m => upd m (row * n + i) (f i m)) m q =
    (if ((row * n <=? q) && (q <? row * n + k))%bool then f (q - row * n)%nat m else m q)).
  { induction k as [|k IH]; intros K q.
    - rewrite loop_0. destruct (Nat.leb_spec (row * n) q), (Nat.ltb_spec q (row * n + 0)); cbn [andb]; try reflexivity; lia.
    - rewrite loop_S. unfold upd at 1. destruct (Nat.eqb_spec q (row * n + k)) as [->|NE].
      + rewrite (proj2 (Nat.leb_le _ _)), (proj2 (Nat.ltb_lt _ _)) by lia. cbn [andb].
        replace (row * n + k - row * n)%nat with k by lia. apply F; [lia|]. intros q Q. rewrite IH by lia.
        destruct (Nat.leb_spec (row * n) q), (Nat.ltb_spec q (row * n + k)); cbn [andb]; try reflexivity.
        exfalso. apply (Q (q - row * n)%nat); lia.
      + rewrite IH by lia. destruct (Nat.leb_spec (row * n) q), (Nat.ltb_spec q (row * n + k)), (Nat.ltb_spec q (row * n + S k)); cbn [andb]; try reflexivity; lia. }
  intros q. apply X. lia.
Qed.

Lemma in_row n row i j : (j < n)%nat -> (((row * n <=? i * n + j) && (i * n + j <? row * n + n))%bool = Nat.eqb i row).
Proof.
  intros J. destruct (Nat.eqb_spec i row) as [->|NE].
  - rewrite (proj2 (Nat.leb_le _ _)), (proj2 (Nat.ltb_lt _ _)) by lia. reflexivity.
  - destruct (Nat.leb_spec (row * n) (i * n + j)), (Nat.ltb_spec (i * n + j) (row * n + n)); cbn [andb]; try reflexivity. exfalso. nia.
Qed.

Lemma scale_row_at m row c n i j : (j < n)%nat ->
  scale_row m row c n (i * n + j)%nat = if Nat.eqb i row then m (i * n + j)%nat * c else m (i * n + j)%nat.
Proof.
  intros J. unfold scale_row. rewrite (row_loop n row (fun i m => m (row * n + i)%nat * c)).
  - rewrite in_row by exact J. destruct (Nat.eqb_spec i row) as [->|]; [|reflexivity]. do 2 f_equal. lia.
  - intros k a b K E. rewrite (E (row * n + k)%nat); [reflexivity|]. intros; lia.
Qed.

Lemma add_rows_at m src dst c n i j : (j < n)%nat -> src <> dst ->
  add_rows m src dst c n (i * n + j)%nat = if Nat.eqb i dst then m (i * n + j)%nat + m (src * n + j)%nat * c else m (i * n + j)%nat.
Proof.
  intros J NE. unfold add_rows. rewrite (row_loop n dst (fun i m => m (dst * n + i)%nat + m (src * n + i)%nat * c)).
  - rewrite in_row by exact J. destruct (Nat.eqb_spec i dst) as [->|]; [|reflexivity]. replace (dst * n + j - dst * n)%nat with j by lia. reflexivity.
  - intros k a b K E. rewrite (E (dst * n + k)%nat), (E (src * n + k)%nat); [reflexivity| |]; intros q Q H.
    + assert (src = dst /\ k = q) by (apply (idx_inj n); lia). lia.
    + assert (X : dst = dst /\ k = q) by (apply (idx_inj n); lia). lia.
Qed.

(* A loop over all entries. *)
Lemma grid_loop n (v : nat -> nat -> R) m i j : (i < n)%nat -> (j < n)%nat ->
  loop n (fun i m => loop n (fun j m => upd m (i * n + j) (v i j)) m) m (i * n + j)%nat = v i j.
Proof.
  intros I J.
  assert (X : forall k, (i < k)%nat -> (k <= n)%nat -> loop k (fun i m => loop n (fun j m => upd m (i * n + j) (v i j)) m) m (i * n + j)%nat = v i j).
  { induction k as [|k IH]; intros IK KN; [lia|]. rewrite loop_S. rewrite (row_loop n k (fun j _ => v k j)) by reflexivity.
    rewrite in_row by exact J. destruct (Nat.eqb_spec i k) as [->|NE]; [f_equal; lia|]. apply IH; lia. }
  apply X; lia.
Qed.

(* ---------- Gauss-Jordan ---------- *)

(* What stays true: E A = M, F M = A and F E = 1 for some F. *)
Record related (n : nat) (A M E : nat -> nat -> R) : Prop := mkRel {
  rel_EA : forall i j, (i < n)%nat -> (j < n)%nat -> sumn n (fun k => E i k * A k j) = M i j;
  rel_F : exists F : nat -> nat -> R, (forall i j, (i < n)%nat -> (j < n)%nat -> sumn n (fun k => F i k * M k j) = A i j) /\
                                      (forall i j, (i < n)%nat -> (j < n)%nat -> sumn n (fun k => F i k * E k j) = delta i j) }.

Definition as_mat (n : nat) (m : mem) : nat -> nat -> R := fun i j => m (i * n + j)%nat.

Lemma sumn_pick n r (f : nat -> R) : (r < n)%nat -> sumn n (fun k => if Nat.eqb k r then f k else 0) = f r.
Proof. intros R. rewrite (sumn_ext n _ (fun k => if Nat.eqb k r then f r else 0)) by (intros k _; destruct (Nat.eqb_spec k r); subst; reflexivity). apply sumn_delta. exact R. Qed.

Lemma related_scale n A M E M' E' r c : (r < n)%nat -> c <> 0 -> related n A M E ->
  (forall i j, (i < n)%nat -> (j < n)%nat -> M' i j = if Nat.eqb i r then M i j * c else M i j) ->
  (forall i j, (i < n)%nat -> (j < n)%nat -> E' i j = if Nat.eqb i r then E i j * c else E i j) -> related n A M' E'.
Proof.
  intros R C [EA (F & FM & FE)] HM HE. split.
  - intros i j I J. rewrite (sumn_ext n _ (fun k => (if Nat.eqb i r then c else 1) * (E i k * A k j))).
    + rewrite sumn_scal, EA, HM by assumption. destruct (Nat.eqb i r); ring.
    + intros k K. rewrite HE by assumption. destruct (Nat.eqb i r); ring.
  - exists (fun i k => if Nat.eqb k r then F i k / c else F i k). split; intros i j I J.
    + rewrite (sumn_ext n _ (fun k => F i k * M k j)); [apply FM; assumption|]. intros k K. rewrite HM by assumption. destruct (Nat.eqb k r); [field; exact C|ring].
    + rewrite (sumn_ext n _ (fun k => F i k * E k j)); [apply FE; assumption|]. intros k K. rewrite HE by assumption. destruct (Nat.eqb k r); [field; exact C|ring].
Qed.

Lemma col_op n s d c (F X X' : nat -> nat -> R) i j : (s < n)%nat -> (d < n)%nat -> s <> d ->
  (forall k, (k < n)%nat -> X' k j = if Nat.eqb k d then X k j + X s j * c else X k j) ->
  sumn n (fun k => (if Nat.eqb k s then F i k - c * F i d else F i k) * X' k j) = sumn n (fun k => F i k * X k j).
Proof.
  intros S D SD H.
  rewrite (sumn_ext n _ (fun k => F i k * X k j + ((if Nat.eqb k d then F i d * (X s j * c) else 0) - (if Nat.eqb k s then c * F i d * X s j else 0)))).
  - rewrite sumn_plus, sumn_minus. rewrite (sumn_pick n d (fun _ => F i d * (X s j * c))), (sumn_pick n s (fun _ => c * F i d * X s j)) by assumption. ring.
  - intros k K. rewrite H by exact K. destruct (Nat.eqb_spec k s) as [E1|]; destruct (Nat.eqb_spec k d) as [E2|]; try rewrite E1; try rewrite E2; try ring.
    exfalso. apply SD. congruence.
Qed.

Lemma related_add n A M E M' E' s d c : (s < n)%nat -> (d < n)%nat -> s <> d -> related n A M E ->
  (forall i j, (i < n)%nat -> (j < n)%nat -> M' i j = if Nat.eqb i d then M i j + M s j * c else M i j) ->
  (forall i j, (i < n)%nat -> (j < n)%nat -> E' i j = if Nat.eqb i d then E i j + E s j * c else E i j) -> related n A M' E'.
Proof.
  intros S D SD [EA (F & FM & FE)] HM HE. split.
  - intros i j I J. destruct (Nat.eqb_spec i d) as [->|NE].
    + rewrite (sumn_ext n _ (fun k => E d k * A k j + c * (E s k * A k j))).
      * rewrite sumn_plus, sumn_scal, !EA, HM by assumption. rewrite Nat.eqb_refl. ring.
      * intros k K. rewrite HE by assumption. rewrite Nat.eqb_refl. ring.
    + rewrite (sumn_ext n _ (fun k => E i k * A k j)).
      * rewrite EA, HM by assumption. destruct (Nat.eqb_spec i d); [contradiction|reflexivity].
      * intros k K. rewrite HE by assumption. destruct (Nat.eqb_spec i d); [contradiction|ring].
  - exists (fun i k => if Nat.eqb k s then F i k - c * F i d else F i k). split; intros i j I J.
    + rewrite (col_op n s d c F M M') by (try assumption; intros; apply HM; assumption). apply FM; assumption.
    + rewrite (col_op n s d c F E E') by (try assumption; intros; apply HE; assumption). apply FE; assumption.
Qed.

(* After k pivots: columns before k of M and columns from k on of E are unit. *)
Record gj_inv (n k : nat) (A M E : nat -> nat -> R) : Prop := mkGj {
  gj_rel : related n A M E;
  gj_M : forall i j, (i < n)%nat -> (j < k)%nat -> M i j = delta i j;
  gj_E : forall i j, (i < n)%nat -> (k <= j < n)%nat -> E i j = delta i j }.

Lemma delta_eq i : delta i i = 1.
Proof. unfold delta. rewrite Nat.eqb_refl. reflexivity. Qed.
Lemma delta_ne i j : i <> j -> delta i j = 0.
Proof. unfold delta. intros H. destruct (Nat.eqb_spec i j); [contradiction|reflexivity]. Qed.

Lemma clear_inv n k A m e : (k < n)%nat ->
  related n A (as_mat n m) (as_mat n e) ->
  (forall i j, (i < n)%nat -> (j < k)%nat -> as_mat n m i j = delta i j) -> as_mat n m k k = 1 ->
  (forall i j, (i < n)%nat -> (k < j < n)%nat -> as_mat n e i j = delta i j) ->
  forall p, (p <= n)%nat ->
  let r := loop p (clear_row n k) (m, e) in
  related n A (as_mat n (fst r)) (as_mat n (snd r)) /\
  (forall i j, (i < n)%nat -> (j < k)%nat -> as_mat n (fst r) i j = delta i j) /\
  as_mat n (fst r) k k = 1 /\
  (forall i, (i < p)%nat -> as_mat n (fst r) i k = delta i k) /\
  (forall i j, (i < n)%nat -> (k < j < n)%nat -> as_mat n (snd r) i j = delta i j).
Proof.
  intros K R UM P1 UE. induction p as [|p IH]; intros PN; cbv zeta.
  - rewrite loop_0. cbn [fst snd]. repeat split; try assumption; try apply R. intros; lia.
  - rewrite loop_S. specialize (IH ltac:(lia)). cbv zeta in IH. destruct (loop p (clear_row n k) (m, e)) as [m1 e1]. unfold clear_row. cbn [fst snd] in *.
    destruct IH as (R1 & UM1 & P11 & C1 & UE1).
    destruct (Nat.eqb_spec p k) as [->|NE]; cbn [fst snd].
    + split; [exact R1|]. split; [exact UM1|]. split; [exact P11|]. split; [|exact UE1]. intros i I. destruct (Nat.eq_dec i k) as [->|]; [rewrite delta_eq; exact P11|apply C1; lia].
    + assert (HM : forall i j, (i < n)%nat -> (j < n)%nat -> as_mat n (add_rows m1 k p (- m1 (p * n + k)%nat) n) i j =
        if Nat.eqb i p then as_mat n m1 i j + as_mat n m1 k j * (- m1 (p * n + k)%nat) else as_mat n m1 i j).
      { intros i j I J. unfold as_mat. apply add_rows_at; [exact J|]. lia. }
      assert (HE : forall i j, (i < n)%nat -> (j < n)%nat -> as_mat n (add_rows e1 k p (- m1 (p * n + k)%nat) n) i j =
        if Nat.eqb i p then as_mat n e1 i j + as_mat n e1 k j * (- m1 (p * n + k)%nat) else as_mat n e1 i j).
      { intros i j I J. unfold as_mat. apply add_rows_at; [exact J|]. lia. }
      split; [apply (related_add n A (as_mat n m1) (as_mat n e1) _ _ k p (- m1 (p * n + k)%nat)); try assumption; lia|].
      split; [|split; [|split]].
      * intros i j I J. rewrite HM by lia. destruct (Nat.eqb_spec i p) as [->|]; [|apply UM1; assumption]. rewrite !UM1 by lia. rewrite (delta_ne k j) by lia. ring.
      * rewrite HM by lia. destruct (Nat.eqb_spec k p); [lia|]. exact P11.
      * intros i I. rewrite HM by lia. destruct (Nat.eqb_spec i p) as [->|]; [|apply C1; lia]. rewrite P11, (delta_ne p k) by exact NE. unfold as_mat. ring.
      * intros i j I J. rewrite HE by lia. destruct (Nat.eqb_spec i p) as [->|]; [|apply UE1; assumption]. rewrite !UE1 by lia. rewrite (delta_ne k j) by lia. ring.
Qed.

Lemma gj_step_inv n k A m e m' e' : (k < n)%nat -> gj_inv n k A (as_mat n m) (as_mat n e) ->
  gj_step n k (m, e) = Some (m', e') -> gj_inv n (S k) A (as_mat n m') (as_mat n e').
Proof.
  intros K [R UM UE] G. unfold gj_step in G. cbn [fst snd] in G. destruct (Req_EM_T (m (k * n + k)%nat) 0) as [|NZ]; [discriminate|]. injection G as G.
  set (p := m (k * n + k)%nat) in *. set (m1 := scale_row m k (1 / p) n) in *. set (e1 := scale_row e k (1 / p) n) in *.
  assert (IP : 1 / p <> 0). { unfold Rdiv. rewrite Rmult_1_l. apply Rinv_neq_0_compat. exact NZ. }
  assert (HM : forall i j, (i < n)%nat -> (j < n)%nat -> as_mat n m1 i j = if Nat.eqb i k then as_mat n m i j * (1 / p) else as_mat n m i j).
  { intros. apply scale_row_at. assumption. }
  assert (HE : forall i j, (i < n)%nat -> (j < n)%nat -> as_mat n e1 i j = if Nat.eqb i k then as_mat n e i j * (1 / p) else as_mat n e i j).
  { intros. apply scale_row_at. assumption. }
  assert (R1 : related n A (as_mat n m1) (as_mat n e1)) by (apply (related_scale n A (as_mat n m) (as_mat n e) _ _ k (1 / p)); assumption).
  destruct (clear_inv n k A m1 e1 K R1) with (p := n) as (R2 & UM2 & P2 & C2 & UE2).
  - intros i j I J. rewrite HM by lia. destruct (Nat.eqb_spec i k) as [->|]; [|apply UM; assumption]. rewrite UM by lia. rewrite delta_ne by lia. ring.
  - rewrite HM by lia. rewrite Nat.eqb_refl. unfold as_mat. fold p. field. exact NZ.
  - intros i j I J. rewrite HE by lia. destruct (Nat.eqb_spec i k) as [->|]; [|apply UE; lia]. rewrite UE by lia. rewrite delta_ne by lia. ring.
  - lia.
  - unfold clear_column in G. rewrite G in *. cbn [fst snd] in *. split; [exact R2| |].
    + intros i j I J. destruct (Nat.eq_dec j k) as [->|]; [apply C2; exact I|apply UM2; lia].
    + intros i j I J. apply UE2; lia.
Qed.

(* The pivot of step k pairs the k-th row of E with the matrix. *)
Lemma pivot_form n k A M E : (k < n)%nat -> gj_inv n k A M E ->
  M k k = sumn n (fun i => sumn n (fun j => E k i * A i j * E k j)).
Proof.
  intros K [R UM UE].
  transitivity (sumn n (fun j => M k j * E k j)).
  - rewrite (sumn_ext n _ (fun j => if Nat.eqb j k then M k j else 0)).
    + rewrite sumn_pick by exact K. reflexivity.
    + intros j J. destruct (Nat.eqb_spec j k) as [->|NE]; [rewrite UE by lia; rewrite delta_eq; ring|].
      destruct (Nat.lt_ge_cases j k); [rewrite UM by lia; rewrite delta_ne by lia; ring|rewrite UE by lia; rewrite delta_ne by lia; ring].
  - rewrite sumn_exchange. apply sumn_ext. intros j J. rewrite <- (rel_EA _ _ _ _ R k j K J). rewrite <- sumn_scal_r. reflexivity.
Qed.

Lemma pivot_left n k A M E : (k < n)%nat -> gj_inv n k A M E -> M k k = 0 ->
  (forall j, (j <= k)%nat -> sumn (S k) (fun i => E k i * A i j) = 0) /\ E k k = 1.
Proof.
  intros K [R UM UE] Z. split; [|rewrite UE by lia; apply delta_eq].
  intros j J. transitivity (M k j).
  - rewrite <- (rel_EA _ _ _ _ R k j K) by lia. replace n with (S k + (n - S k))%nat by lia. rewrite sumn_split.
    rewrite (sumn_ext (n - S k) _ (fun _ => 0)); [rewrite sumn_0; ring|]. intros i I. rewrite UE by lia. rewrite delta_ne by lia. ring.
  - destruct (Nat.eq_dec j k) as [->|]; [exact Z|]. rewrite UM by lia. apply delta_ne. lia.
Qed.

Lemma gj_run n A m e k c : (k + c = n)%nat -> gj_inv n k A (as_mat n m) (as_mat n e) -> leading_regular n A ->
  exists m' e', gj n (seq k c) (m, e) = (true, (m', e')) /\ gj_inv n n A (as_mat n m') (as_mat n e').
Proof.
  revert k m e. induction c as [|c IH]; intros k m e KC G L.
  - exists m, e. split; [reflexivity|]. replace n with k at 2 by lia. exact G.
  - cbn [seq gj]. destruct (gj_step n k (m, e)) as [[m1 e1]|] eqn:ST.
    + apply (IH (S k)); [lia| |exact L]. apply (gj_step_inv n k A m e); [lia|exact G|exact ST].
    + exfalso. unfold gj_step in ST. cbn [fst snd] in ST. destruct (Req_EM_T (m (k * n + k)%nat) 0) as [Z|]; [|discriminate].
      destruct (pivot_left n k A _ _ ltac:(lia) G Z) as [H1 H2]. specialize (L k (as_mat n e k) ltac:(lia) H1 k (le_n k)). lra.
Qed.

Lemma gj_sound n A m e k c m' e' : (k + c = n)%nat -> gj_inv n k A (as_mat n m) (as_mat n e) ->
  gj n (seq k c) (m, e) = (true, (m', e')) -> gj_inv n n A (as_mat n m') (as_mat n e').
Proof.
  revert k m e. induction c as [|c IH]; intros k m e KC G H.
  - injection H as <- <-. replace n with k at 2 by lia. exact G.
  - cbn [seq gj] in H. destruct (gj_step n k (m, e)) as [[m1 e1]|] eqn:ST; [|discriminate].
    apply (IH (S k) m1 e1); [lia| |exact H]. apply (gj_step_inv n k A m e); [lia|exact G|exact ST].
Qed.

Lemma gj_start n scratch m A : holds n m A -> gj_inv n 0 A (as_mat n m) (as_mat n (identity n scratch)).
Proof.
  intros H. assert (ID : forall i j, (i < n)%nat -> (j < n)%nat -> as_mat n (identity n scratch) i j = delta i j).
  { intros i j I J. unfold as_mat, identity. rewrite (grid_loop n (fun i j => if Nat.eqb i j then 1 else 0)) by assumption. reflexivity. }
  split.
  - split.
    + intros i j I J. rewrite (sumn_ext n _ (fun k => if Nat.eqb k i then A k j else 0)).
      * rewrite sumn_pick by exact I. symmetry. apply H; assumption.
      * intros k K. rewrite ID by assumption. unfold delta. rewrite Nat.eqb_sym. destruct (Nat.eqb k i); ring.
    + exists delta. split; intros i j I J.
      * rewrite (sumn_ext n _ (fun k => if Nat.eqb k i then as_mat n m k j else 0)).
        -- rewrite sumn_pick by exact I. apply H; assumption.
        -- intros k K. unfold delta. rewrite Nat.eqb_sym. destruct (Nat.eqb k i); ring.
      * rewrite (sumn_ext n _ (fun k => if Nat.eqb k i then as_mat n (identity n scratch) k j else 0)).
        -- rewrite sumn_pick by exact I. apply ID; assumption.
        -- intros k K. unfold delta. rewrite Nat.eqb_sym. destruct (Nat.eqb k i); ring.
  - intros; lia.
  - intros i j I J. apply ID; lia.
Qed.

Lemma gj_end n A M E : gj_inv n n A M E -> inverse n A E.
Proof.
  intros [[EA (F & FM & FE)] UM _] i j I J.
  assert (FA : forall i k, (i < n)%nat -> (k < n)%nat -> F i k = A i k).
  { intros r c R C. rewrite <- (FM r c R C). rewrite (sumn_ext n _ (fun k => if Nat.eqb k c then F r k else 0)).
    - rewrite sumn_pick by exact C. reflexivity.
    - intros k K. rewrite UM by assumption. unfold delta. destruct (Nat.eqb k c); ring. }
  split.
  - rewrite <- (FE i j I J). apply sumn_ext. intros k K. rewrite FA by assumption. reflexivity.
  - rewrite EA by assumption. apply UM; assumption.
Qed.

Lemma inverse_ext n A B B' : (forall i j, (i < n)%nat -> (j < n)%nat -> B i j = B' i j) -> inverse n A B -> inverse n A B'.
Proof.
  intros H V i j I J. destruct (V i j I J) as [V1 V2]. split; [rewrite <- V1|rewrite <- V2]; apply sumn_ext; intros k K; rewrite H by assumption; reflexivity.
Qed.

Lemma copy_back_at n m e i j : (i < n)%nat -> (j < n)%nat -> copy_back n m e (i * n + j)%nat = e (i * n + j)%nat.
Proof. intros I J. unfold copy_back. apply (grid_loop n (fun i j => e (i * n + j)%nat)); assumption. Qed.

Lemma invert_leading n scratch m A : holds n m A -> leading_regular n A ->
  exists r B, invert_matrix n scratch m = (0%Z, r) /\ holds n r B /\ inverse n A B.
Proof.
  intros H L. pose proof (gj_start n scratch m A H) as G0.
  destruct (gj_run n A m (identity n scratch) 0 n eq_refl G0 L) as (m' & e' & E & G).
  unfold invert_matrix. rewrite E. eexists; exists (as_mat n e'). split; [reflexivity|]. split.
  - intros i j I J. rewrite copy_back_at by assumption. reflexivity.
  - apply (gj_end n A (as_mat n m')). exact G.
Qed.

Lemma positive_leading n A : positive_definite n A -> leading_regular n A.
Proof.
  intros P k x K H i I. destruct (Req_dec (x i) 0) as [Z|NZ]; [exact Z|exfalso].
  set (y := fun j => if Nat.leb j k then x j else 0).
  assert (Y : 0 < sumn n (fun i => sumn n (fun j => y i * A i j * y j))).
  { apply P. exists i. split; [lia|]. unfold y. rewrite (proj2 (Nat.leb_le _ _) I). exact NZ. }
  rewrite sumn_exchange in Y. rewrite (sumn_ext n _ (fun _ => 0)) in Y; [rewrite sumn_0 in Y; lra|].
  intros j J. rewrite sumn_scal_r. destruct (Nat.le_gt_cases j k) as [JK|JK].
  - replace (sumn n (fun i0 => y i0 * A i0 j)) with (sumn (S k) (fun i0 => x i0 * A i0 j)); [rewrite H by exact JK; ring|].
    replace n with (S k + (n - S k))%nat by lia. rewrite sumn_split. rewrite (sumn_ext (n - S k) _ (fun _ => 0)).
    + rewrite sumn_0, Rplus_0_r. apply sumn_ext. intros q Q. unfold y. rewrite (proj2 (Nat.leb_le _ _)) by lia. reflexivity.
    + intros q Q. unfold y. rewrite (proj2 (Nat.leb_gt _ _)) by lia. ring.
  - unfold y. rewrite (proj2 (Nat.leb_gt _ _) JK). ring.
Qed.

(* If the elimination stopped early, a leading block is singular. *)
Lemma gj_stuck n A m e k c m' e' : (k + c = n)%nat -> gj_inv n k A (as_mat n m) (as_mat n e) ->
  gj n (seq k c) (m, e) = (false, (m', e')) -> ~ leading_regular n A.
Proof.
  intros KC G H L. destruct (gj_run n A m e k c KC G L) as (? & ? & E & _). rewrite E in H. discriminate.
Qed.

(* ---------- powers ---------- *)

Lemma pow_loop_spec e : forall base result, pow_loop e base result = result * base ^ Pos.to_nat e.
Proof.
  induction e as [e IH|e IH|]; intros base result; cbn [pow_loop].
  - rewrite IH. rewrite Pos2Nat.inj_xI. cbn [pow]. rewrite pow_mult. replace (base ^ 2) with (base * base) by (cbn; ring). ring.
  - rewrite IH. rewrite Pos2Nat.inj_xO. rewrite pow_mult. replace (base ^ 2) with (base * base) by (cbn; ring). reflexivity.
  - change (Pos.to_nat 1) with 1%nat. rewrite pow_1. reflexivity.
Qed.

Lemma power_spec base z : (-2147483648 < z < 2147483648)%Z -> ((0 <= z)%Z \/ base <> 0) -> PowIntExpo base z = Some (powerRZ base z).
Proof.
  intros Z B. unfold PowIntExpo. destruct (Z.eqb_spec z 0) as [->|N0]; [reflexivity|].
  destruct (Z.eqb_spec z 1) as [->|N1]; [unfold powerRZ; change (Pos.to_nat 1) with 1%nat; rewrite pow_1; reflexivity|].
  destruct (Z.eqb_spec z (-2147483648)) as [->|N2]; [lia|].
  destruct z as [|p|p]; [contradiction| |]; cbn [Z.abs].
  - rewrite pow_loop_spec, Rmult_1_l. reflexivity.
  - rewrite pow_loop_spec, Rmult_1_l. replace (Z.neg p <? 0)%Z with true by reflexivity.
    destruct B as [B|B]; [lia|]. destruct (Req_EM_T (base ^ Pos.to_nat p) 0) as [Z0|]; [exfalso; revert Z0; apply pow_nonzero; exact B|].
    cbn [powerRZ]. unfold Rdiv. rewrite Rmult_1_l. reflexivity.
Qed.

(* ---------- Fortran order ---------- *)

Lemma fholds_holds n m A : fholds n m A -> holds n m (fun i j => A (S j) (S i)).
Proof.
  intros H i j I J. specialize (H (S j) (S i) ltac:(lia) ltac:(lia)). rewrite <- H. f_equal. lia.
Qed.
Lemma holds_fholds n m B : holds n m B -> fholds n m (fun i j => B (j - 1)%nat (i - 1)%nat).
Proof.
  intros H i j I J. rewrite <- (H (j - 1)%nat (i - 1)%nat) by lia. f_equal. lia.
Qed.

Lemma inverse_transpose n A B : inverse n (fun i j => A j i) (fun i j => B j i) -> inverse n A B.
Proof.
  intros H i j I J. destruct (H j i J I) as [H1 H2]. split.
  - rewrite (sumn_ext n _ (fun k => B k j * A i k)) by (intros; ring). rewrite H2. unfold delta. rewrite Nat.eqb_sym. reflexivity.
  - rewrite (sumn_ext n _ (fun k => A k j * B i k)) by (intros; ring). rewrite H1. unfold delta. rewrite Nat.eqb_sym. reflexivity.
Qed.

Lemma positive_transpose n A : positive_definite n A -> positive_definite n (fun i j => A j i).
Proof.
  intros P x H. specialize (P x H). rewrite sumn_exchange. rewrite (sumn_ext n _ (fun i => sumn n (fun j => x i * A i j * x j))); [exact P|].
  intros i I. apply sumn_ext. intros j J. ring.
Qed.

Lemma invert_fortran n scratch m A : fholds n m A -> positive_definite n (fun i j => A (S i) (S j)) ->
  exists r B, invert_matrix n scratch m = (0%Z, r) /\ fholds n r B /\ inverse n (fun i j => A (S i) (S j)) (fun i j => B (S i) (S j)).
Proof.
  intros H P. destruct (invert_leading n scratch m _ (fholds_holds n m A H)) as (r & B & E & HB & V).
  - apply positive_leading. apply (positive_transpose n (fun i j => A (S i) (S j))). exact P.
  - exists r, (fun i j => B (j - 1)%nat (i - 1)%nat). split; [exact E|]. split; [apply holds_fholds; exact HB|].
    apply inverse_transpose. cbn [Nat.sub]. apply (inverse_ext n _ B); [|exact V]. intros. rewrite !Nat.sub_0_r. reflexivity.
Qed.
