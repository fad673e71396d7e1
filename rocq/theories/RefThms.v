(** Interpolation, differentiation and integration with the arrays of the element. *)
From Coq Require Import Reals List Arith Lia Lra Psatz Permutation.
From Verif Require Import BaseArr BaseReal RefSpec RefTables RefModel RefLag RefQuad RefLoop RefElem.
Import ListNotations.
Open Scope R_scope.

(** * Distinct nodes *)
Lemma increasing_nth l : increasing l -> forall i j, (i < j)%nat -> (j < length l)%nat -> nth i l 0 < nth j l 0.
Proof.
  induction l as [|a l IH]; intros H i j Hij Hj; [cbn in Hj; lia|].
  assert (Hl : increasing l) by (destruct l; [exact I|apply H]).
  destruct j as [|j]; [lia|]. cbn [length] in Hj. cbn [nth].
  destruct i as [|i]; [|apply IH; [exact Hl|lia|lia]].
  destruct l as [|b l]; [cbn in Hj; lia|]. destruct H as [Hab _].
  destruct j as [|j]; [exact Hab|]. apply (Rlt_trans _ b); [exact Hab|].
  apply (IH Hl 0%nat (S j)); lia.
Qed.

Lemma lobatto_distinct n m : (2 * m + 1 = n)%nat -> (1 <= n <= 20)%nat ->
  distinct (m + 1) (fun i => entry lobatto_nodes n (2 * i)).
Proof.
  intros E Hn i j Hi Hj N.
  destruct (lobatto_sound n Hn) as (xs & ws & Ex & _ & Lx & _ & _ & Inc & _).
  unfold entry. rewrite Ex. intros Q.
  destruct (Nat.lt_ge_cases i j) as [H|H].
  - pose proof (increasing_nth xs Inc (2 * i) (2 * j) ltac:(lia) ltac:(lia)). lra.
  - pose proof (increasing_nth xs Inc (2 * j) (2 * i) ltac:(lia) ltac:(lia)). lra.
Qed.

(** * Interpolation *)
Lemma eval3_cons c i j k f x y z :
  eval3 ((c, (i, j, k)) :: f) (x, y, z) = c * (x ^ i * y ^ j * z ^ k) + eval3 f (x, y, z).
Proof. unfold eval3. rewrite suml_cons. reflexivity. Qed.

Lemma degree3_cons n c i j k f : degree3 n ((c, (i, j, k)) :: f) ->
  (i < n /\ j < n /\ k < n)%nat /\ degree3 n f.
Proof.
  intros H. split; [apply (H c i j k); left; reflexivity|].
  intros c' i' j' k' Hin. apply (H c'); right; exact Hin.
Qed.

(** A weighted sum of the values at the nodes, term by term. *)
Lemma nodal_sum n P f (a b c : nat -> R) :
  degree3 n f -> forall (X Y Z : nat -> R),
  (forall i, (i < n)%nat -> sumn n (fun m => P m ^ i * a m) = X i) ->
  (forall i, (i < n)%nat -> sumn n (fun m => P m ^ i * b m) = Y i) ->
  (forall i, (i < n)%nat -> sumn n (fun m => P m ^ i * c m) = Z i) ->
  sumn (n * n * n) (fun r => eval3 f (at_row (grid n P) r) * (a (ix n r) * b (iy n r) * c (iz n r)))
  = suml (fun t => let '(k, (i, j, l)) := t in k * (X i * Y j * Z l)) f.
Proof.
  intros D X Y Z HX HY HZ. induction f as [|[k [[i j] l]] f IH].
  - rewrite (sumn_ext _ _ (fun _ => 0)); [apply sumn_0|]. intros r _. unfold at_row, eval3. cbn [suml fold_right]. unfold suml; cbn [fold_right]. ring.
  - apply degree3_cons in D as [(Hi & Hj & Hl) D]. rewrite suml_cons, <- (IH D).
    rewrite <- (HX i Hi), <- (HY j Hj), <- (HZ l Hl), <- sum_cells3, <- sumn_scal, <- sumn_plus.
    apply sumn_ext. intros r _. unfold at_row, grid. rewrite eval3_cons. ring.
Qed.

Lemma interpolate n P f pt : distinct n P -> degree3 n f ->
  sumn (n * n * n) (fun r => eval3 f (at_row (grid n P) r) * phi n P pt r) = eval3 f pt.
Proof.
  intros HD D. destruct pt as [[x y] z]. unfold phi.
  rewrite (nodal_sum n P f (fun m => lag n P m x) (fun m => lag n P m y) (fun m => lag n P m z) D
             (fun i => x ^ i) (fun i => y ^ i) (fun i => z ^ i)); [reflexivity| | |];
    intros i Hi; apply lag_power; assumption.
Qed.

Lemma derive_suml {A} (f : A -> R -> R) (g : A -> R) l x :
  (forall a, In a l -> derivable_pt_lim (f a) x (g a)) ->
  derivable_pt_lim (fun x => suml (fun a => f a x) l) x (suml g l).
Proof.
  induction l as [|a l IH]; intros H; [apply derivable_pt_lim_const|]. rewrite suml_cons.
  apply (derive_ext (fun x => f a x + suml (fun a => f a x) l)); [intros; rewrite suml_cons; reflexivity|].
  apply (derivable_pt_lim_plus (f a) (fun x => suml (fun a => f a x) l)).
  - apply H; left; reflexivity.
  - apply IH. intros b Hb; apply H; right; exact Hb.
Qed.

Lemma derive_scal k f x l : derivable_pt_lim f x l -> derivable_pt_lim (fun x => k * f x) x (k * l).
Proof.
  intros H. replace (k * l) with (0 * f x + k * l) by ring.
  apply (derivable_pt_lim_mult (fun _ => k) f); [apply derivable_pt_lim_const|exact H].
Qed.

Lemma differentiate n P f pt : distinct n P -> degree3 n f ->
  gradient3 (eval3 f) pt
    (sumn (n * n * n) (fun r => eval3 f (at_row (grid n P) r) * dphi n P pt r 0),
     sumn (n * n * n) (fun r => eval3 f (at_row (grid n P) r) * dphi n P pt r 1),
     sumn (n * n * n) (fun r => eval3 f (at_row (grid n P) r) * dphi n P pt r 2)).
Proof.
  intros HD D. destruct pt as [[x y] z]. unfold gradient3, dphi.
  set (S := fun (t : R) (i : nat) => sumn n (fun m => P m ^ i * dlag n P m t)).
  assert (HL : forall t i, (i < n)%nat -> sumn n (fun m => P m ^ i * lag n P m t) = t ^ i) by (intros; apply lag_power; assumption).
  assert (HS : forall t i, (i < n)%nat -> sumn n (fun m => P m ^ i * dlag n P m t) = S t i) by reflexivity.
  split; [|split].
  - rewrite (nodal_sum n P f (fun m => dlag n P m x) (fun m => lag n P m y) (fun m => lag n P m z) D
             (S x) (fun i => y ^ i) (fun i => z ^ i)); auto.
    apply (derive_suml (fun t x => let '(c, (i, j, k)) := t in c * (x ^ i * y ^ j * z ^ k))).
    intros [c [[i j] k]] Hin. destruct (D c i j k Hin) as (Hi & Hj & Hk).
    apply (derive_ext (fun x => (c * (y ^ j * z ^ k)) * x ^ i)); [intros; ring|].
    replace (c * (S x i * y ^ j * z ^ k)) with ((c * (y ^ j * z ^ k)) * S x i) by ring.
    apply derive_scal, dlag_power; assumption.
  - rewrite (nodal_sum n P f (fun m => lag n P m x) (fun m => dlag n P m y) (fun m => lag n P m z) D
             (fun i => x ^ i) (S y) (fun i => z ^ i)); auto.
    apply (derive_suml (fun t y => let '(c, (i, j, k)) := t in c * (x ^ i * y ^ j * z ^ k))).
    intros [c [[i j] k]] Hin. destruct (D c i j k Hin) as (Hi & Hj & Hk).
    apply (derive_ext (fun y => (c * (x ^ i * z ^ k)) * y ^ j)); [intros; ring|].
    replace (c * (x ^ i * S y j * z ^ k)) with ((c * (x ^ i * z ^ k)) * S y j) by ring.
    apply derive_scal, dlag_power; assumption.
  - rewrite (nodal_sum n P f (fun m => lag n P m x) (fun m => lag n P m y) (fun m => dlag n P m z) D
             (fun i => x ^ i) (fun i => y ^ i) (S z)); auto.
    apply (derive_suml (fun t z => let '(c, (i, j, k)) := t in c * (x ^ i * y ^ j * z ^ k))).
    intros [c [[i j] k]] Hin. destruct (D c i j k Hin) as (Hi & Hj & Hk).
    apply (derive_ext (fun z => (c * (x ^ i * y ^ j)) * z ^ k)); [intros; ring|].
    replace (c * (x ^ i * y ^ j * S z k)) with ((c * (x ^ i * y ^ j)) * S z k) by ring.
    apply derive_scal, dlag_power; assumption.
Qed.

(** One at its own node, zero at the others. *)
Lemma phi_node n P a b : distinct n P -> (a < n * n * n)%nat -> (b < n * n * n)%nat ->
  phi n P (at_row (grid n P) a) b = if (a =? b)%nat then 1 else 0.
Proof.
  intros HD Ha Hb.
  destruct (rid_onto n a Ha) as (i & j & k & (Hi & Hj & Hk) & <-).
  destruct (rid_onto n b Hb) as (i' & j' & k' & (Hi' & Hj' & Hk') & <-).
  unfold at_row, grid, phi.
  destruct (rid_ix n i j k Hi Hj Hk) as (-> & -> & ->).
  destruct (rid_ix n i' j' k' Hi' Hj' Hk') as (-> & -> & ->).
  destruct (Nat.eqb_spec (rid n i j k) (rid n i' j' k')) as [E|E].
  - apply rid_inj in E as (<- & <- & <-); try assumption. rewrite !lag_same by assumption. ring.
  - destruct (Nat.eq_dec i i') as [<-|]; [|rewrite (lag_other n P i' i) by assumption; ring].
    destruct (Nat.eq_dec j j') as [<-|]; [|rewrite (lag_other n P j' j) by assumption; ring].
    destruct (Nat.eq_dec k k') as [<-|]; [|rewrite (lag_other n P k' k) by assumption; ring].
    contradiction.
Qed.

(** * Integration over the element *)
Lemma quad_nth xs ws f n : length xs = n -> length ws = n ->
  quad xs ws f = sumn n (fun i => nth i ws 0 * f (nth i xs 0)).
Proof.
  rewrite <- suml_seq. unfold quad. revert ws n. induction xs as [|x xs IH]; intros [|w ws] n L1 L2; cbn in L1, L2; subst n; try discriminate.
  - reflexivity.
  - cbn [combine length seq]. rewrite !suml_cons. cbn [fst snd nth].
    rewrite (IH ws (length xs) eq_refl) by lia. rewrite <- seq_shift, suml_map. reflexivity.
Qed.

Lemma integral3_poly f v : integral3 (eval3 f) v ->
  v = suml (fun t => let '(c, (i, j, k)) := t in c * (moment i * moment j * moment k)) f.
Proof.
  intros (Ix & Ixy & H1 & H2 & H3).
  assert (E1 : forall y z, Ix y z = suml (fun t => let '(c, (i, j, k)) := t in c * (moment i * y ^ j * z ^ k)) f).
  { intros y z. apply (integral_unique (fun x => eval3 f (x, y, z)) (-1) 1); [lra|apply H1|].
    apply (integral_suml (fun t x => let '(c, (i, j, k)) := t in c * (x ^ i * y ^ j * z ^ k))
             (fun t => let '(c, (i, j, k)) := t in c * (moment i * y ^ j * z ^ k))).
    intros [c [[i j] k]] _. apply (integral_ext (fun x => (c * (y ^ j * z ^ k)) * x ^ i)); [intros; ring|].
    replace (c * (moment i * y ^ j * z ^ k)) with ((c * (y ^ j * z ^ k)) * moment i) by ring.
    apply integral_scal, integral_power. }
  assert (E2 : forall z, Ixy z = suml (fun t => let '(c, (i, j, k)) := t in c * (moment i * moment j * z ^ k)) f).
  { intros z. apply (integral_unique (fun y => Ix y z) (-1) 1); [lra|apply H2|].
    apply (integral_ext (fun y => suml (fun t => let '(c, (i, j, k)) := t in c * (moment i * y ^ j * z ^ k)) f)).
    { intros y; symmetry; apply E1. }
    apply (integral_suml (fun t y => let '(c, (i, j, k)) := t in c * (moment i * y ^ j * z ^ k))
             (fun t => let '(c, (i, j, k)) := t in c * (moment i * moment j * z ^ k))).
    intros [c [[i j] k]] _. apply (integral_ext (fun y => (c * (moment i * z ^ k)) * y ^ j)); [intros; ring|].
    replace (c * (moment i * moment j * z ^ k)) with ((c * (moment i * z ^ k)) * moment j) by ring.
    apply integral_scal, integral_power. }
  apply (integral_unique Ixy (-1) 1); [lra|exact H3|].
  apply (integral_ext (fun z => suml (fun t => let '(c, (i, j, k)) := t in c * (moment i * moment j * z ^ k)) f)).
  { intros z; symmetry; apply E2. }
  apply (integral_suml (fun t z => let '(c, (i, j, k)) := t in c * (moment i * moment j * z ^ k))
           (fun t => let '(c, (i, j, k)) := t in c * (moment i * moment j * moment k))).
  intros [c [[i j] k]] _. apply (integral_ext (fun z => (c * (moment i * moment j)) * z ^ k)); [intros; ring|].
  replace (c * (moment i * moment j * moment k)) with ((c * (moment i * moment j)) * moment k) by ring.
  apply integral_scal, integral_power.
Qed.

Lemma integral3_exists f : integral3 (eval3 f)
  (suml (fun t => let '(c, (i, j, k)) := t in c * (moment i * moment j * moment k)) f).
Proof.
  exists (fun y z => suml (fun t => let '(c, (i, j, k)) := t in c * (moment i * y ^ j * z ^ k)) f),
         (fun z => suml (fun t => let '(c, (i, j, k)) := t in c * (moment i * moment j * z ^ k)) f).
  split; [|split].
  - intros y z.
    apply (integral_suml (fun t x => let '(c, (i, j, k)) := t in c * (x ^ i * y ^ j * z ^ k))
             (fun t => let '(c, (i, j, k)) := t in c * (moment i * y ^ j * z ^ k))).
    intros [c [[i j] k]] _. apply (integral_ext (fun x => (c * (y ^ j * z ^ k)) * x ^ i)); [intros; ring|].
    replace (c * (moment i * y ^ j * z ^ k)) with ((c * (y ^ j * z ^ k)) * moment i) by ring.
    apply integral_scal, integral_power.
  - intros z. apply (integral_suml (fun t y => let '(c, (i, j, k)) := t in c * (moment i * y ^ j * z ^ k))
             (fun t => let '(c, (i, j, k)) := t in c * (moment i * moment j * z ^ k))).
    intros [c [[i j] k]] _. apply (integral_ext (fun y => (c * (moment i * z ^ k)) * y ^ j)); [intros; ring|].
    replace (c * (moment i * moment j * z ^ k)) with ((c * (moment i * z ^ k)) * moment j) by ring.
    apply integral_scal, integral_power.
  - apply (integral_suml (fun t z => let '(c, (i, j, k)) := t in c * (moment i * moment j * z ^ k))
           (fun t => let '(c, (i, j, k)) := t in c * (moment i * moment j * moment k))).
    intros [c [[i j] k]] _. apply (integral_ext (fun z => (c * (moment i * moment j)) * z ^ k)); [intros; ring|].
    replace (c * (moment i * moment j * moment k)) with ((c * (moment i * moment j)) * moment k) by ring.
    apply integral_scal, integral_power.
Qed.

Lemma moment_bound d : 0 <= moment d <= 2.
Proof.
  unfold moment. destruct (Nat.even d); [|lra].
  assert (1 <= INR (S d)) by (rewrite S_INR; pose proof (pos_INR d); lra).
  split.
  - apply Rmult_le_pos; [lra|]. left. apply Rinv_0_lt_compat. lra.
  - apply (Rmult_le_reg_r (INR (S d))); [lra|]. unfold Rdiv. rewrite Rmult_assoc, Rinv_l by lra. lra.
Qed.

Lemma abs_bounds x y : Rabs x <= y -> - y <= x <= y.
Proof. intros H. pose proof (Rle_abs x). pose proof (Rle_abs (- x)) as H1. rewrite Rabs_Ropp in H1. lra. Qed.

Lemma product_error a b c a' b' c' eps : 0 <= eps <= 1 ->
  0 <= a' <= 2 -> 0 <= b' <= 2 -> 0 <= c' <= 2 ->
  Rabs (a - a') <= eps -> Rabs (b - b') <= eps -> Rabs (c - c') <= eps ->
  Rabs (a * b * c - a' * b' * c') <= 19 * eps.
Proof.
  intros He Ha' Hb' Hc' Ha Hb Hc.
  replace (a * b * c - a' * b' * c') with ((a - a') * (b * c) + a' * ((b - b') * c + b' * (c - c'))) by ring.
  assert (Bb : Rabs b <= 3) by (apply Rabs_le; apply abs_bounds in Hb; lra).
  assert (Bc : Rabs c <= 3) by (apply Rabs_le; apply abs_bounds in Hc; lra).
  eapply Rle_trans; [apply Rabs_triang|]. rewrite !Rabs_mult, (Rabs_pos_eq a') by lra.
  assert (I : Rabs ((b - b') * c + b' * (c - c')) <= 5 * eps).
  { eapply Rle_trans; [apply Rabs_triang|]. rewrite !Rabs_mult, (Rabs_pos_eq b') by lra.
    pose proof (Rabs_pos (b - b')). pose proof (Rabs_pos c). pose proof (Rabs_pos (c - c')). nra. }
  pose proof (Rabs_pos (a - a')). pose proof (Rabs_pos b). pose proof (Rabs_pos c).
  assert (Rabs b * Rabs c <= 9) by nra.
  assert (Rabs (a - a') * (Rabs b * Rabs c) <= 9 * eps) by nra.
  pose proof (Rabs_pos ((b - b') * c + b' * (c - c'))). nra.
Qed.

Lemma element_rule n xs ws eps D f v : sound eps D n xs ws -> 0 <= eps <= 1 -> degree3 D f -> integral3 (eval3 f) v ->
  Rabs (sumn (n * n * n) (fun r => (nth (ix n r) ws 0 * nth (iy n r) ws 0 * nth (iz n r) ws 0)
                                   * eval3 f (at_row (grid n (fun i => nth i xs 0)) r)) - v)
  <= 19 * eps * size3 f.
Proof.
  intros (L1 & L2 & Acc & _) He HD Hv. rewrite (integral3_poly f v Hv). clear v Hv.
  set (Q := fun i => sumn n (fun m => nth m ws 0 * nth m xs 0 ^ i)).
  assert (HQ : forall i, (i < D)%nat -> Rabs (Q i - moment i) <= eps).
  { intros i Hi. unfold Q. rewrite <- (quad_nth xs ws (fun x => x ^ i) n L1 L2). apply Acc. exact Hi. }
  assert (E : sumn (n * n * n) (fun r => (nth (ix n r) ws 0 * nth (iy n r) ws 0 * nth (iz n r) ws 0)
                                   * eval3 f (at_row (grid n (fun i => nth i xs 0)) r))
              = suml (fun t => let '(c, (i, j, k)) := t in c * (Q i * Q j * Q k)) f).
  { clear HD. induction f as [|[c [[i j] k]] f IH].
    - rewrite (sumn_ext _ _ (fun _ => 0)); [apply sumn_0|]. intros r _. unfold at_row, eval3, suml; cbn [fold_right]. ring.
    - rewrite suml_cons, <- IH. unfold Q at 1 2 3. rewrite <- sum_cells3, <- sumn_scal, <- sumn_plus.
      apply sumn_ext. intros r _. unfold at_row, grid. rewrite eval3_cons. ring. }
  rewrite E, <- suml_minus. eapply Rle_trans; [apply Rabs_suml|]. unfold size3. rewrite <- suml_scal.
  apply suml_le. intros [c [[i j] k]] Hin. cbn [fst]. destruct (HD c i j k Hin) as (Hi & Hj & Hk).
  rewrite <- Rmult_minus_distr_l, Rabs_mult, (Rmult_comm (19 * eps)).
  apply Rmult_le_compat_l; [apply Rabs_pos|].
  apply product_error; try apply moment_bound; auto.
Qed.
