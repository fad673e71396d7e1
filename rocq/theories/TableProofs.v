(** Proofs about tables and their reader. *)
From Verif Require Import BaseReal BaseArr StrModel StrSpec StrProofs TableModel TableSpec.
Local Open Scope R_scope.

Lemma Rleb_spec x y : reflect (x <= y) (Rleb x y).
Proof. unfold Rleb. destruct (Rle_dec x y); constructor; auto. Qed.
Lemma Reqb_spec x y : reflect (x = y) (Reqb x y).
Proof. unfold Reqb. destruct (Req_EM_T x y); constructor; auto. Qed.

Lemma aget_row {A} (a : arr A) i c v : aget a i c = Some v -> (i < nrow a)%nat /\ (c < ncol a)%nat.
Proof. unfold aget. destruct (Nat.ltb_spec i (nrow a)), (Nat.ltb_spec c (ncol a)); cbn; try discriminate; auto. Qed.

Lemma interp_loop_value T dep ind X Y x : column T ind X -> column T dep Y -> x < X (nrow T - 1)%nat ->
  forall m k, (k + m = nrow T - 1)%nat -> (1 <= nrow T)%nat -> X k < x ->
  exists i, (k <= i)%nat /\ (S i < nrow T)%nat /\ X i < x <= X (S i) /\
    interp_loop T x dep ind (seq k m) = Some (Y i + (x - X i) / (X (S i) - X i) * (Y (S i) - Y i)).
Proof.
  intros HX HY Hl. induction m as [|m IH]; intros k Hk Hn Hx.
  - exfalso. replace k with (nrow T - 1)%nat in Hx by lia. lra.
  - cbn [seq interp_loop]. rewrite (HX k) by lia. cbn [obind]. replace (k + 1)%nat with (S k) by lia.
    rewrite (HX (S k)) by lia. cbn [obind]. destruct (Rleb_spec (X k) x); [|lra]. destruct (Rleb_spec x (X (S k))) as [L|L]; cbn [andb].
    + destruct (Reqb_spec (X (S k)) (X k)); [lra|]. rewrite (HY k), (HY (S k)) by lia. cbn [obind].
      exists k. split; [lia|]. split; [lia|]. split; [lra|]. f_equal. field. lra.
    + destruct (IH (S k)) as (i & Hi & H); [lia|lia|lra|]. exists i. split; [lia|exact H].
Qed.

Lemma interp_curve T dep ind X Y x : (1 <= nrow T)%nat -> column T ind X -> column T dep Y ->
  exists v, linear_interpolation T x dep ind = Some v /\ curve (nrow T) X Y x v.
Proof.
  intros Hn HX HY. unfold linear_interpolation. destruct (Nat.eqb_spec (nrow T) 0); [lia|].
  rewrite (HX 0%nat) by lia. cbn [obind]. destruct (Rleb_spec x (X 0%nat)).
  - rewrite (HY 0%nat) by lia. eexists; split; [reflexivity|now constructor].
  - rewrite (HX (nrow T - 1)%nat) by lia. cbn [obind]. destruct (Rleb_spec (X (nrow T - 1)%nat) x).
    + rewrite (HY (nrow T - 1)%nat) by lia. eexists; split; [reflexivity|constructor; lra].
    + destruct (interp_loop_value T dep ind X Y x HX HY ltac:(lra) (nrow T - 1) 0 ltac:(lia) Hn ltac:(lra)) as (i & _ & Hi & Hx & ->).
      eexists; split; [reflexivity|]. constructor; auto; lra.
Qed.

Lemma interp_empty T x dep ind : nrow T = 0%nat -> linear_interpolation T x dep ind = Some 0.
Proof. unfold linear_interpolation. now intros ->. Qed.

Lemma interp_bad_column T x dep ind : (1 <= nrow T)%nat -> (ncol T <= dep \/ ncol T <= ind)%nat ->
  (forall i c, (i < nrow T)%nat -> (c < ncol T)%nat -> exists v, aget T i c = Some v) -> linear_interpolation T x dep ind = None.
Proof.
  intros Hn Hc Hs. assert (N : forall i c, (ncol T <= c)%nat -> aget T i c = None).
  { intros i c H. unfold aget. destruct (Nat.ltb_spec c (ncol T)); [lia|]. now rewrite andb_false_r. }
  unfold linear_interpolation. destruct (Nat.eqb_spec (nrow T) 0); [lia|].
  destruct (le_lt_dec (ncol T) ind) as [Hi|Hi]; [rewrite (N 0%nat ind Hi); reflexivity|]. destruct Hc as [Hc|Hc]; [|lia].
  destruct (Hs 0%nat ind ltac:(lia) Hi) as (x0 & E0). rewrite E0. cbn [obind]. destruct (Rleb_spec x x0); [apply N; auto|].
  destruct (Hs (nrow T - 1)%nat ind ltac:(lia) Hi) as (xl & El). rewrite El. cbn [obind]. destruct (Rleb_spec xl x) as [|Lx]; [apply N; auto|].
  assert (G : forall m k, (k + m = nrow T - 1)%nat -> (exists xk, aget T k ind = Some xk /\ xk < x) -> interp_loop T x dep ind (seq k m) = None).
  { induction m as [|m IH]; intros k Hk (xk & Ek & Lk).
    - exfalso. replace k with (nrow T - 1)%nat in Ek by lia. rewrite El in Ek. injection Ek as <-. lra.
    - cbn [seq interp_loop]. rewrite Ek. cbn [obind]. replace (k + 1)%nat with (S k) by lia.
      destruct (Hs (S k) ind ltac:(lia) Hi) as (x1 & E1). rewrite E1. cbn [obind].
      destruct (Rleb_spec xk x), (Rleb_spec x x1); cbn [andb]; try lra.
      + destruct (Reqb_spec x1 xk); rewrite (N k dep Hc); reflexivity.
      + apply IH; [lia|exists x1; split; auto; lra]. }
  apply G; [lia|]. exists x0; split; auto; lra.
Qed.

Lemma ascending_le n X : ascending n X -> forall i j, (i <= j)%nat -> (j < n)%nat -> X i <= X j.
Proof.
  intros H i j Hij. induction Hij as [|j Hij IH]; intros Hj; [lra|]. apply Rle_trans with (X j); [apply IH; lia|apply H; lia].
Qed.

(** the curve has one value at each point *)
Lemma curve_det n X Y x v w : ascending n X -> curve n X Y x v -> curve n X Y x w -> v = w.
Proof.
  intros HX [A|A B|i A B Hi Hx] [A'|A' B'|j A' B' Hj Hx']; try lra.
  assert (i = j); [|now subst].
  destruct (lt_eq_lt_dec i j) as [[L|E]|L]; auto; exfalso.
  - pose proof (ascending_le n X HX (S i) j ltac:(lia) ltac:(lia)). lra.
  - pose proof (ascending_le n X HX (S j) i ltac:(lia) ltac:(lia)). lra.
Qed.

Lemma ratio01 a b x : a < x <= b -> 0 < (x - a) / (b - a) <= 1.
Proof.
  intros H. split; [apply Rdiv_lt_0_compat; lra|]. apply (Rmult_le_reg_r (b - a)); [lra|]. unfold Rdiv.
  rewrite Rmult_assoc, Rinv_l; lra.
Qed.

Lemma seg_between a b x y0 y1 lo hi : a < x <= b -> lo <= y0 <= hi -> lo <= y1 <= hi ->
  lo <= y0 + (x - a) / (b - a) * (y1 - y0) <= hi.
Proof. intros H H0 H1. pose proof (ratio01 a b x H). set (r := (x - a) / (b - a)) in *. nra. Qed.

Lemma seg_range a b x y0 y1 : a < x <= b -> Rmin y0 y1 <= y0 + (x - a) / (b - a) * (y1 - y0) <= Rmax y0 y1.
Proof. intros H. apply seg_between; auto; split; try apply Rmin_l; try apply Rmin_r; try apply Rmax_l; apply Rmax_r. Qed.

Lemma curve_between n X Y x v lo hi : (1 <= n)%nat -> (forall i, (i < n)%nat -> lo <= Y i <= hi) -> curve n X Y x v -> lo <= v <= hi.
Proof.
  intros Hn H [A|A B|i A B Hi Hx]; [apply H; lia|apply H; lia|]. apply seg_between; auto; apply H; lia.
Qed.

Lemma curve_neighbours n X Y x v i : ascending n X -> (S i < n)%nat -> X i <= x <= X (S i) -> X 0%nat < x -> x < X (n - 1)%nat -> X i < x ->
  curve n X Y x v -> v = Y i + (x - X i) / (X (S i) - X i) * (Y (S i) - Y i) /\ Rmin (Y i) (Y (S i)) <= v <= Rmax (Y i) (Y (S i)).
Proof.
  intros HX Hi Hx H0 Hl Hlt H. assert (E := inside n X Y x i H0 Hl Hi ltac:(lra)). rewrite (curve_det n X Y x v _ HX H E).
  split; [reflexivity|]. apply seg_range. lra.
Qed.

Lemma curve_at_point n X Y i v : strictly_ascending n X -> (i < n)%nat -> curve n X Y (X i) v -> v = Y i.
Proof.
  intros HS Hi H. assert (HX : ascending n X) by (intros j Hj; left; now apply HS).
  assert (ST : forall a b, (a < b)%nat -> (b < n)%nat -> X a < X b).
  { intros a b Hab Hb. apply Rlt_le_trans with (X (S a)); [apply HS; lia|apply (ascending_le n X HX); lia]. }
  destruct i as [|i].
  - assert (E := before_first n X Y (X 0%nat) ltac:(lra)). now rewrite (curve_det n X Y _ _ _ HX H E).
  - destruct (Nat.eq_dec (S i) (n - 1)) as [En|Nn].
    + rewrite En in *. assert (E := after_last n X Y (X (n - 1)%nat) ltac:(apply ST; lia) ltac:(lra)). now rewrite (curve_det n X Y _ _ _ HX H E).
    + assert (E := inside n X Y (X (S i)) i ltac:(apply ST; lia) ltac:(apply ST; lia) ltac:(lia) ltac:(split; [apply ST; lia|lra])).
      rewrite (curve_det n X Y _ _ _ HX H E). field. pose proof (ST i (S i)). lra || (specialize (H0 ltac:(lia) ltac:(lia)); lra).
Qed.

(** with repeated abscissae: the first of the rows with this abscissa *)
Lemma curve_at_jump n X Y i v : ascending n X -> (0 < i)%nat -> (i < n)%nat -> X (i - 1)%nat < X i -> X i < X (n - 1)%nat ->
  curve n X Y (X i) v -> v = Y i.
Proof.
  intros HX Hi Hn Hf Hl H. destruct i as [|i]; [lia|]. replace (S i - 1)%nat with i in Hf by lia.
  assert (X 0%nat <= X i) by (apply (ascending_le n X HX); lia).
  assert (Hlt : (S i < n)%nat) by lia.
  assert (E := inside n X Y (X (S i)) i ltac:(lra) Hl Hlt ltac:(lra)). rewrite (curve_det n X Y _ _ _ HX H E). field. lra.
Qed.

Lemma curve_mono n X Y x x' v v' : (1 <= n)%nat -> ascending n X -> ascending n Y -> x <= x' -> curve n X Y x v -> curve n X Y x' v' -> v <= v'.
Proof.
  intros Hn HX HY Hx [A|A B|i A B Hi HI] H'.
  - apply (curve_between n X Y x' v' (Y 0%nat) (Y (n - 1)%nat)); auto. intros k Hk. split; apply (ascending_le n Y HY); lia.
  - assert (E : v' = Y (n - 1)%nat). { apply (curve_det n X Y x' v' _ HX H'). apply after_last; lra. } rewrite E. lra.
  - destruct H' as [A'|A' B'|j A' B' Hj HJ]; [lra| |].
    + apply Rle_trans with (Y (S i)); [|apply (ascending_le n Y HY); lia].
      pose proof (seg_between (X i) (X (S i)) x (Y i) (Y (S i)) (Y i) (Y (S i)) HI). pose proof (HY i Hi). lra.
    + destruct (lt_eq_lt_dec i j) as [[L|E]|L].
      * pose proof (seg_between (X i) (X (S i)) x (Y i) (Y (S i)) (Y i) (Y (S i)) HI).
        pose proof (seg_between (X j) (X (S j)) x' (Y j) (Y (S j)) (Y j) (Y (S j)) HJ).
        pose proof (HY i Hi). pose proof (HY j Hj). pose proof (ascending_le n Y HY (S i) j ltac:(lia) ltac:(lia)). lra.
      * subst j. pose proof (HY i Hi). assert (0 < X (S i) - X i) by lra.
        assert ((x - X i) / (X (S i) - X i) <= (x' - X i) / (X (S i) - X i)).
        { unfold Rdiv. apply Rmult_le_compat_r; [left; apply Rinv_0_lt_compat; lra|lra]. }
        nra.
      * exfalso. pose proof (ascending_le n X HX (S j) i ltac:(lia) ltac:(lia)). lra.
Qed.

Lemma clamp_low lo hi x : lo <= hi -> x <= lo -> clamp lo hi x = lo.
Proof. intros. unfold clamp. rewrite Rmin_right by lra. apply Rmax_left. lra. Qed.
Lemma clamp_high lo hi x : lo <= hi -> hi <= x -> clamp lo hi x = hi.
Proof. intros. unfold clamp. rewrite Rmin_left by lra. apply Rmax_right. lra. Qed.
Lemma clamp_mid lo hi x : lo <= x <= hi -> clamp lo hi x = x.
Proof. intros. unfold clamp. rewrite Rmin_right by lra. apply Rmax_right. lra. Qed.

(** straight lines are reproduced *)
Lemma curve_add n X Y x v a b : (1 <= n)%nat -> ascending n X -> curve n X Y x v ->
  curve n X (fun i => a * Y i + b * X i) x (a * v + b * clamp (X 0%nat) (X (n - 1)%nat) x).
Proof.
  intros Hn HX H. assert (L : X 0%nat <= X (n - 1)%nat) by (apply (ascending_le n X HX); lia). destruct H as [A|A B|i A B Hi HI].
  - rewrite clamp_low by lra. apply (before_first n X (fun i => a * Y i + b * X i)); auto.
  - rewrite clamp_high by lra. apply (after_last n X (fun i => a * Y i + b * X i)); auto.
  - rewrite clamp_mid by lra. assert (E := inside n X (fun i => a * Y i + b * X i) x i A B Hi HI).
    replace (a * (Y i + (x - X i) / (X (S i) - X i) * (Y (S i) - Y i)) + b * x) with
      (a * Y i + b * X i + (x - X i) / (X (S i) - X i) * (a * Y (S i) + b * X (S i) - (a * Y i + b * X i))); [exact E|]. field. lra.
Qed.

Lemma curve_linear n X Y x v a b : (1 <= n)%nat -> ascending n X -> (forall i, (i < n)%nat -> Y i = a + b * X i) -> curve n X Y x v ->
  v = a + b * clamp (X 0%nat) (X (n - 1)%nat) x.
Proof.
  intros Hn HX HY H. assert (L : X 0%nat <= X (n - 1)%nat) by (apply (ascending_le n X HX); lia). destruct H as [A|A B|i A B Hi HI].
  - rewrite clamp_low by lra. apply HY. lia.
  - rewrite clamp_high by lra. apply HY. lia.
  - rewrite clamp_mid by lra. rewrite !HY by lia. field. lra.
Qed.

Lemma clamp_lipschitz lo hi x x' : Rabs (clamp lo hi x - clamp lo hi x') <= Rabs (x - x').
Proof. unfold clamp, Rmin, Rmax, Rabs. repeat destruct (Rle_dec _ _); repeat destruct (Rcase_abs _); lra. Qed.

Lemma curve_lipschitz n X Y x x' v v' K : (1 <= n)%nat -> ascending n X -> 0 <= K ->
  (forall i, (S i < n)%nat -> Rabs (Y (S i) - Y i) <= K * (X (S i) - X i)) ->
  curve n X Y x v -> curve n X Y x' v' -> Rabs (v - v') <= K * Rabs (x - x').
Proof.
  intros Hn HX HK HL.
  assert (G : forall x x' v v', x <= x' -> curve n X Y x v -> curve n X Y x' v' -> Rabs (v - v') <= K * Rabs (x - x')).
  { clear x x' v v'. intros x x' v v' Hx H H'.
    assert (M1 : 1 * v + K * clamp (X 0%nat) (X (n - 1)%nat) x <= 1 * v' + K * clamp (X 0%nat) (X (n - 1)%nat) x').
    { refine (curve_mono n X (fun i => 1 * Y i + K * X i) x x' _ _ Hn HX _ Hx (curve_add n X Y x v 1 K Hn HX H) (curve_add n X Y x' v' 1 K Hn HX H')).
      intros i Hi. pose proof (HL i Hi). unfold Rabs in *. destruct (Rcase_abs _); lra. }
    assert (M2 : (-1) * v + K * clamp (X 0%nat) (X (n - 1)%nat) x <= (-1) * v' + K * clamp (X 0%nat) (X (n - 1)%nat) x').
    { refine (curve_mono n X (fun i => (-1) * Y i + K * X i) x x' _ _ Hn HX _ Hx (curve_add n X Y x v (-1) K Hn HX H) (curve_add n X Y x' v' (-1) K Hn HX H')).
      intros i Hi. pose proof (HL i Hi). unfold Rabs in *. destruct (Rcase_abs _); lra. }
    apply Rle_trans with (K * Rabs (clamp (X 0%nat) (X (n - 1)%nat) x - clamp (X 0%nat) (X (n - 1)%nat) x')); [|apply Rmult_le_compat_l; [lra|apply clamp_lipschitz]].
    assert (C : clamp (X 0%nat) (X (n - 1)%nat) x <= clamp (X 0%nat) (X (n - 1)%nat) x') by (unfold clamp; apply Rle_max_compat_l, Rle_min_compat_l; lra).
    rewrite (Rabs_left1 (clamp _ _ _ - _)) by lra. apply Rabs_le. lra. }
  intros H H'. destruct (Rle_dec x x'); [now apply G|]. rewrite (Rabs_minus_sym v v'), (Rabs_minus_sym x x'). apply G; auto; lra.
Qed.

(** filling tables *)
Lemma in_combine_seq {A} (l : list A) k i x : In (i, x) (combine (seq k (length l)) l) <-> (k <= i)%nat /\ nth_error l (i - k) = Some x.
Proof.
  revert k. induction l as [|y l IH]; intros k; cbn [length seq combine].
  - split; [intros []|]. intros [_ H]. destruct (i - k)%nat; discriminate.
  - cbn [In]. rewrite IH. split.
    + intros [[= <- <-]|[Hk H]]; [split; [lia|]; now rewrite Nat.sub_diag|]. split; [lia|].
      replace (i - k)%nat with (S (i - S k)) by lia. exact H.
    + intros [Hk H]. destruct (Nat.eq_dec i k) as [->|Hn]; [left; rewrite Nat.sub_diag in H; injection H as ->; reflexivity|].
      right. split; [lia|]. replace (i - k)%nat with (S (i - S k)) in H by lia. exact H.
Qed.

(** writing every row in turn *)
Lemma write_rows {A B} (l : list B) (nc : nat) (f : B -> nat -> A) :
  exists T, do_writes (flat_map (fun '(i, x) => map (fun j => (i, j, f x j)) (seq 0 nc)) (combine (seq 0 (length l)) l)) (new_arr (length l) nc) = Some T /\
    nrow T = length l /\ ncol T = nc /\ (forall i j x, nth_error l i = Some x -> (j < nc)%nat -> aget T i j = Some (f x j)).
Proof.
  set (w := flat_map _ _).
  assert (IN : forall i j v, In (i, j, v) w <-> exists x, nth_error l i = Some x /\ (j < nc)%nat /\ v = f x j).
  { intros i j v. unfold w. rewrite in_flat_map. split.
    - intros ([i' x] & H1 & H2). apply in_combine_seq in H1 as [_ H1]. rewrite Nat.sub_0_r in H1.
      apply in_map_iff in H2 as (j' & [= <- <- <-] & Hj). apply in_seq in Hj. exists x. repeat split; auto. lia.
    - intros (x & H1 & Hj & ->). exists (i, x). split; [apply in_combine_seq; rewrite Nat.sub_0_r; split; [lia|auto]|].
      apply in_map_iff. exists j. split; [reflexivity|apply in_seq; lia]. }
  destruct (@do_writes_some _ w (new_arr (length l) nc)) as (T & E & R1 & R2 & _ & H).
  { intros r c v Hi. apply IN in Hi as (x & Hx & Hc & _). cbn. split; auto. apply nth_error_Some. congruence. }
  exists T. split; [exact E|]. split; [exact R1|]. split; [exact R2|]. intros i j x Hx Hj. unfold aget. rewrite R1, R2. cbn [nrow ncol new_arr].
  assert (Hi : (i < length l)%nat) by (apply nth_error_Some; congruence).
  apply Nat.ltb_lt in Hi as ->. apply Nat.ltb_lt in Hj as Hj'. rewrite Hj'. cbn [andb]. apply H; [|apply IN; eauto].
  intros r c v v' Hv Hv'. apply IN in Hv as (y & Hy & _ & ->). apply IN in Hv' as (y' & Hy' & _ & ->). congruence.
Qed.

Definition tool_col (p : tool_point) (j : nat) : R :=
  match j with O => tp_time p | 1 => tp_x p | 2 => tp_y p | 3 => tp_z p | _ => tp_power p end%nat.

Lemma tool_path_spec pts : exists T, tool_path pts = Some T /\ nrow T = length pts /\ ncol T = 5%nat /\
  (forall i j p, nth_error pts i = Some p -> (j < 5)%nat -> aget T i j = Some (tool_col p j)).
Proof.
  unfold tool_path. rewrite (for_each_writes _ _ (fun '(i, x) => map (fun j => (i, j, tool_col x j)) (seq 0 5))).
  - apply write_rows.
  - intros [i x] a _. reflexivity.
Qed.

Lemma nth_error_nth0 {A} (l : list A) i d : (i < length l)%nat -> nth_error l i = Some (nth i l d).
Proof. revert i. induction l as [|x l IH]; intros [|i] H; cbn in *; try lia; auto. apply IH. lia. Qed.

Lemma fill_rows rows nc : (forall r, In r rows -> length r = nc) ->
  exists T, for_each (combine (seq 0 (length rows)) rows)
     (fun '(i, row) T => for_up 0 nc (fun j T => obind (nth_error row (nc - j - 1)) (aset T i j)) T) (new_arr (length rows) nc) = Some T /\
  nrow T = length rows /\ ncol T = nc /\
  (forall i j r, nth_error rows i = Some r -> (j < nc)%nat -> aget T i j = Some (nth (nc - j - 1) r 0)).
Proof.
  intros Hr. rewrite (for_each_writes _ _ (fun '(i, x) => map (fun j => (i, j, nth (nc - j - 1) x 0)) (seq 0 nc))).
  - apply (write_rows rows nc (fun r j => nth (nc - j - 1) r 0)).
  - intros [i x] a Hin. apply in_combine_r in Hin. apply Hr in Hin. unfold for_up.
    rewrite (for_each_writes _ _ (fun j => [(i, j, nth (nc - j - 1) x 0)])).
    + reflexivity.
    + intros j b Hj. apply in_seq in Hj. rewrite (nth_error_nth0 x (nc - j - 1) 0) by lia.
      unfold do_writes. cbn [for_each obind]. destruct (aset b i j _); reflexivity.
Qed.

Lemma verify_ok T c Y : (c < ncol T)%nat -> (forall i j, (i < nrow T)%nat -> (j < ncol T)%nat -> exists v, aget T i j = Some v) -> column T c Y ->
  verify_data T c = if verify_sorted T c then Some T else None.
Proof.
  intros Hc Hs HY. unfold verify_data. apply Nat.ltb_lt in Hc as ->. assert (V : verify_set T = true).
  { apply forallb_forall. intros i Hi. apply in_seq in Hi. apply forallb_forall. intros j Hj. apply in_seq in Hj.
    destruct (Hs i j) as (v & ->); auto; lia. }
  rewrite V. destruct (verify_sorted T c); reflexivity.
Qed.

Lemma verify_sorted_iff T c Y : column T c Y -> verify_sorted T c = true <-> ascending (nrow T) Y.
Proof.
  intros HY. unfold verify_sorted. rewrite forallb_forall. split.
  - intros H i Hi. specialize (H i). rewrite (HY i), (HY (i + 1)%nat) in H by lia. replace (i + 1)%nat with (S i) in H by lia.
    destruct (Rleb_spec (Y i) (Y (S i))); auto. discriminate H. apply in_seq. lia.
  - intros H i Hi. apply in_seq in Hi. rewrite (HY i), (HY (i + 1)%nat) by lia. replace (i + 1)%nat with (S i) by lia.
    destruct (Rleb_spec (Y i) (Y (S i))); auto. exfalso. apply n. apply H. lia.
Qed.

(** which rows make a table, and what is in it *)
Lemma fill_table_spec rows T : fill_table rows = Some T -> exists nc, (1 <= nc)%nat /\ rows <> [] /\ (forall r, In r rows -> length r = nc) /\
  nrow T = length rows /\ ncol T = nc /\
  (forall j, (j < nc)%nat -> column T j (fun i => nth (nc - j - 1) (nth i rows []) 0)) /\
  ascending (length rows) (fun i => nth (nc - 1) (nth i rows []) 0).
Proof.
  unfold fill_table. destruct rows as [|r0 rows']; [discriminate|]. set (rows := r0 :: rows') in *. set (nc := length r0).
  destruct (forallb (fun r => length r =? nc)%nat rows) eqn:F; [|discriminate].
  assert (Hl : forall r, In r rows -> length r = nc) by (intros r Hr; rewrite forallb_forall in F; apply Nat.eqb_eq; auto).
  destruct (fill_rows rows nc Hl) as (T' & -> & R1 & R2 & H). cbn [obind].
  assert (HC : forall j, (j < nc)%nat -> column T' j (fun i => nth (nc - j - 1) (nth i rows []) 0)).
  { intros j Hj i Hi. rewrite R1 in Hi. apply H; auto. now apply nth_error_nth0. }
  destruct (Nat.eq_dec nc 0) as [E0|N0].
  { unfold verify_data. rewrite R2, E0. discriminate. }
  rewrite (verify_ok T' 0 (fun i => nth (nc - 0 - 1) (nth i rows []) 0) ltac:(lia)).
  - destruct (verify_sorted T' 0) eqn:V; [|discriminate]. intros [= <-]. exists nc.
    apply (verify_sorted_iff T' 0 _ (HC 0%nat ltac:(lia))) in V. rewrite Nat.sub_0_r, R1 in V.
    split; [lia|]. split; [discriminate|]. auto.
  - intros i j Hi Hj. rewrite R2 in Hj. eexists. now apply (HC j Hj).
  - apply HC. lia.
Qed.

Lemma fill_table_ok rows nc : (1 <= nc)%nat -> rows <> [] -> (forall r, In r rows -> length r = nc) ->
  ascending (length rows) (fun i => nth (nc - 1) (nth i rows []) 0) -> exists T, fill_table rows = Some T.
Proof.
  intros Hn Hne Hl HA. unfold fill_table. destruct rows as [|r0 rows']; [congruence|]. set (rows := r0 :: rows') in *.
  assert (E0 : length r0 = nc) by (apply Hl; left; reflexivity). rewrite E0.
  assert (F : forallb (fun r => length r =? nc)%nat rows = true) by (apply forallb_forall; intros r Hr; apply Nat.eqb_eq; auto).
  rewrite F. destruct (fill_rows rows nc Hl) as (T' & -> & R1 & R2 & H). cbn [obind].
  assert (HC : forall j, (j < nc)%nat -> column T' j (fun i => nth (nc - j - 1) (nth i rows []) 0)).
  { intros j Hj i Hi. rewrite R1 in Hi. apply H; auto. now apply nth_error_nth0. }
  rewrite (verify_ok T' 0 (fun i => nth (nc - 0 - 1) (nth i rows []) 0) ltac:(lia)).
  - exists T'. rewrite (proj2 (verify_sorted_iff T' 0 _ (HC 0%nat ltac:(lia)))); [reflexivity|]. rewrite R1, Nat.sub_0_r. exact HA.
  - intros i j Hi Hj. rewrite R2 in Hj. eexists. now apply (HC j Hj).
  - apply HC. lia.
Qed.

(** the reader *)
Lemma parse_tokens_ok stod toks ws vs : Forall2 (fun t w => trim t = Some w /\ w <> []) toks ws -> Forall2 (fun w v => stod w = Some v) ws vs ->
  parse_tokens stod toks = Some (Some vs).
Proof.
  intros H. revert vs. induction H as [|t w toks ws [Ht Hw] H IH]; intros vs Hv; inversion Hv; subst; [reflexivity|].
  cbn. rewrite Ht. destruct w as [|c w]; [congruence|]. rewrite H2, (IH l') by auto. reflexivity.
Qed.

Lemma parse_data stod line vs : data_line stod line vs -> exists tl, trim line = Some tl /\ starts_with ["*"%char] tl = false /\ tl <> [] /\ parse_line stod tl = Some (Some vs).
Proof.
  intros (tl & toks & ws & Ht & E & Hc & Hs & Hv & H1 & H2). exists tl. split; [exact Ht|]. split; [exact Hs|].
  assert (Hn : toks <> []). { intros ->. inversion H1; subst. inversion H2; subst. congruence. }
  split.
  - subst tl. intros E. destruct toks as [|t [|t' toks]]; [congruence| |].
    + cbn in E. subst t. inversion H1; subst. destruct H3 as [H3 H4]. cbn in H3. injection H3 as <-. congruence.
    + apply (f_equal (@length ascii)) in E. cbn [join] in E. rewrite !app_length in E. cbn in E. lia.
  - unfold parse_line. rewrite E, split_join_char by auto. rewrite (parse_tokens_ok stod toks ws vs) by auto. destruct vs; [congruence|reflexivity].
Qed.

Lemma not_keyword_empty key tl : (tl = [] \/ is_comment tl = true) -> is_keyword tl && starts_with key (upper tl) = false /\ is_keyword tl = false.
Proof.
  intros [->|H]; [split; reflexivity|]. unfold is_keyword, is_comment in *. rewrite H. cbn. now rewrite andb_false_r.
Qed.

Lemma read_block stod key ls rows : block stod ls rows -> forall post buf,
  read_lines stod key (ls ++ post) true buf = read_lines stod key post true (buf ++ rows).
Proof.
  induction 1 as [|l ls rows (tl & Ht & Hc) H IH|l ls row rows Hd H IH]; intros post buf.
  - now rewrite app_nil_r.
  - cbn [app read_lines]. rewrite Ht. destruct tl as [|c tl]; [apply IH|]. destruct Hc as [[=]|Hc].
    destruct (not_keyword_empty key (c :: tl) (or_intror Hc)) as [E1 E2]. rewrite E1, E2, Hc. cbn [andb negb]. apply IH.
  - destruct (parse_data stod l row Hd) as (tl & Ht & Hs & Hn & Hp). cbn [app read_lines]. rewrite Ht. destruct tl as [|c tl]; [congruence|].
    assert (K : is_keyword (c :: tl) = false) by (unfold is_keyword; rewrite Hs; reflexivity).
    assert (C : is_comment (c :: tl) = false).
    { unfold is_comment. cbn [starts_with] in *. destruct (Ascii.eqb "*" c); [|reflexivity]. destruct tl; discriminate. }
    rewrite K, C. cbn [andb negb]. rewrite Hp, IH, <- app_assoc. reflexivity.
Qed.

Lemma read_skip stod key pre : Forall (fun l => ~ opens key l) pre -> forall post,
  read_lines stod key (pre ++ post) false [] = read_lines stod key post false [].
Proof.
  induction 1 as [|l pre H HF IH]; intros post; [reflexivity|]. cbn [app read_lines].
  destruct (trim_spec l) as (a & tl & b & Ht & _). rewrite Ht. destruct tl as [|c tl]; [apply IH|].
  assert (E : is_keyword (c :: tl) && starts_with key (upper (c :: tl)) = false).
  { destruct (is_keyword (c :: tl)) eqn:K; [|reflexivity]. destruct (starts_with key (upper (c :: tl))) eqn:S; [|reflexivity].
    exfalso. apply H. exists (c :: tl). auto. }
  rewrite E, andb_false_r. cbn [andb]. apply IH.
Qed.

Lemma read_file stod name pre kl ls rows post : Forall (fun l => ~ opens (keyword_of name) l) pre -> opens (keyword_of name) kl ->
  block stod ls rows -> (post = [] \/ exists l rest, post = l :: rest /\ other_keyword (keyword_of name) l) ->
  read_tabular_jmatpro_file stod (pre ++ kl :: ls ++ post) name = fill_table rows.
Proof.
  intros Hp (tl & Ht & Hk & Hs) Hb Hpost. unfold read_tabular_jmatpro_file. rewrite read_skip by auto.
  cbn [read_lines]. rewrite Ht. destruct tl as [|c tl]; [discriminate|]. rewrite Hk, Hs. cbn [andb].
  rewrite (read_block stod _ ls rows Hb). cbn [app]. destruct Hpost as [->|(l & rest & -> & (tl' & Ht' & Hk' & Hs'))]; [reflexivity|].
  cbn [read_lines]. rewrite Ht'. destruct tl' as [|c' tl']; [discriminate|]. rewrite Hk', Hs'. reflexivity.
Qed.

(** value, temperature pairs: read back exactly *)
Lemma two_columns stod name pre kl ls (pts : list (R * R)) post :
  Forall (fun l => ~ opens (keyword_of name) l) pre -> opens (keyword_of name) kl ->
  block stod ls (map (fun p => [fst p; snd p]) pts) -> (post = [] \/ exists l rest, post = l :: rest /\ other_keyword (keyword_of name) l) ->
  pts <> [] -> ascending (length pts) (fun i => snd (nth i pts (0, 0))) ->
  exists T, read_tabular_jmatpro_file stod (pre ++ kl :: ls ++ post) name = Some T /\ nrow T = length pts /\
    column T 0 (fun i => snd (nth i pts (0, 0))) /\ column T 1 (fun i => fst (nth i pts (0, 0))).
Proof.
  intros Hp Hk Hb Hpost Hne HA. rewrite (read_file stod name pre kl ls _ post Hp Hk Hb Hpost).
  set (rows := map (fun p => [fst p; snd p]) pts) in *.
  assert (L : length rows = length pts) by apply map_length.
  assert (Hnth : forall i, (i < length pts)%nat -> nth i rows [] = [fst (nth i pts (0, 0)); snd (nth i pts (0, 0))]).
  { intros i Hi. etransitivity; [apply (nth_indep rows [] [0; 0]); lia|]. exact (map_nth (fun p => [fst p; snd p]) pts (0, 0) i). }
  assert (Hl : forall r, In r rows -> length r = 2%nat) by (intros r Hr; apply in_map_iff in Hr as (p & <- & _); reflexivity).
  destruct (fill_table_ok rows 2) as (T & E).
  - lia.
  - unfold rows. destruct pts; [congruence|discriminate].
  - exact Hl.
  - intros i Hi. rewrite L in Hi. rewrite !Hnth by lia. cbn. apply HA. lia.
  - exists T. split; [exact E|]. destruct (fill_table_spec rows T E) as (nc & _ & Hr & Hl' & R1 & R2 & HC & _).
    assert (nc = 2%nat). { destruct rows as [|r rr]; [congruence|]. rewrite <- (Hl' r), (Hl r); auto; now left. } subst nc.
    rewrite L in R1. split; [exact R1|].
    split; intros i Hi; [rewrite (HC 0%nat ltac:(lia) i Hi)|rewrite (HC 1%nat ltac:(lia) i Hi)]; rewrite R1 in Hi; rewrite Hnth by lia; rewrite H; reflexivity.
Qed.

(** the tables of the materials *)
Lemma parse_fields_tables stod lines mat fs : forall M M', for_each fs (fun f M => parse_field stod lines mat f M) M = Some M' ->
  forall g, (the_table M' g = if existsb (field_eqb g) fs then read_tabular_jmatpro_file stod lines (field_name g) else the_table M g) /\
  (forall k, has_function M' k g = (Nat.eqb k mat && existsb (field_eqb g) fs) || has_function M k g).
Proof.
  assert (FE : forall a b, field_eqb a b = true -> a = b) by (intros [] []; cbn; congruence).
  induction fs as [|f fs IH]; intros M M' H g.
  - injection H as <-. cbn. split; [reflexivity|]. intros k. now rewrite andb_false_r.
  - cbn [for_each] in H. unfold parse_field at 1 in H. destruct (read_tabular_jmatpro_file stod lines (field_name f)) as [T|] eqn:E; [|discriminate].
    cbn [obind] in H. destruct (IH _ _ H g) as [H1 H2]. cbn [existsb the_table has_function] in *. rewrite H1. split.
    + destruct (existsb (field_eqb g) fs); [now rewrite orb_true_r|]. rewrite orb_false_r. destruct (field_eqb g f) eqn:G; [apply FE in G; subst; auto|reflexivity].
    + intros k. rewrite H2. destruct (Nat.eqb k mat), (field_eqb g f), (existsb (field_eqb g) fs); reflexivity.
Qed.

Lemma parse_tables_last stod l M M' f : parse_tables stod l M = Some M' ->
  the_table M' f = fold_left (fun t ti => if existsb (field_eqb f) (ti_fields ti) then read_tabular_jmatpro_file stod (ti_file ti) (field_name f) else t) l (the_table M f) /\
  (forall k, has_function M' k f = existsb (fun ti => Nat.eqb k (ti_mat ti) && existsb (field_eqb f) (ti_fields ti)) l || has_function M k f).
Proof.
  revert M. induction l as [|ti l IH]; intros M H.
  - injection H as <-. split; reflexivity.
  - unfold parse_tables in H. cbn [for_each] in H.
    destruct (for_each (ti_fields ti) (fun f M => parse_field stod (ti_file ti) (ti_mat ti) f M) M) as [M1|] eqn:E; [|discriminate].
    cbn [obind] in H. fold (parse_tables stod l M1) in H. destruct (IH M1 H) as [H1 H2].
    destruct (parse_fields_tables _ _ _ _ _ _ E f) as [H3 H4]. cbn [fold_left existsb]. rewrite H1, H3. split; [reflexivity|].
    intros k. rewrite H2, H4. rewrite <- orb_assoc. set (u := existsb _ l). destruct (Nat.eqb k (ti_mat ti) && existsb (field_eqb f) (ti_fields ti)), u; reflexivity.
Qed.

(** one material with tables: it gets its own values *)
Lemma own_table stod ti M' f t : parse_tables stod [ti] no_materials = Some M' -> In f (ti_fields ti) ->
  exists T, read_tabular_jmatpro_file stod (ti_file ti) (field_name f) = Some T /\ tabular_property M' (ti_mat ti) f t = linear_interpolation T t 1 0.
Proof.
  intros H Hf. destruct (parse_tables_last stod [ti] no_materials M' f H) as [H1 H2]. cbn [fold_left existsb] in *.
  assert (FE : existsb (field_eqb f) (ti_fields ti) = true) by (apply existsb_exists; exists f; split; [auto|destruct f; reflexivity]).
  rewrite FE in H1, H2. specialize (H2 (ti_mat ti)). rewrite Nat.eqb_refl in H2. cbn in H2. unfold tabular_property. rewrite H2, H1.
  unfold parse_tables in H. cbn [for_each] in H.
  destruct (for_each (ti_fields ti) (fun f M => parse_field stod (ti_file ti) (ti_mat ti) f M) no_materials) as [M1|] eqn:E; [|discriminate].
  clear H H1 H2. assert (G : forall fs M M', for_each fs (fun f M => parse_field stod (ti_file ti) (ti_mat ti) f M) M = Some M' -> In f fs ->
    exists T, read_tabular_jmatpro_file stod (ti_file ti) (field_name f) = Some T).
  { induction fs as [|g fs IH]; intros Ma Mb H [].
    - subst g. cbn [for_each] in H. unfold parse_field at 1 in H. destruct (read_tabular_jmatpro_file stod (ti_file ti) (field_name f)) as [T|]; [eauto|discriminate].
    - cbn [for_each] in H. destruct (parse_field stod (ti_file ti) (ti_mat ti) g Ma) as [Mc|]; [|discriminate]. cbn [obind] in H. eapply IH; eauto. }
  destruct (G _ _ _ E Hf) as (T & ET). exists T. rewrite ET. auto.
Qed.

(** a property without its field in the input: a null function pointer is called *)
Lemma missing_field stod l M' k f t : parse_tables stod l no_materials = Some M' ->
  (forall ti, In ti l -> ti_mat ti = k -> ~ In f (ti_fields ti)) -> tabular_property M' k f t = None.
Proof.
  intros H Hn. destruct (parse_tables_last stod l no_materials M' f H) as [_ H2]. unfold tabular_property. rewrite H2. cbn [has_function no_materials].
  rewrite orb_false_r. destruct (existsb _ l) eqn:E; [|reflexivity]. exfalso. apply existsb_exists in E as (ti & Hti & E).
  apply andb_true_iff in E as [E1 E2]. apply Nat.eqb_eq in E1. apply existsb_exists in E2 as (g & Hg & E2).
  apply (Hn ti Hti (eq_sym E1)). destruct f, g; try discriminate; auto.
Qed.

(** a tool path *)
Lemma tool_curve pts : pts <> [] -> exists T, tool_path pts = Some T /\
  forall t, exists x y z q, get_position T t = Some (x, y, z) /\ get_power T t = Some q /\
    curve (length pts) (fun i => tp_time (nth i pts (mkTool 0 0 0 0 0))) (fun i => tp_x (nth i pts (mkTool 0 0 0 0 0))) t x /\
    curve (length pts) (fun i => tp_time (nth i pts (mkTool 0 0 0 0 0))) (fun i => tp_y (nth i pts (mkTool 0 0 0 0 0))) t y /\
    curve (length pts) (fun i => tp_time (nth i pts (mkTool 0 0 0 0 0))) (fun i => tp_z (nth i pts (mkTool 0 0 0 0 0))) t z /\
    curve (length pts) (fun i => tp_time (nth i pts (mkTool 0 0 0 0 0))) (fun i => tp_power (nth i pts (mkTool 0 0 0 0 0))) t q.
Proof.
  intros Hne. destruct (tool_path_spec pts) as (T & E & R1 & _ & H). exists T. split; [exact E|]. intros t.
  assert (HC : forall j, (j < 5)%nat -> column T j (fun i => tool_col (nth i pts (mkTool 0 0 0 0 0)) j)).
  { intros j Hj i Hi. rewrite R1 in Hi. apply H; auto. now apply nth_error_nth0. }
  assert (Hn : (1 <= nrow T)%nat) by (rewrite R1; destruct pts; [congruence|cbn; lia]).
  destruct (interp_curve T 1 0 _ _ t Hn (HC 0%nat ltac:(lia)) (HC 1%nat ltac:(lia))) as (x & Ex & Cx).
  destruct (interp_curve T 2 0 _ _ t Hn (HC 0%nat ltac:(lia)) (HC 2%nat ltac:(lia))) as (y & Ey & Cy).
  destruct (interp_curve T 3 0 _ _ t Hn (HC 0%nat ltac:(lia)) (HC 3%nat ltac:(lia))) as (z & Ez & Cz).
  destruct (interp_curve T 4 0 _ _ t Hn (HC 0%nat ltac:(lia)) (HC 4%nat ltac:(lia))) as (q & Eq & Cq).
  exists x, y, z, q. unfold get_position, get_power. rewrite Ex, Ey, Ez, Eq. cbn [obind]. rewrite R1 in *. cbn [tool_col] in *. auto 8.
Qed.

(** Two materials with a density table each. *)
Definition digit (s : str) : option R :=
  match s with
  | [c] => if Ascii.eqb c "0" then Some 0 else if Ascii.eqb c "1" then Some 1 else if Ascii.eqb c "2" then Some 2
           else if Ascii.eqb c "3" then Some 3 else None
  | _ => None
  end.
Definition file1 : list str := map of_string ["**header"; "*CONDUCTIVITY"; "9,9"; "*DENSITY"; " 1, 0 "; "** note"; ""; " 1, 3"; "*ELASTIC"; "1,1"]%string.
Definition file2 : list str := map of_string ["*density"; "2,0"; "2,3"]%string.

Lemma file1_table : exists T, read_tabular_jmatpro_file digit file1 (field_name Density) = Some T /\ nrow T = 2%nat /\
  column T 0 (fun i => snd (nth i [(1, 0); (1, 3)] (0, 0))) /\ column T 1 (fun i => fst (nth i [(1, 0); (1, 3)] (0, 0))).
Proof.
  apply (two_columns digit (field_name Density) (map of_string ["**header"; "*CONDUCTIVITY"; "9,9"]%string) (of_string "*DENSITY")
    (map of_string [" 1, 0 "; "** note"; ""; " 1, 3"]%string) [(1, 0); (1, 3)] (map of_string ["*ELASTIC"; "1,1"]%string)).
  - repeat constructor; intros (tl & E & K & S); vm_compute in E; injection E as <-; vm_compute in K, S; discriminate.
  - eexists. repeat split; vm_compute; reflexivity.
  - apply block_data.
    + exists (of_string "1, 0"), (map of_string ["1"; " 0"]%string), (map of_string ["1"; "0"]%string). repeat split; try (vm_compute; reflexivity); try discriminate.
      * repeat constructor; vm_compute; intuition discriminate.
      * repeat constructor; try (vm_compute; reflexivity); discriminate.
      * repeat constructor.
    + apply block_empty; [eexists; split; [vm_compute; reflexivity|right; reflexivity]|].
      apply block_empty; [eexists; split; [vm_compute; reflexivity|left; reflexivity]|].
      apply block_data; [|constructor].
      exists (of_string "1, 3"), (map of_string ["1"; " 3"]%string), (map of_string ["1"; "3"]%string). repeat split; try (vm_compute; reflexivity); try discriminate.
      * repeat constructor; vm_compute; intuition discriminate.
      * repeat constructor; try (vm_compute; reflexivity); discriminate.
      * repeat constructor.
  - right. eexists _, _. split; [reflexivity|]. eexists. repeat split; vm_compute; reflexivity.
  - discriminate.
  - intros [|[|i]] Hi; cbn in *; try lia; lra.
Qed.

Lemma file2_table : exists T, read_tabular_jmatpro_file digit file2 (field_name Density) = Some T /\ nrow T = 2%nat /\
  column T 0 (fun i => snd (nth i [(2, 0); (2, 3)] (0, 0))) /\ column T 1 (fun i => fst (nth i [(2, 0); (2, 3)] (0, 0))).
Proof.
  apply (two_columns digit (field_name Density) [] (of_string "*density") (map of_string ["2,0"; "2,3"]%string) [(2, 0); (2, 3)] []).
  - constructor.
  - eexists. repeat split; vm_compute; reflexivity.
  - apply block_data; [|apply block_data; [|constructor]].
    + exists (of_string "2,0"), (map of_string ["2"; "0"]%string), (map of_string ["2"; "0"]%string). repeat split; try (vm_compute; reflexivity); try discriminate.
      * repeat constructor; vm_compute; intuition discriminate.
      * repeat constructor; try (vm_compute; reflexivity); discriminate.
      * repeat constructor.
    + exists (of_string "2,3"), (map of_string ["2"; "3"]%string), (map of_string ["2"; "3"]%string). repeat split; try (vm_compute; reflexivity); try discriminate.
      * repeat constructor; vm_compute; intuition discriminate.
      * repeat constructor; try (vm_compute; reflexivity); discriminate.
      * repeat constructor.
  - left. reflexivity.
  - discriminate.
  - intros [|[|i]] Hi; cbn in *; try lia; lra.
Qed.

Lemma shared_table : exists M', parse_tables digit [mkTab 0 file1 [Density]; mkTab 1 file2 [Density]] no_materials = Some M' /\
  (exists T, read_tabular_jmatpro_file digit file1 (field_name Density) = Some T /\ linear_interpolation T 1 1 0 = Some 1) /\
  tabular_property M' 0 Density 1 = Some 2.
Proof.
  destruct file1_table as (T1 & E1 & N1 & A1 & B1). destruct file2_table as (T2 & E2 & N2 & A2 & B2).
  unfold parse_tables, parse_field. cbn [for_each ti_fields ti_file ti_mat]. rewrite E1. cbn [obind]. rewrite E2. cbn [obind for_each].
  eexists. split; [reflexivity|]. split.
  - exists T1. split; [reflexivity|]. destruct (interp_curve T1 1 0 _ _ 1 ltac:(lia) A1 B1) as (v & -> & C). f_equal.
    rewrite N1 in C. enough (1 <= v <= 1) by lra. eapply curve_between; [|clear|exact C]; [lia|].
    intros i Hi; destruct i as [|[|i]]; cbn [nth fst]; [lra|lra|lia].
  - unfold tabular_property. cbn. destruct (interp_curve T2 1 0 _ _ 1 ltac:(lia) A2 B2) as (v & E & C). rewrite E. f_equal.
    rewrite N2 in C. enough (2 <= v <= 2) by lra. eapply curve_between; [|clear|exact C]; [lia|].
    intros i Hi; destruct i as [|[|i]]; cbn [nth fst]; [lra|lra|lia].
Qed.
