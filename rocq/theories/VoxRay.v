(* One ray: which facets it crosses, where, and what is labelled. *)
From Coq Require Import Reals List Arith Lia Lra Permutation Sorted.
From Verif Require Import VoxModel VoxSpec.
Import ListNotations.
Local Open Scope R_scope.

(* ---------- crossing a facet ---------- *)

Definition cr (p q : point) (x y : R) : R := (px p - px q) * (py p - y) - (py p - py q) * (px p - x).

Lemma gt_fin a y : egt (Fin a) (Fin y) = true <-> y < a.
Proof. unfold egt. destruct (Rlt_dec y a); split; intros; try assumption; try discriminate; try contradiction; reflexivity. Qed.

Lemma above p q x y : px p <> px q -> (egt (predicted p q x) (Fin y) = true <-> 0 < cr p q x y / (px p - px q)) /\ (egt (Fin y) (predicted p q x) = true <-> cr p q x y / (px p - px q) < 0).
Proof.
  intros N. assert (E : py p - (py p - py q) * (px p - x) / (px p - px q) - y = cr p q x y / (px p - px q)) by (unfold cr; field; lra).
  unfold predicted, ediv. destruct (Req_EM_T (px p - px q) 0) as [Z|Z]; [exfalso; lra|]. cbn [minus_e]. rewrite !gt_fin. rewrite <- E. lra.
Qed.
Lemma above_vertical p q x y : px p = px q -> (egt (predicted p q x) (Fin y) = true <-> 0 < cr p q x y) /\ (egt (Fin y) (predicted p q x) = true <-> cr p q x y < 0).
Proof.
  intros N. unfold predicted, ediv, cr. rewrite N. replace (px q - px q) with 0 by ring. rewrite Rmult_0_l. destruct (Req_EM_T 0 0) as [_|H]; [|contradiction].
  destruct (Rlt_dec 0 ((py p - py q) * (px q - x))); [|destruct (Rlt_dec ((py p - py q) * (px q - x)) 0)]; cbn [minus_e egt]; split; split; intros; try discriminate; try reflexivity; lra.
Qed.
Lemma same_side_iff p q o x y : same_side p q o x y = true <-> 0 < cr p q (px o) (py o) * cr p q x y.
Proof.
  unfold same_side. rewrite Bool.orb_true_iff, !Bool.andb_true_iff.
  assert (K : forall u v, (0 < u /\ 0 < v \/ u < 0 /\ v < 0) <-> 0 < u * v).
  { intros u v. split; [intros [[A B]|[A B]]; [apply Rmult_lt_0_compat; assumption|replace (u * v) with ((- u) * (- v)) by ring; apply Rmult_lt_0_compat; lra]|].
    intros H. destruct (Rtotal_order u 0) as [U|[->|U]]; [right|exfalso; lra|left]; (split; [exact U|]); destruct (Rtotal_order v 0) as [V|[->|V]]; try lra; try (exfalso; nra); nra. }
  destruct (Req_dec (px p) (px q)) as [E|E].
  - destruct (above_vertical p q (px o) (py o) E) as [-> ->], (above_vertical p q x y E) as [-> ->]. apply K.
  - destruct (above p q (px o) (py o) E) as [-> ->], (above p q x y E) as [-> ->]. rewrite K.
    assert (D : px p - px q <> 0) by lra. assert (Q : 0 < / (px p - px q) * / (px p - px q)) by (rewrite <- Rinv_mult; apply Rinv_0_lt_compat; destruct (Rtotal_order (px p - px q) 0) as [L|[L|L]]; [nra|lra|nra]).
    replace (cr p q (px o) (py o) / (px p - px q) * (cr p q x y / (px p - px q))) with (cr p q (px o) (py o) * cr p q x y * (/ (px p - px q) * / (px p - px q))) by (unfold Rdiv; ring).
    split; intros H; [|apply Rmult_lt_0_compat; assumption]. apply Rmult_lt_reg_r with (/ (px p - px q) * / (px p - px q)); [exact Q|]. rewrite Rmult_0_l. exact H.
Qed.

Lemma sides f x y : crossed x y f = true <-> 0 < double_area f * cr (v2 f) (v3 f) x y /\ 0 < double_area f * cr (v3 f) (v1 f) x y /\ 0 < double_area f * cr (v1 f) (v2 f) x y.
Proof.
  unfold crossed.
  assert (A1 : cr (v2 f) (v3 f) (px (v1 f)) (py (v1 f)) = double_area f) by (unfold cr, double_area; ring).
  assert (A2 : cr (v3 f) (v1 f) (px (v2 f)) (py (v2 f)) = double_area f) by (unfold cr, double_area; ring).
  assert (A3 : cr (v1 f) (v2 f) (px (v3 f)) (py (v3 f)) = double_area f) by (unfold cr, double_area; ring).
  pose proof (same_side_iff (v2 f) (v3 f) (v1 f) x y) as I1. pose proof (same_side_iff (v3 f) (v1 f) (v2 f) x y) as I2. pose proof (same_side_iff (v1 f) (v2 f) (v3 f) x y) as I3.
  rewrite A1 in I1. rewrite A2 in I2. rewrite A3 in I3. rewrite <- I1, <- I2, <- I3.
  destruct (same_side (v2 f) (v3 f) (v1 f) x y), (same_side (v3 f) (v1 f) (v2 f) x y); split; intros H; try discriminate; try tauto; destruct H as (? & ? & ?); discriminate.
Qed.

(* The three tests accept the rays through the inside of the facet and no others. *)
Lemma crossed_iff f x y : crossed x y f = true <-> exists z, hit x y f z.
Proof.
  rewrite sides. split.
  - intros (A & B & C). assert (N : double_area f <> 0) by (intros Z; rewrite Z in A; lra).
    set (S := double_area f) in *. assert (SP : 0 < / S * / S) by (rewrite <- Rinv_mult; apply Rinv_0_lt_compat; destruct (Rtotal_order S 0) as [L|[L|L]]; [nra|lra|nra]).
    assert (P : forall c, 0 < S * c -> 0 < c / S). { intros c H. replace (c / S) with (S * c * (/ S * / S)) by (field; exact N). apply Rmult_lt_0_compat; assumption. }
    eexists. split; [exact N|]. exists (cr (v2 f) (v3 f) x y / S), (cr (v3 f) (v1 f) x y / S), (cr (v1 f) (v2 f) x y / S).
    split; [apply P, A|]. split; [apply P, B|]. split; [apply P, C|].
    split; [unfold S, cr, double_area in *; field; exact N|]. split; [unfold S, cr, double_area in *; field; exact N|]. split; [unfold S, cr, double_area in *; field; exact N|reflexivity].
  - intros (z & N & a & b & c & A & B & C & E & X & Y & _). assert (c = 1 - a - b) as -> by lra.
    assert (E1 : cr (v2 f) (v3 f) x y = a * double_area f) by (rewrite X, Y; unfold cr, double_area; ring).
    assert (E2 : cr (v3 f) (v1 f) x y = b * double_area f) by (rewrite X, Y; unfold cr, double_area; ring).
    assert (E3 : cr (v1 f) (v2 f) x y = (1 - a - b) * double_area f) by (rewrite X, Y; unfold cr, double_area; ring).
    rewrite E1, E2, E3. assert (0 < double_area f * double_area f) by (destruct (Rtotal_order (double_area f) 0) as [L|[L|L]]; [nra|lra|nra]). repeat split; nra.
Qed.

Lemma least_le a b c : least a b c <= a /\ least a b c <= b /\ least a b c <= c.
Proof. unfold least. destruct (Rle_dec a b); [destruct (Rle_dec a c)|destruct (Rle_dec b c)]; lra. Qed.
Lemma largest_ge a b c : a <= largest a b c /\ b <= largest a b c /\ c <= largest a b c.
Proof. unfold largest. pose proof (least_le (- a) (- b) (- c)). lra. Qed.
Lemma mean_between l u a b c x y z : 0 < a -> 0 < b -> 0 < c -> a + b + c = 1 -> l <= x <= u -> l <= y <= u -> l <= z <= u -> l <= a * x + b * y + c * z <= u.
Proof. intros A B C E X Y Z. assert (c = 1 - a - b) as -> by lra. split; nra. Qed.
Lemma hit_possible x y f z : hit x y f z -> possible x y f = true.
Proof.
  intros (_ & a & b & c & A & B & C & E & X & Y & _). unfold possible.
  pose proof (least_le (px (v1 f)) (px (v2 f)) (px (v3 f))). pose proof (largest_ge (px (v1 f)) (px (v2 f)) (px (v3 f))). pose proof (least_le (py (v1 f)) (py (v2 f)) (py (v3 f))). pose proof (largest_ge (py (v1 f)) (py (v2 f)) (py (v3 f))).
  pose proof (mean_between (least (px (v1 f)) (px (v2 f)) (px (v3 f))) (largest (px (v1 f)) (px (v2 f)) (px (v3 f))) a b c (px (v1 f)) (px (v2 f)) (px (v3 f)) A B C E ltac:(lra) ltac:(lra) ltac:(lra)) as M.
  pose proof (mean_between (least (py (v1 f)) (py (v2 f)) (py (v3 f))) (largest (py (v1 f)) (py (v2 f)) (py (v3 f))) a b c (py (v1 f)) (py (v2 f)) (py (v3 f)) A B C E ltac:(lra) ltac:(lra) ltac:(lra)) as M'.
  rewrite <- X in M. rewrite <- Y in M'. repeat (destruct (Rle_dec _ _); [|exfalso; lra]). reflexivity.
Qed.

Lemma hit_height x y f z : hit x y f z -> / 10 ^ 14 <= Rabs (double_area f) -> plane_z x y f = Fin z.
Proof.
  intros (N & a & b & c & A & B & C & E & X & Y & Z) S. unfold plane_z. cbv zeta.
  set (Cc := px (v1 f) * (py (v2 f) - py (v3 f)) + px (v2 f) * (py (v3 f) - py (v1 f)) + px (v3 f) * (py (v1 f) - py (v2 f))).
  assert (CA : Cc = double_area f) by (unfold Cc, double_area; ring).
  assert (SQ : sqrt (Cc ^ 2) = Rabs (double_area f)) by (rewrite CA; replace (double_area f ^ 2) with (Rsqr (double_area f)) by (unfold Rsqr; ring); apply sqrt_Rsqr_abs).
  destruct (Rlt_dec (sqrt (Cc ^ 2)) (/ 10 ^ 14)) as [L|_]; [exfalso; rewrite SQ in L; lra|].
  unfold ediv. destruct (Req_EM_T Cc 0) as [C0|C0]; [exfalso; apply N; rewrite <- CA; exact C0|]. f_equal.
  apply Rmult_eq_reg_r with Cc; [|exact C0]. unfold Rdiv. rewrite Rmult_assoc, Rinv_l, Rmult_1_r by exact C0. subst x y z. assert (c = 1 - a - b) as -> by lra. unfold Cc. ring.
Qed.

Lemma cross_list x y fs zs : heights x y fs zs -> (forall f z, In f fs -> hit x y f z -> / 10 ^ 14 <= Rabs (double_area f)) ->
  map (plane_z x y) (filter (crossed x y) (filter (possible x y) fs)) = map Fin zs.
Proof.
  induction 1 as [|f fs z zs H _ IH|f fs zs H _ IH]; intros S; [reflexivity| |].
  - cbn [filter]. rewrite (hit_possible x y f z H). cbn [filter]. assert (C : crossed x y f = true) by (apply crossed_iff; exists z; exact H). rewrite C. cbn [map].
    rewrite (hit_height x y f z H (S f z (or_introl eq_refl) H)). f_equal. apply IH. intros g w G. apply S. right. exact G.
  - assert (C : crossed x y f = false) by (destruct (crossed x y f) eqn:E; [|reflexivity]; apply crossed_iff in E; destruct E as [z E]; exfalso; exact (H z E)).
    cbn [filter]. destruct (possible x y f); cbn [filter]; try rewrite C; apply IH; intros g w G; apply S; right; exact G.
Qed.

(* ---------- keeping what occurs once ---------- *)

Lemma in_numbered {A} (l : list A) : forall s j w, In (j, w) (combine (seq s (length l)) l) -> exists i, j = (s + i)%nat /\ nth_error l i = Some w.
Proof.
  induction l as [|a l IH]; intros s j w; cbn [length seq combine]; [contradiction|]. intros [E|I].
  - injection E as <- <-. exists 0%nat. split; [lia|reflexivity].
  - destruct (IH _ _ _ I) as (i & -> & N). exists (S i). split; [lia|exact N].
Qed.
Lemma unique_rest all : NoDup all -> forall zs pre, all = pre ++ zs -> unique_loop false (map Fin all) (length pre) (map Fin zs) = map Fin zs.
Proof.
  intros ND. induction zs as [|z zs IH]; intros pre E; [reflexivity|]. cbn [map unique_loop].
  assert (T : existsb (fun jz => (eeq (Fin z) (snd jz) && negb (Nat.eqb (length pre) (fst jz)))%bool) (combine (seq 0 (length (map Fin all))) (map Fin all)) = false).
  { apply Bool.not_true_iff_false. intros H. apply existsb_exists in H. destruct H as ([j w] & I & B). apply in_numbered in I. destruct I as (i & J & N). cbn [fst snd] in B. apply Bool.andb_true_iff in B. destruct B as [B1 B2].
    cbn [Nat.add] in J. subst j. rewrite nth_error_map in N. destruct (nth_error all i) as [r|] eqn:NE; [|discriminate]. injection N as <-. unfold eeq in B1. destruct (Req_EM_T z r) as [<-|]; [|discriminate].
    assert (NP : nth_error all (length pre) = Some z) by (rewrite E, nth_error_app2, Nat.sub_diag by lia; reflexivity).
    assert (i = length pre) as ->; [|rewrite Nat.eqb_refl in B2; discriminate]. apply (proj1 (NoDup_nth_error all) ND); [apply nth_error_Some; congruence|congruence]. }
  rewrite T. cbn [orb]. f_equal. specialize (IH (pre ++ [z])). rewrite app_length in IH. cbn [length] in IH. rewrite Nat.add_1_r in IH. apply IH. rewrite <- app_assoc. exact E.
Qed.
Lemma unique_all zs : NoDup zs -> unique false (map Fin zs) = map Fin zs.
Proof. intros ND. apply (unique_rest zs ND zs []). reflexivity. Qed.
Lemma unique_flag z zs : NoDup (z :: zs) -> unique true (map Fin (z :: zs)) = map Fin zs.
Proof.
  intros ND. unfold unique. cbn [map unique_loop]. rewrite Bool.orb_true_r. apply (unique_rest (z :: zs) ND zs [z]). reflexivity.
Qed.

(* ---------- sorting ---------- *)

Fixpoint rfrom (a : R) (r : list R) : list R := match r with [] => [a] | b :: r => if Rlt_dec b a then b :: rfrom a r else a :: rfrom b r end.
Definition rpass (l : list R) : list R := match l with [] => [] | a :: r => rfrom a r end.
Lemma bubble_from_fin r : forall a, bubble_from (Fin a) (map Fin r) = map Fin (rfrom a r).
Proof. induction r as [|b r IH]; intros a; [reflexivity|]. cbn [map bubble_from rfrom egt]. destruct (Rlt_dec b a); cbn [map]; rewrite IH; reflexivity. Qed.
Lemma bubble_fin l : bubble (map Fin l) = map Fin (rpass l).
Proof. destruct l; [reflexivity|]. apply bubble_from_fin. Qed.
Lemma rfrom_perm r : forall a, Permutation (rfrom a r) (a :: r).
Proof.
  induction r as [|b r IH]; intros a; [reflexivity|]. cbn [rfrom]. destruct (Rlt_dec b a); [|constructor; apply IH]. rewrite (IH a). apply perm_swap.
Qed.
Lemma rpass_perm l : Permutation (rpass l) l.
Proof. destruct l; [reflexivity|]. apply rfrom_perm. Qed.
Lemma rfrom_last r : forall a, exists q m, rfrom a r = q ++ [m] /\ (forall w, In w (a :: r) -> w <= m).
Proof.
  induction r as [|b r IH]; intros a; [exists [], a; split; [reflexivity|intros w [<-|[]]; lra]|]. cbn [rfrom]. destruct (Rlt_dec b a) as [L|L].
  - destruct (IH a) as (q & m & -> & M). exists (b :: q), m. split; [reflexivity|]. intros w [<-|[<-|W]]; [apply M; left; reflexivity|pose proof (M a (or_introl eq_refl)); lra|apply M; right; exact W].
  - destruct (IH b) as (q & m & -> & M). exists (a :: q), m. split; [reflexivity|]. intros w [<-|W]; [pose proof (M b (or_introl eq_refl)); lra|apply M; exact W].
Qed.
Lemma rfrom_sorted s : forall a, StronglySorted Rle (a :: s) -> rfrom a s = a :: s.
Proof.
  induction s as [|b s IH]; intros a H; [reflexivity|]. cbn [rfrom]. inversion H as [|? ? H1 H2]; subst. inversion H2; subst. destruct (Rlt_dec b a); [exfalso; lra|]. rewrite IH by exact H1. reflexivity.
Qed.
Lemma rfrom_app r s : forall a, StronglySorted Rle s -> (forall w v, In w (a :: r) -> In v s -> w <= v) -> rfrom a (r ++ s) = rfrom a r ++ s.
Proof.
  induction r as [|b r IH]; intros a H B.
  - cbn [app rfrom]. apply rfrom_sorted. constructor; [exact H|]. apply Forall_forall. intros v V. apply B; [left; reflexivity|exact V].
  - cbn [app rfrom]. destruct (Rlt_dec b a); cbn [app]; f_equal; apply IH; try exact H; intros w v [<-|W] V; apply B; cbn [In]; try tauto.
Qed.
Lemma passes_sorted l : forall k, exists u s, Nat.iter k rpass l = u ++ s /\ StronglySorted Rle s /\ (forall w v, In w u -> In v s -> w <= v) /\ (length u = length l - k)%nat.
Proof.
  induction k as [|k (u & s & E & H & B & L)].
  - exists l, []. split; [cbn; symmetry; apply app_nil_r|]. split; [constructor|]. split; [intros ? ? _ []|lia].
  - change (Nat.iter (S k) rpass l) with (rpass (Nat.iter k rpass l)). rewrite E. destruct u as [|a r].
    + exists [], s. cbn [app]. split; [|split; [exact H|split; [intros ? ? []|cbn [length] in *; lia]]]. destruct s as [|b s]; [reflexivity|]. apply rfrom_sorted. exact H.
    + cbn [app rpass]. rewrite rfrom_app by assumption. destruct (rfrom_last r a) as (q & m & Q & M). rewrite Q. exists q, (m :: s). split; [rewrite <- app_assoc; reflexivity|].
      assert (P : Permutation (q ++ [m]) (a :: r)) by (rewrite <- Q; apply rfrom_perm).
      assert (IM : In m (a :: r)) by (apply (Permutation_in m P), in_or_app; right; left; reflexivity).
      assert (IQ : forall w, In w q -> In w (a :: r)) by (intros w W; apply (Permutation_in w P), in_or_app; left; exact W).
      split; [constructor; [exact H|apply Forall_forall; intros v V; apply B; assumption]|]. split.
      * intros w v W [<-|V]; [apply M, IQ, W|apply B; [apply IQ, W|exact V]].
      * apply Permutation_length in P. rewrite app_length in P. cbn [length] in *. lia.
Qed.
Definition rsort (l : list R) : list R := Nat.iter (length l) rpass l.
Lemma rsort_sorted l : StronglySorted Rle (rsort l).
Proof. destruct (passes_sorted l (length l)) as (u & s & E & H & _ & L). unfold rsort. rewrite E. destruct u; [exact H|cbn [length] in L; lia]. Qed.
Lemma rsort_perm l : Permutation (rsort l) l.
Proof. unfold rsort. generalize (length l) as k. induction k as [|k IH]; [reflexivity|]. eapply Permutation_trans; [apply rpass_perm|exact IH]. Qed.
Lemma rsort_again l : StronglySorted Rle l -> rsort l = l.
Proof. intros H. unfold rsort. generalize (length l) as k. induction k as [|k IH]; [reflexivity|]. cbn [Nat.iter nat_rect]. unfold Nat.iter in IH. rewrite IH. destruct l; [reflexivity|]. apply rfrom_sorted. exact H. Qed.
Lemma bubble_sort_fin l : bubble_sort (map Fin l) = map Fin (rsort l).
Proof.
  unfold bubble_sort, rsort. rewrite map_length. generalize (length l) as k. induction k as [|k IH]; [reflexivity|]. cbn [Nat.iter nat_rect]. unfold Nat.iter in IH. rewrite IH. apply bubble_fin.
Qed.
Lemma sorts_fin l k : Nat.iter (S k) bubble_sort (map Fin l) = map Fin (rsort l).
Proof. induction k as [|k IH]; [apply bubble_sort_fin|]. change (Nat.iter (S (S k)) bubble_sort (map Fin l)) with (bubble_sort (Nat.iter (S k) bubble_sort (map Fin l))). rewrite IH, bubble_sort_fin. rewrite rsort_again by apply rsort_sorted. reflexivity. Qed.

(* ---------- labelling ---------- *)

Lemma near_close z c : near z (Fin c) = true <-> close z c.
Proof.
  assert (P : 0 < 10 ^ 4) by (apply pow_lt; lra).
  unfold near, close. destruct (Req_EM_T z 0) as [E|E]; [split; [discriminate|intros [N _]; contradiction]|].
  replace ((z - c) ^ 2) with (Rsqr (z - c)) by (unfold Rsqr; ring). replace (z ^ 2) with (Rsqr z) by (unfold Rsqr; ring). rewrite !sqrt_Rsqr_abs.
  assert (Z : 0 < Rabs z) by (apply Rabs_pos_lt; exact E).
  assert (K : Rabs (z - c) / Rabs z < / 10 ^ 4 <-> Rabs (z - c) < Rabs z / 10 ^ 4).
  { split; intros H.
    - apply Rmult_lt_compat_r with (r := Rabs z) in H; [|exact Z]. unfold Rdiv in H. rewrite Rmult_assoc, Rinv_l, Rmult_1_r in H by lra. unfold Rdiv. lra.
    - apply Rmult_lt_reg_r with (Rabs z); [exact Z|]. unfold Rdiv. rewrite Rmult_assoc, Rinv_l, Rmult_1_r by lra. unfold Rdiv in H. lra. }
  destruct (Rlt_dec _ _) as [L|L]; split; intros H; try discriminate; try reflexivity; [split; [exact E|apply K, L]|exfalso; apply L, K; exact (proj2 H)].
Qed.
Fixpoint pin (z : R) (l : list R) : Prop := match l with a :: b :: r => (a < z < b \/ close z a \/ close z b) \/ pin z r | _ => False end.
Lemma even_ind (P : list R -> Prop) : P [] -> (forall a b r, P r -> P (a :: b :: r)) -> forall l, Nat.even (length l) = true -> P l.
Proof.
  intros P0 P2. fix go 1. intros [|a [|b r]] E; [exact P0|discriminate|]. apply P2. apply go. exact E.
Qed.
Lemma pin_nth z l : Nat.even (length l) = true ->
  (existsb (fun k => voxel_inside (nth (2 * k) (map Fin l) NaN) (nth (2 * k + 1) (map Fin l) NaN) z) (seq 0 (length l / 2)) = true <-> pin z l).
Proof.
  revert l. apply even_ind; [cbn; split; [discriminate|contradiction]|]. intros a b r IH.
  replace (length (a :: b :: r) / 2)%nat with (S (length r / 2)) by (cbn [length]; replace (S (S (length r))) with (length r + 1 * 2)%nat by lia; rewrite Nat.div_add by lia; lia).
  cbn [seq existsb pin]. rewrite Bool.orb_true_iff. rewrite <- seq_shift, <- IH.
  assert (E : existsb (fun k => voxel_inside (nth (2 * k) (map Fin (a :: b :: r)) NaN) (nth (2 * k + 1) (map Fin (a :: b :: r)) NaN) z) (map S (seq 0 (length r / 2)))
    = existsb (fun k => voxel_inside (nth (2 * k) (map Fin r) NaN) (nth (2 * k + 1) (map Fin r) NaN) z) (seq 0 (length r / 2))).
  { generalize (seq 0 (length r / 2)) as ks. induction ks as [|k ks IHk]; [reflexivity|]. change (map S (k :: ks)) with (S k :: map S ks). unfold existsb at 1. fold (existsb (fun k => voxel_inside (nth (2 * k) (map Fin (a :: b :: r)) NaN) (nth (2 * k + 1) (map Fin (a :: b :: r)) NaN) z)). rewrite IHk. replace (2 * S k)%nat with (S (S (2 * k))) by lia. replace (S (S (2 * k)) + 1)%nat with (S (S (2 * k + 1))) by lia. reflexivity. }
  rewrite E. cbn [Nat.mul Nat.add map nth]. unfold voxel_inside. rewrite !Bool.orb_true_iff, Bool.andb_true_iff, !gt_fin, !near_close. tauto.
Qed.
Lemma below_perm z l l' : Permutation l l' -> below z l = below z l'.
Proof.
  intros P. unfold below. induction P as [|x l l' P IH|x y l|]; cbn [filter]; [reflexivity|destruct (Rlt_dec x z); cbn [length]; congruence|destruct (Rlt_dec x z), (Rlt_dec y z); reflexivity|congruence].
Qed.
Lemma below_zero z l : (forall c, In c l -> z <= c) -> below z l = 0%nat.
Proof. induction l as [|c l IH]; intros H; [reflexivity|]. unfold below. cbn [filter]. pose proof (H c (or_introl eq_refl)). destruct (Rlt_dec c z); [exfalso; lra|]. apply IH. intros; apply H; right; assumption. Qed.
Lemma pin_below z l : Nat.even (length l) = true -> StronglySorted Rle l -> NoDup l -> ~ In z l -> (pin z l <-> Nat.odd (below z l) = true \/ exists c, In c l /\ close z c).
Proof.
  revert l. apply (even_ind (fun l => StronglySorted Rle l -> NoDup l -> ~ In z l -> (pin z l <-> Nat.odd (below z l) = true \/ exists c, In c l /\ close z c))).
  - intros _ _ _. cbn. split; [contradiction|]. intros [H|(c & [] & _)]. discriminate.
  - intros a b r IH SS ND NI. inversion SS as [|? ? S1 F1]; subst. inversion S1 as [|? ? S2 F2]; subst. inversion ND as [|? ? N1 ND1]; subst. inversion ND1 as [|? ? N2 ND2]; subst.
    specialize (IH S2 ND2 ltac:(intros H; apply NI; right; right; exact H)). cbn [pin]. rewrite IH.
    rewrite Forall_forall in F1, F2.
    assert (AB : a < b). { pose proof (F1 b (or_introl eq_refl)). assert (a <> b) by (intros ->; apply N1; left; reflexivity). lra. }
    assert (ZA : z <> a) by (intros ->; apply NI; left; reflexivity). assert (ZB : z <> b) by (intros ->; apply NI; right; left; reflexivity).
    assert (EX : (exists c, In c (a :: b :: r) /\ close z c) <-> close z a \/ close z b \/ exists c, In c r /\ close z c).
    { split; [intros (c & [<-|[<-|I]] & K); [left; exact K|right; left; exact K|right; right; exists c; split; assumption]|intros [K|[K|(c & I & K)]]; [exists a; split; [left; reflexivity|exact K]|exists b; split; [right; left; reflexivity|exact K]|exists c; split; [right; right; exact I|exact K]]]. }
    rewrite EX. unfold below at 2. cbn [filter]. destruct (Rlt_dec a z) as [LA|LA]; destruct (Rlt_dec b z) as [LB|LB]; cbn [length]; fold (below z r).
    + change (Nat.odd (S (S (below z r)))) with (Nat.odd (below z r)). split; [intros [[H|H]|H]; [exfalso; lra|tauto|tauto]|tauto].
    + assert (B0 : below z r = 0%nat) by (apply below_zero; intros c C; pose proof (F2 c C); lra). rewrite B0. split; [intros _; left; reflexivity|intros _; left; left; lra].
    + exfalso. lra.
    + assert (B0 : below z r = 0%nat) by (apply below_zero; intros c C; pose proof (F2 c C); lra). rewrite B0. split; [intros [[H|H]|[H|H]]; [exfalso; lra|tauto|left; exact H|tauto]|intros [H|H]; [right; left; exact H|tauto]].
Qed.

Lemma no_vertex x y fs : misses_vertices x y fs -> filter (at_vertex x y) (filter (possible x y) fs) = [].
Proof.
  intros M. induction fs as [|f fs IH]; [reflexivity|]. assert (IHf := IH (fun g p G => M g p (or_intror G))). cbn [filter]. destruct (possible x y f); [|exact IHf]. cbn [filter].
  assert (A : at_vertex x y f = false); [|rewrite A; exact IHf]. unfold at_vertex.
  assert (K : forall p, In p [v1 f; v2 f; v3 f] -> ((if Req_EM_T (px p) x then true else false) && (if Req_EM_T (py p) y then true else false))%bool = false).
  { intros p P. destruct (Req_EM_T (px p) x) as [E|]; [|reflexivity]. destruct (Req_EM_T (py p) y) as [E'|]; [|reflexivity]. exfalso. exact (M f p (or_introl eq_refl) P (conj E E')). }
  cbv zeta. rewrite !K by (cbn [In]; tauto). reflexivity.
Qed.

(* What a ray that meets no vertex, and facets one at a time, labels. *)
Lemma plain_ray_labels fs j x y zs z : plain_ray x y fs zs -> Nat.even (length zs) = true -> j_flag j = false -> ~ In z zs ->
  (fst (ray fs j x y) z = true <-> Nat.odd (below z zs) = true \/ exists c, In c zs /\ close z c) /\ snd (ray fs j x y) = false.
Proof.
  intros (H & ND & MV & ST) EV FL NI. unfold ray. cbv zeta. rewrite (no_vertex x y fs MV). cbn [length Nat.ltb Nat.leb andb app].
  pose proof (cross_list x y fs zs H ST) as CL. destruct (filter (crossed x y) (filter (possible x y) fs)) as [|g gs].
  - destruct zs; [|discriminate]. cbn [fst snd]. split; [|reflexivity]. split; [discriminate|]. intros [K|(c & [] & _)]. discriminate.
  - rewrite CL, FL, (unique_all zs ND), map_length, EV. cbn [fst snd]. split; [|reflexivity].
    unfold labelled. rewrite map_length.
    assert (E : existsb (fun k => voxel_inside (nth (2 * k) (Nat.iter (S k) bubble_sort (map Fin zs)) NaN) (nth (2 * k + 1) (Nat.iter (S k) bubble_sort (map Fin zs)) NaN) z) (seq 0 (length zs / 2))
      = existsb (fun k => voxel_inside (nth (2 * k) (map Fin (rsort zs)) NaN) (nth (2 * k + 1) (map Fin (rsort zs)) NaN) z) (seq 0 (length zs / 2))).
    { generalize (seq 0 (length zs / 2)) as ks. induction ks as [|k ks IH]; [reflexivity|]. cbn [existsb]. rewrite IH, sorts_fin. reflexivity. }
    rewrite E. pose proof (rsort_perm zs) as P. rewrite <- (Permutation_length P). rewrite pin_nth by (rewrite (Permutation_length P); exact EV).
    rewrite pin_below; [|rewrite (Permutation_length P); exact EV|apply rsort_sorted|apply (Permutation_NoDup (Permutation_sym P) ND)|intros I; apply NI, (Permutation_in z P), I].
    rewrite (below_perm z _ _ P). split; (intros [K|(c & I & K)]; [left; exact K|right; exists c; split; [|exact K]]); [apply (Permutation_in c P), I|apply (Permutation_in c (Permutation_sym P)), I].
Qed.
