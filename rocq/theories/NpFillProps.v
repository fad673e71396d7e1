(* The velocities between the loaded nodes: C134. *)
From Coq Require Import Reals List Arith ZArith Lia Lra.
From Verif Require Import BaseReal LinModel EvpModel EvpFlowModel EvpFftModel EvpSpec EvpBasis EvpFft NpModel NpSpec NpFft.
Import ListNotations.
Local Open Scope R_scope.

Definition gridded (g : np_grid) : Prop := (1 <= gn1 g /\ 1 <= gn2 g /\ 1 <= gn3 g)%nat.

(* ---------- the weights ---------- *)

Lemma offset_0 n x : (x < n)%nat -> offset n x = 0 -> x = 0%nat.
Proof.
  intros X. unfold offset. destruct (Z.leb_spec (Z.of_nat x + 1) (Z.of_nat n / 2)); [intros E; apply eq_IZR in E; lia|].
  destruct (Z.ltb_spec (Z.of_nat n / 2) (Z.of_nat x + 1)); [|lia]. intros E. apply eq_IZR in E. lia.
Qed.
Lemma square3_pos a b c : 0 < a ^ 2 + b ^ 2 + c ^ 2 \/ (a = 0 /\ b = 0 /\ c = 0).
Proof.
  destruct (Req_dec a 0) as [->|A]; [destruct (Req_dec b 0) as [->|B]; [destruct (Req_dec c 0) as [->|C]|]|].
  - right. repeat split; reflexivity.
  - left. assert (0 < c ^ 2) by (apply Rsqr_pos_lt in C; unfold Rsqr in C; lra). lra.
  - left. assert (0 < b ^ 2) by (apply Rsqr_pos_lt in B; unfold Rsqr in B; lra). pose proof (pow2_ge_0 c). lra.
  - left. assert (0 < a ^ 2) by (apply Rsqr_pos_lt in A; unfold Rsqr in A; lra). pose proof (pow2_ge_0 c). pose proof (pow2_ge_0 b). lra.
Qed.
Lemma weight_pos g p : In p (np_sites g) -> p <> (0, 0, 0)%nat -> 0 < weight g p.
Proof.
  destruct p as [[x y] z]. intros P N. apply in_sites in P. destruct P as (X & Y & Z). unfold weight. cbv zeta.
  destruct (square3_pos (offset (gn1 g) x) (offset (gn2 g) y) (offset (gn3 g) z)) as [H|(A & B & C)].
  - destruct (Rlt_dec _ _); [|contradiction]. apply Rdiv_lt_0_compat; [lra|]. apply pow_lt. exact H.
  - exfalso. apply N. apply offset_0 in A, B, C; try assumption. subst. reflexivity.
Qed.
Lemma weight_nonneg g p : 0 <= weight g p.
Proof.
  destruct p as [[x y] z]. unfold weight. cbv zeta. destruct (Rlt_dec _ _) as [H|H]; [|lra]. apply Rlt_le, Rdiv_lt_0_compat; [lra|]. apply pow_lt. exact H.
Qed.
Lemma cyclic_0 n a b : (a < n)%nat -> (b < n)%nat -> cyclic n a b = 0%nat -> a = b.
Proof.
  intros A B. unfold cyclic. destruct (Nat.le_gt_cases b a).
  - replace (a + (n - b))%nat with (a - b + 1 * n)%nat by lia. rewrite Nat.mod_add, Nat.mod_small by lia. lia.
  - rewrite Nat.mod_small by lia. lia.
Qed.
Lemma minus_0 g p q : In p (np_sites g) -> In q (np_sites g) -> minus_site (gn1 g) (gn2 g) (gn3 g) p q = (0, 0, 0)%nat -> p = q.
Proof.
  destruct p as [[a b] c], q as [[x y] z]. unfold np_sites. rewrite !in_sites. intros (A & B & C) (X & Y & Z) E. unfold minus_site in E. injection E as E1 E2 E3.
  apply cyclic_0 in E1, E2, E3; try assumption. subst. reflexivity.
Qed.

(* ---------- the weighted mean ---------- *)

Lemma given_0 g y z : given g (0, y, z)%nat = true.
Proof. unfold given. destruct (loaded g (0, y, z)%nat); [reflexivity|]. reflexivity. Qed.

Lemma suml_nonneg {A} (f : A -> R) l : (forall a, In a l -> 0 <= f a) -> 0 <= suml f l.
Proof. induction l as [|a l IH]; intros H; [unfold suml; cbn; lra|]. rewrite suml_cons. pose proof (H a (or_introl eq_refl)). assert (0 <= suml f l) by (apply IH; intros; apply H; right; assumption). lra. Qed.
Lemma suml_pos {A} (f : A -> R) l a : (forall a, In a l -> 0 <= f a) -> In a l -> 0 < f a -> 0 < suml f l.
Proof.
  induction l as [|b l IH]; intros H I P; [contradiction|]. rewrite suml_cons. pose proof (H b (or_introl eq_refl)) as HB. assert (T : 0 <= suml f l) by (apply suml_nonneg; intros; apply H; right; assumption).
  destruct I as [->|I]; [lra|]. assert (0 < suml f l) by (apply IH; [intros; apply H; right; assumption|exact I|exact P]). lra.
Qed.
Lemma suml_filter {A} (b : A -> bool) (f : A -> R) l : suml (fun a => f a * (if b a then 1 else 0)) l = suml f (filter b l).
Proof. induction l as [|a l IH]; [reflexivity|]. rewrite suml_cons, IH. cbn [filter]. destruct (b a); [rewrite suml_cons|]; ring. Qed.

(* The nodes whose velocity is given: the loaded ones and the first layer of the grid in each
   direction, which is the last one too since the grid repeats itself. *)
Definition givens (g : np_grid) : list site := filter (given g) (np_sites g).
Definition pull (g : np_grid) (p q : site) : R := weight g (minus_site (gn1 g) (gn2 g) (gn3 g) p q).

Lemma pull_pos g p q : gridded g -> In p (np_sites g) -> In q (np_sites g) -> p <> q -> 0 < pull g p q.
Proof. intros (N1 & N2 & N3) P Q N. apply weight_pos; [apply minus_in; assumption|]. intros E. apply N. exact (minus_0 g p q P Q E). Qed.
Lemma total_pos g p : gridded g -> In p (np_sites g) -> given g p = false -> 0 < suml (pull g p) (givens g).
Proof.
  intros G P N. pose proof G as (N1 & N2 & N3). assert (Z : In (0, 0, 0)%nat (np_sites g)) by (apply in_sites; lia).
  apply suml_pos with (0, 0, 0)%nat.
  - intros q _. apply weight_nonneg.
  - apply filter_In. split; [exact Z|apply given_0].
  - apply pull_pos; try assumption. intros ->. rewrite given_0 in N. discriminate.
Qed.

Lemma fill_is g v p i : gridded g -> In p (np_sites g) -> given g p = false ->
  fill_inside g v p i = suml (fun q => pull g p q * v q i) (givens g) / suml (pull g p) (givens g).
Proof.
  intros G P N. pose proof G as (N1 & N2 & N3). unfold fill_inside. cbv zeta. assert (I0 : indf g p = 0) by (unfold indf; rewrite N; reflexivity).
  destruct (Rlt_dec (indf g p) 1) as [_|H]; [|exfalso; apply H; rewrite I0; lra].
  rewrite !convolution by assumption.
  rewrite (suml_ext (fun q => v q i * indf g q * _) (fun q => (pull g p q * v q i) * (if given g q then 1 else 0))) by (intros; unfold indf, pull; ring).
  rewrite (suml_ext (fun q => indf g q * _) (fun q => pull g p q * (if given g q then 1 else 0))) by (intros; unfold indf, pull; ring).
  rewrite !suml_filter. unfold givens. unfold np_sites. field. apply Rgt_not_eq. apply (total_pos g p G P N).
Qed.

(* Given velocities stay. *)
Theorem C134_kept : forall g v p i, given g p = true -> fill_inside g v p i = v p i.
Proof. intros g v p i H. unfold fill_inside. cbv zeta. assert (I1 : indf g p = 1) by (unfold indf; rewrite H; reflexivity). destruct (Rlt_dec (indf g p) 1) as [L|_]; [lra|reflexivity]. Qed.
Print Assumptions C134_kept.

(* On a grid with an even number of points in each direction every other node gets the mean
   of the given velocities weighted with the inverse fourth power of the distance, the short
   way round. *)
Lemma offset_even n a b : (Z.of_nat n mod 2 = 0)%Z -> (a < n)%nat -> (b < n)%nat -> offset n (cyclic n a b) ^ 2 = INR (around n a b) ^ 2.
Proof.
  intros E A B. pose proof (Z.div_mod (Z.of_nat n) 2 ltac:(lia)) as D. rewrite E in D.
  assert (C : cyclic n a b = if le_lt_dec b a then (a - b)%nat else (n - (b - a))%nat).
  { unfold cyclic. destruct (le_lt_dec b a).
    - replace (a + (n - b))%nat with (a - b + 1 * n)%nat by lia. rewrite Nat.mod_add, Nat.mod_small by lia. reflexivity.
    - rewrite Nat.mod_small by lia. lia. }
  rewrite C. unfold offset, around. rewrite INR_IZR_INZ.
  assert (SQ : forall x y : Z, (x = y \/ x = - y)%Z -> IZR x ^ 2 = IZR y ^ 2) by (intros x y [-> | ->]; [reflexivity|rewrite opp_IZR; ring]).
  destruct (le_lt_dec b a) as [L|L].
  - rewrite (Nat.max_l a b), (Nat.min_r a b) by lia.
    destruct (Z.leb_spec (Z.of_nat (a - b) + 1) (Z.of_nat n / 2)); [apply SQ; left; lia|].
    destruct (Z.ltb_spec (Z.of_nat n / 2) (Z.of_nat (a - b) + 1)); [|lia]. apply SQ. right. lia.
  - rewrite (Nat.max_r a b), (Nat.min_l a b) by lia.
    destruct (Z.leb_spec (Z.of_nat (n - (b - a)) + 1) (Z.of_nat n / 2)); [apply SQ; left; lia|].
    destruct (Z.ltb_spec (Z.of_nat n / 2) (Z.of_nat (n - (b - a)) + 1)); [|lia]. apply SQ. right. lia.
Qed.
Definition even_grid (g : np_grid) : Prop := (Z.of_nat (gn1 g) mod 2 = 0 /\ Z.of_nat (gn2 g) mod 2 = 0 /\ Z.of_nat (gn3 g) mod 2 = 0)%Z.
Lemma pull_even g p q : gridded g -> even_grid g -> In p (np_sites g) -> In q (np_sites g) -> p <> q -> pull g p q = / around2 g p q ^ 2.
Proof.
  intros G (E1 & E2 & E3) P Q N. pose proof (pull_pos g p q G P Q N) as PP. unfold pull in *. destruct p as [[a b] c], q as [[x y] z]. apply in_sites in P, Q. destruct P as (A & B & C), Q as (X & Y & Z).
  unfold minus_site, weight, around2 in *. cbv zeta in *. rewrite !offset_even in * by assumption. destruct (Rlt_dec _ _); [unfold Rdiv; ring|lra].
Qed.

Theorem C134_mean_even : forall g v p i, gridded g -> even_grid g -> In p (np_sites g) -> given g p = false ->
  fill_inside g v p i = suml (fun q => v q i / around2 g p q ^ 2) (givens g) / suml (fun q => 1 / around2 g p q ^ 2) (givens g).
Proof.
  intros g v p i G E P N. rewrite fill_is by assumption.
  assert (W : forall q, In q (givens g) -> pull g p q = / around2 g p q ^ 2).
  { intros q Q. apply filter_In in Q. destruct Q as [Q GQ]. apply pull_even; try assumption. intros ->. congruence. }
  f_equal; [apply suml_ext; intros q Q; rewrite W by exact Q; unfold Rdiv; ring|]. apply suml_ext. intros q Q. rewrite W by exact Q. unfold Rdiv. ring.
Qed.
Print Assumptions C134_mean_even.

(* With an odd number of points the same distance counts differently the two ways round. *)
Theorem C134_odd_refuted : forall m n2 n3 d1 d2 d3, (1 <= m)%nat ->
  let g := NpGrid (2 * m + 1) n2 n3 d1 d2 d3 in
  let p := (m, 0, 0)%nat in let q := (0, 0, 0)%nat in let q' := ((2 * m)%nat, 0%nat, 0%nat) in
  (2 <= n2)%nat -> (2 <= n3)%nat ->
  around2 g p q = around2 g p q' /\ pull g p q < pull g p q'.
Proof.
  intros m n2 n3 d1 d2 d3 M g p q q' N2 N3. split.
  - assert (A : around (2 * m + 1) m 0 = around (2 * m + 1) m (2 * m)) by (unfold around; lia). unfold around2, g, p, q, q'. cbn [gn1 gn2 gn3]. rewrite A. reflexivity.
  - unfold pull, minus_site, g, p, q, q', weight, cyclic. cbn [gn1 gn2 gn3]. cbv zeta.
    replace ((m + (2 * m + 1 - 0)) mod (2 * m + 1))%nat with m by (rewrite Nat.sub_0_r, <- (Nat.mul_1_l (2 * m + 1)) at 1; rewrite Nat.mod_add, Nat.mod_small by lia; reflexivity).
    replace ((m + (2 * m + 1 - 2 * m)) mod (2 * m + 1))%nat with (m + 1)%nat by (rewrite Nat.mod_small by lia; lia).
    rewrite !Nat.sub_0_r, !Nat.add_0_l, !Nat.mod_same by lia.
    assert (Z : forall n, (2 <= n)%nat -> offset n 0 = 0).
    { intros n N. unfold offset. assert (1 <= Z.of_nat n / 2)%Z by (apply Z.div_le_lower_bound; lia). destruct (Z.leb_spec (Z.of_nat 0 + 1) (Z.of_nat n / 2)); [reflexivity|lia]. }
    rewrite !Z by assumption.
    assert (H : (Z.of_nat (2 * m + 1) / 2 = Z.of_nat m)%Z) by (symmetry; apply Z.div_unique with 1%Z; lia).
    assert (O1 : offset (2 * m + 1) m = - (INR m + 1)).
    { unfold offset. rewrite H. destruct (Z.leb_spec (Z.of_nat m + 1) (Z.of_nat m)); [lia|]. destruct (Z.ltb_spec (Z.of_nat m) (Z.of_nat m + 1)); [|lia].
      replace (Z.of_nat m + 1 - Z.of_nat (2 * m + 1) - 1)%Z with (- (Z.of_nat m + 1))%Z by lia. rewrite opp_IZR, plus_IZR, <- INR_IZR_INZ. reflexivity. }
    assert (O2 : offset (2 * m + 1) (m + 1) = - INR m).
    { unfold offset. rewrite H. destruct (Z.leb_spec (Z.of_nat (m + 1) + 1) (Z.of_nat m)); [lia|]. destruct (Z.ltb_spec (Z.of_nat m) (Z.of_nat (m + 1) + 1)); [|lia].
      replace (Z.of_nat (m + 1) + 1 - Z.of_nat (2 * m + 1) - 1)%Z with (- Z.of_nat m)%Z by lia. rewrite opp_IZR, <- INR_IZR_INZ. reflexivity. }
    rewrite O1, O2. assert (MP : 1 <= INR m) by (apply (le_INR 1); exact M).
    set (s := (- (INR m + 1)) ^ 2 + 0 ^ 2 + 0 ^ 2). set (t := (- INR m) ^ 2 + 0 ^ 2 + 0 ^ 2).
    assert (TS : 0 < t < s) by (unfold s, t; nra).
    destruct (Rlt_dec 0 s); [|lra]. destruct (Rlt_dec 0 t); [|lra]. unfold Rdiv. rewrite !Rmult_1_l. clearbody s t. apply Rinv_lt_contravar; [apply Rmult_lt_0_compat; apply pow_lt; lra|nra].
Qed.
Print Assumptions C134_odd_refuted.

(* Whatever the grid, no velocity inside leaves the range of the given ones. *)
Theorem C134_range : forall g v p i lo hi, gridded g -> In p (np_sites g) ->
  (forall q, In q (np_sites g) -> given g q = true -> lo <= v q i <= hi) -> lo <= fill_inside g v p i <= hi.
Proof.
  intros g v p i lo hi G P B. destruct (given g p) eqn:N; [rewrite C134_kept by exact N; apply B; assumption|].
  rewrite fill_is by assumption. pose proof (total_pos g p G P N) as T.
  assert (L : suml (fun q => pull g p q * lo) (givens g) <= suml (fun q => pull g p q * v q i) (givens g) <= suml (fun q => pull g p q * hi) (givens g)).
  { assert (M : forall l, (forall q, In q l -> In q (givens g)) -> suml (fun q => pull g p q * lo) l <= suml (fun q => pull g p q * v q i) l <= suml (fun q => pull g p q * hi) l).
    { induction l as [|q l IH]; intros S; [unfold suml; cbn; lra|]. rewrite !suml_cons. assert (Q : In q (givens g)) by (apply S; left; reflexivity). apply filter_In in Q. destruct Q as [Q GQ].
      pose proof (B q Q GQ) as BQ. pose proof (weight_nonneg g (minus_site (gn1 g) (gn2 g) (gn3 g) p q)) as W. fold (pull g p q) in W.
      assert (IHl := IH (fun q H => S q (or_intror H))). nra. }
    apply M. intros; assumption. }
  assert (SC : forall c, suml (fun q => pull g p q * c) (givens g) = c * suml (pull g p) (givens g)) by (intros c; rewrite <- suml_scal; apply suml_ext; intros; ring).
  rewrite !SC in L. split.
  - apply Rmult_le_reg_r with (suml (pull g p) (givens g)); [exact T|]. unfold Rdiv. rewrite Rmult_assoc, Rinv_l by lra. lra.
  - apply Rmult_le_reg_r with (suml (pull g p) (givens g)); [exact T|]. unfold Rdiv. rewrite Rmult_assoc, Rinv_l by lra. lra.
Qed.
Print Assumptions C134_range.

(* A cube of four voxels in a frame of two, eight points a side: the node in the middle is
   not given. *)
Example C134_met : let g := NpGrid 8 8 8 2 2 2 in gridded g /\ even_grid g /\ In (4, 4, 4)%nat (np_sites g) /\ given g (4, 4, 4)%nat = false /\ given g (2, 2, 2)%nat = true.
Proof. cbv zeta. split; [|split; [|split; [|split; reflexivity]]]; [unfold gridded; cbn [gn1 gn2 gn3]; lia|repeat split|apply in_sites; cbn [gn1 gn2 gn3]; lia]. Qed.
