(* C124: the nodes of the deformed grid of the large-strain solver, and the positions
   it writes. *)
From Coq Require Import Reals List Arith Lia Lra Psatz Bool ZArith.
From Verif Require Import BaseReal LinModel EvpModel EvpSpec EvpBasis EvpFlowModel LsSpec LsModel LsRunModel LsMat LsInv LsPolar LsPolarProps LsExp LsKin LsKinProps LsCase.
Import ListNotations.
Local Open Scope R_scope.

(* What moves the nodes in a step: the time step, the mean of the velocity gradient times
   the deformation gradient, and the fluctuating velocity at the points. *)
Definition move := (R * T2 * (node -> T1))%type.
Definition moved (n start : nat -> nat) (x : nodes) (s : list move) : nodes :=
  fold_left (fun x '(tdot, refavg, workG) => update_xnode n start tdot refavg workG x) s x.
(* The mean deformation of the grid. *)
Definition mean_deformation (F0 : matrix) (s : list move) : matrix := fun i j => F0 i j + suml (fun '(t, A, _) => t * A i j) s.
Definition affine (G : matrix) (v : nat -> R) : nat -> R := fun i => S3 (fun j => G i j * v j).

Lemma moved_value n start F0 s : forall l ii, moved n start (init_xnode F0) s l ii =
  affine (mean_deformation F0 s) (fun d => INR (l d) - 1 / 2) ii + suml (fun '(t, _, W) => dvnode n W (fun d => (l d + start d)%nat) ii * t) s.
Proof.
  assert (H : forall s x l ii, moved n start x s l ii = x l ii + (affine (fun i j => suml (fun '(t, A, _) => t * A i j) s) (fun d => INR (l d) - 1 / 2) ii
            + suml (fun '(t, _, W) => dvnode n W (fun d => (l d + start d)%nat) ii * t) s)).
  { clear. induction s as [|[[t A] W] s IH]; intros x l ii.
    - unfold affine, S3. change (moved n start x [] l ii) with (x l ii). unfold suml. cbn [map fold_right]. ring.
    - change (moved n start x ((t, A, W) :: s)) with (moved n start (update_xnode n start t A W x) s). rewrite IH. unfold update_xnode, affine. rewrite sum1_3. unfold S3. rewrite !suml_cons. ring. }
  intros l ii. rewrite H. unfold init_xnode, affine, mean_deformation. rewrite sum1_3. unfold S3. ring.
Qed.

(* Whatever the fluctuations: opposite faces of the cell stay apart by the mean
   deformation of the edge. *)
Theorem C124_faces : forall n F0 s l d ii, idx 3 d -> (0 < n d)%nat -> l d = 1%nat ->
  let l' k := if Nat.eqb k d then (n d + 1)%nat else l k in
  moved n (fun _ => 0%nat) (init_xnode F0) s l' ii - moved n (fun _ => 0%nat) (init_xnode F0) s l ii = mean_deformation F0 s ii d * INR (n d).
Proof.
  intros n F0 s l d ii Hd Hn Hl l'. rewrite !moved_value.
  assert (E : suml (fun '(t, _, W) => dvnode n W (fun k => (l' k + 0)%nat) ii * t) s = suml (fun '(t, _, W) => dvnode n W (fun k => (l k + 0)%nat) ii * t) s).
  { apply suml_ext. intros [[t A] W] _. f_equal. unfold dvnode.
    assert (N : forall k, neighbours (n k) (l' k + 0) = neighbours (n k) (l k + 0)).
    { intros k. unfold l'. destruct (Nat.eqb_spec k d) as [->|]; [|reflexivity]. rewrite Hl, !Nat.add_0_r. unfold neighbours.
      destruct (Nat.eqb_spec (n d + 1) 1) as [X|_]; [lia|]. rewrite Nat.eqb_refl. reflexivity. }
    rewrite !N. reflexivity. }
  rewrite E. unfold affine, S3. assert (K : INR (n d + 1) = INR (n d) + 1) by (rewrite plus_INR; reflexivity).
  assert (L1 : INR (l d) = 1) by (rewrite Hl; reflexivity).
  destruct (idx3 d Hd) as [->|[->| ->]]; unfold l'; cbn [Nat.eqb]; rewrite K, L1; ring.
Qed.

(* Two processes place a node they share alike, each from its own corner. *)
Theorem C124_shared : forall n F0 s sa sb la lb ii, (forall d, (la d + sa d)%nat = (lb d + sb d)%nat) ->
  moved n sa (init_xnode F0) s la ii - moved n sb (init_xnode F0) s lb ii = affine (mean_deformation F0 s) (fun d => INR (la d) - INR (lb d)) ii.
Proof.
  intros n F0 s sa sb la lb ii H. rewrite !moved_value.
  assert (E : suml (fun '(t, _, W) => dvnode n W (fun d => (la d + sa d)%nat) ii * t) s = suml (fun '(t, _, W) => dvnode n W (fun d => (lb d + sb d)%nat) ii * t) s).
  { apply suml_ext. intros [[t A] W] _. f_equal. unfold dvnode. rewrite !H. reflexivity. }
  rewrite E. unfold affine, S3. ring.
Qed.

(* The written positions of opposite faces differ by the mean deformation of the edge,
   in units of delt(3), whatever the nodes and the processes. *)
Theorem C124_written_faces : forall n Favg delt start x g d ii, idx 3 d -> (0 < n d)%nat -> g d = 1%nat ->
  let g' k := if Nat.eqb k d then (n d + 1)%nat else g k in
  xintp n Favg delt start x g' ii - xintp n Favg delt start x g ii = Favg ii d * INR (n d) * delt 3%nat.
Proof.
  intros n Favg delt start x g d ii Hd Hn Hl g'. unfold xintp, ufintp.
  assert (E : dvnode n (uf Favg start x) g' ii = dvnode n (uf Favg start x) g ii).
  { unfold dvnode. assert (N : forall k, neighbours (n k) (g' k) = neighbours (n k) (g k)).
    { intros k. unfold g'. destruct (Nat.eqb_spec k d) as [->|]; [|reflexivity]. rewrite Hl. unfold neighbours.
      destruct (Nat.eqb_spec (n d + 1) 1) as [X|_]; [lia|]. rewrite Nat.eqb_refl. reflexivity. }
    rewrite !N. reflexivity. }
  rewrite E, !sum1_3. unfold S3. assert (K : INR (n d + 1) = INR (n d) + 1) by (rewrite plus_INR; reflexivity).
  assert (L1 : INR (g d) = 1) by (rewrite Hl; reflexivity).
  destruct (idx3 d Hd) as [->|[->| ->]]; unfold g'; cbn [Nat.eqb]; rewrite K, L1; ring.
Qed.

(* Before any step: node g is written at delt_i * delt_3 * (g_i - 1). *)
Theorem C124_undeformed : forall n delt start g ii, idx 3 ii -> (forall d, idx 3 d -> (1 <= g d <= n d + 1)%nat) ->
  xintp n (diag delt) delt start (fun _ => init_xnode (diag delt)) g ii = delt ii * delt 3%nat * (INR (g ii) - 1).
Proof.
  intros n delt start g ii Hi Hg. unfold xintp, ufintp.
  assert (U : forall p, uf (diag delt) start (fun _ => init_xnode (diag delt)) p ii = - delt ii / 2).
  { intros p. unfold uf, init_xnode. rewrite !sum1_3. unfold S3, diag. destruct (idx3 ii Hi) as [->|[->| ->]]; cbn [Nat.eqb]; field. }
  unfold dvnode. rewrite !U, sum1_3. unfold S3, diag. destruct (idx3 ii Hi) as [->|[->| ->]]; cbn [Nat.eqb]; field.
Qed.
(* With cells of unit height these are the positions of the grid. *)
Theorem C124_positions_partial : forall n delt start g ii, idx 3 ii -> (forall d, idx 3 d -> (1 <= g d <= n d + 1)%nat) -> delt 3%nat = 1 ->
  xintp n (diag delt) delt start (fun _ => init_xnode (diag delt)) g ii = delt ii * (INR (g ii) - 1).
Proof. intros n delt start g ii Hi Hg E. rewrite C124_undeformed by assumption. rewrite E. ring. Qed.
(* With others they are not: cells of a half are written as cells of a quarter. *)
Theorem C124_positions_refuted : let delt := fun _ : nat => 1 / 2 in let n := fun _ : nat => 4%nat in
  let x := xintp n (diag delt) delt (fun _ _ => 0%nat) (fun _ => init_xnode (diag delt)) in
  x (fun _ => 2%nat) 1%nat - x (fun _ => 1%nat) 1%nat = 1 / 4.
Proof.
  intros delt n x. unfold x. rewrite !C124_undeformed by (unfold idx, n; lia). unfold delt. cbn [INR]. field.
Qed.

(* ---- a uniform stretch of a grid of unit cells ---- *)
(* Every point is stretched at the rate a along the first axis, for one unit of time. *)
Definition stretched (a : R) : field := fun _ =>
  mkPoint ident ident ident ident ident (fun _ _ => 0) (diag (fun i => if Nat.eqb i 1 then a else 0)) 1 1 (fun _ _ => 0) (fun _ _ => 0) (fun _ _ => 0) d false false [].
Definition grid_step (npts : nat) (a : R) : list move := [(1, velgradrefavg npts (/ INR npts) (stretched a), fun _ _ => 0)].
Definition new_mean (npts : nat) (a : R) : T2 := defgradavg (snd (update_defgrad npts 1 (/ INR npts) (fun _ _ => 0) (stretched a))).

Lemma mean_const npts c : (0 < npts)%nat -> sumn npts (fun _ => c * / INR npts) = c.
Proof.
  intros H. assert (0 < INR npts) by (apply lt_0_INR; exact H).
  assert (E : sumn npts (fun _ => c * / INR npts) = INR npts * (c * / INR npts)). { generalize (c * / INR npts). intros x. clear. induction npts as [|n IH]; cbn [sumn]; [cbn; ring|]. rewrite IH, S_INR. ring. }
  rewrite E. field. lra.
Qed.
Lemma grid_mean npts a i j : (0 < npts)%nat -> idx 3 i -> idx 3 j -> mean_deformation ident (grid_step npts a) i j = if Nat.eqb i j then (if Nat.eqb i 1 then 1 + a else 1) else 0.
Proof.
  intros N Hi Hj. unfold mean_deformation, grid_step, suml. cbn [map fold_right].
  assert (E : velgradrefavg npts (/ INR npts) (stretched a) i j = mmul (diag (fun i => if Nat.eqb i 1 then a else 0)) ident i j) by exact (mean_const npts (mmul (diag (fun i => if Nat.eqb i 1 then a else 0)) ident i j) N).
  rewrite E. unfold mmul. rewrite sum1_3. unfold S3, diag, ident.
  destruct (idx3 i Hi) as [->|[->| ->]], (idx3 j Hj) as [->|[->| ->]]; cbn [Nat.eqb]; ring.
Qed.
Definition e3 (a : R) : R := 1 + a + a ^ 2 / 2 + a ^ 3 / 6.
Lemma new_mean_value npts a : (0 < npts)%nat -> of2 (new_mean npts a) = M (e3 a) 0 0 0 1 0 0 0 1.
Proof.
  intros N. assert (E : same (new_mean npts a) (mmul (matrix_exp (scaled 1 (diag (fun i => if Nat.eqb i 1 then a else 0)))) ident)) by (intros i j _ _; exact (mean_const npts (mmul (matrix_exp (scaled 1 (diag (fun i => if Nat.eqb i 1 then a else 0)))) ident i j) N)).
  apply of2_same in E. rewrite E, of2_mmul, of2_exp, of2_scaled. change (of2 ident) with one. rewrite mm_1r.
  replace (of2 (diag (fun i => if Nat.eqb i 1 then a else 0))) with (M a 0 0 0 0 0 0 0 0) by (apply m3_ext; reflexivity). unfold me, e3. mx; field.
Qed.

(* The nodes after the step, of the process whose box starts after [start]. *)
Definition after (npts : nat) (a : R) (n start : nat -> nat) : nodes := moved n start (init_xnode ident) (grid_step npts a).
(* The written position along the first axis. *)
Definition written (npts : nat) (a : R) (n : nat -> nat) (start : node -> nat -> nat) (g : nat) : R :=
  xintp n (new_mean npts a) (fun _ => 1) start (after npts a n) (fun d => if Nat.eqb d 1 then g else 1%nat) 1%nat.

Lemma after_value npts a n start l : (0 < npts)%nat -> after npts a n start l 1%nat = (1 + a) * (INR (l 1%nat) - 1 / 2).
Proof.
  intros N. unfold after. rewrite moved_value. unfold affine, S3. rewrite !grid_mean by (assumption || (unfold idx; lia)). cbn [Nat.eqb].
  unfold grid_step, suml. cbn [map fold_right]. unfold dvnode. field.
Qed.
Lemma uf_value npts a n start g : (0 < npts)%nat -> uf (new_mean npts a) start (after npts a n) g 1%nat = (1 + a) * (INR (g 1%nat - start g 1%nat) - 1 / 2) - e3 a * INR (g 1%nat - start g 1%nat).
Proof.
  intros N. unfold uf. cbn zeta. rewrite after_value by exact N. rewrite sum1_3. unfold S3. pose proof (new_mean_value npts a N) as E.
  change (new_mean npts a 1%nat 1%nat) with (x11 (of2 (new_mean npts a))). change (new_mean npts a 1%nat 2%nat) with (x12 (of2 (new_mean npts a))). change (new_mean npts a 1%nat 3%nat) with (x13 (of2 (new_mean npts a))).
  rewrite E. cbn [x11 x12 x13]. ring.
Qed.

(* The same step on two processes instead of one writes other positions. *)
Definition halves (g : node) (d : nat) : nat := if (Nat.eqb d 1 && Nat.leb 3 (g d))%bool then 2%nat else 0%nat.
Theorem C124_processes_refuted : forall a, written 64 a (fun _ => 4%nat) halves 3 - written 64 a (fun _ => 4%nat) (fun _ _ => 0%nat) 3 = a ^ 2 / 2 + a ^ 3 / 6.
Proof.
  intros a. unfold written, xintp, ufintp, dvnode. rewrite !sum1_3. unfold S3. rewrite !uf_value by lia. unfold halves. cbn [Nat.eqb Nat.add Nat.sub Nat.leb andb neighbours fst snd].
  cbn [INR]. unfold e3. field.
Qed.
(* And a uniform stretch is not written as one: the first cell is written longer than
   the second, the more the more cells there are. *)
Theorem C124_uniform_refuted : forall a n, (2 < n)%nat -> let w := written 64 a (fun _ => n) (fun _ _ => 0%nat) in
  (w 2%nat - w 1%nat) - (w 3%nat - w 2%nat) = INR n / 2 * (a ^ 2 / 2 + a ^ 3 / 6).
Proof.
  intros a n N w. unfold w, written, xintp, ufintp, dvnode. rewrite !sum1_3. unfold S3. rewrite !uf_value by lia.
  assert (X2 : neighbours n 2 = (1%nat, 2%nat)) by (unfold neighbours; destruct (Nat.eqb_spec 2 (n + 1)); [lia|reflexivity]).
  assert (X3 : neighbours n 3 = (2%nat, 3%nat)) by (unfold neighbours; destruct (Nat.eqb_spec 3 (n + 1)); [lia|reflexivity]).
  assert (X1 : neighbours n 1 = (n, 1%nat)) by reflexivity.
  cbn [Nat.eqb]. rewrite X1, X2, X3. cbn [fst snd]. rewrite !Nat.sub_0_r. cbn [INR]. unfold e3. field.
Qed.

(* A case: a grid of 4 x 4 x 4 cells, one step with fluctuations. *)
Definition wavy : move := (1 / 2, fun i j => if Nat.eqb i j then 1 / 10 else 0, fun g ii => INR (g ii)).
Example C124_met : moved (fun _ => 4%nat) (fun _ => 0%nat) (init_xnode ident) [wavy] (fun _ => 5%nat) 1%nat = 239 / 40 /\
  moved (fun _ => 4%nat) (fun _ => 0%nat) (init_xnode ident) [wavy] (fun d => if Nat.eqb d 1 then 1%nat else 5%nat) 1%nat = 71 / 40.
Proof.
  rewrite !moved_value. unfold wavy, suml, affine, mean_deformation, S3, ident, dvnode. unfold suml. cbn [map fold_right Nat.eqb Nat.add neighbours fst snd INR]. split; field.
Qed.

(* To first order the nodes follow the mean deformation gradient. *)
Lemma me_first a : nm a <= 2 / 3 -> nm (ma (me a) (ma (ms (- 1) one) (ms (- 1) a))) <= nm a * nm a.
Proof.
  intros H. replace (ma (me a) (ma (ms (- 1) one) (ms (- 1) a))) with (ma (ms (1 / 2) (mm a a)) (ms (1 / 6) (mm (mm a a) a))) by (unfold me; meq).
  pose proof (nm_nonneg a) as P. pose proof (nm_mm a a) as A2. pose proof (nm_mm (mm a a) a) as A3. pose proof (nm_nonneg (mm a a)) as P2.
  eapply Rle_trans; [apply nm_ma|]. rewrite !nm_ms. rewrite !Rabs_right by lra. assert (nm (mm a a) * nm a <= nm a * nm a * (2 / 3)) by nra. nra.
Qed.
Lemma entry_le a i j : idx 3 i -> idx 3 j -> Rabs (to2 a i j) <= nm a.
Proof.
  intros Hi Hj. unfold nm. rewrite <- sqrt_Rsqr_abs. apply sqrt_le_1_alt. unfold Rsqr. destruct a as [a1 a2 a3 a4 a5 a6 a7 a8 a9]. unfold f2, ip. cbn [x11 x12 x13 x21 x22 x23 x31 x32 x33].
  pose proof (Rle_0_sqr a1). pose proof (Rle_0_sqr a2). pose proof (Rle_0_sqr a3). pose proof (Rle_0_sqr a4). pose proof (Rle_0_sqr a5). pose proof (Rle_0_sqr a6). pose proof (Rle_0_sqr a7). pose proof (Rle_0_sqr a8). pose proof (Rle_0_sqr a9).
  unfold Rsqr in *. destruct (idx3 i Hi) as [->|[->| ->]], (idx3 j Hj) as [->|[->| ->]]; unfold to2; cbn [x11 x12 x13 x21 x22 x23 x31 x32 x33]; lra.
Qed.
Lemma sumn_abs n f g : (forall q, (q < n)%nat -> Rabs (f q) <= g q) -> Rabs (sumn n f) <= sumn n g.
Proof.
  induction n as [|n IH]; intros H; cbn [sumn]; [rewrite Rabs_R0; lra|]. eapply Rle_trans; [apply Rabs_triang|]. apply Rplus_le_compat; [apply IH; intros; apply H; lia|apply H; lia].
Qed.
Theorem C124_first_order : forall npts tdot wgt actual f i j, 0 <= wgt -> (forall q, (q < npts)%nat -> size (scaled tdot (p_vel (f q))) <= 2 / 3) -> idx 3 i -> idx 3 j ->
  Rabs (defgradavg (snd (update_defgrad npts tdot wgt actual f)) i j - (sumn npts (fun q => p_F (f q) i j * wgt) + tdot * velgradrefavg npts wgt f i j))
  <= sumn npts (fun q => size (scaled tdot (p_vel (f q))) ^ 2 * size (p_F (f q)) * wgt).
Proof.
  intros npts tdot wgt actual f i j W Sz Hi Hj.
  replace (defgradavg _ i j - _) with (sumn npts (fun q => (mmul (matrix_exp (scaled tdot (p_vel (f q)))) (p_F (f q)) i j - p_F (f q) i j - tdot * mmul (p_vel (f q)) (p_F (f q)) i j) * wgt)).
  - apply sumn_abs. intros q Q. rewrite Rabs_mult, (Rabs_right wgt) by lra. apply Rmult_le_compat_r; [exact W|]. specialize (Sz q Q). rewrite !of2_size, of2_scaled in *.
    set (a := ms tdot (of2 (p_vel (f q)))) in *. set (F := of2 (p_F (f q))).
    assert (E : to2 (mm (ma (me a) (ma (ms (- 1) one) (ms (- 1) a))) F) i j = mmul (matrix_exp (scaled tdot (p_vel (f q)))) (p_F (f q)) i j - p_F (f q) i j - tdot * mmul (p_vel (f q)) (p_F (f q)) i j).
    { assert (K : of2 (fun i j => mmul (matrix_exp (scaled tdot (p_vel (f q)))) (p_F (f q)) i j - p_F (f q) i j - tdot * mmul (p_vel (f q)) (p_F (f q)) i j) = mm (ma (me a) (ma (ms (- 1) one) (ms (- 1) a))) F).
      { assert (Sub : forall X Y Z, of2 (fun i j => X i j - Y i j - tdot * Z i j) = ma (of2 X) (ma (ms (- 1) (of2 Y)) (ms (- tdot) (of2 Z)))) by (intros; apply m3_ext; unfold of2, ma, ms; cbn [x11 x12 x13 x21 x22 x23 x31 x32 x33]; ring).
        rewrite (Sub (mmul (matrix_exp (scaled tdot (p_vel (f q)))) (p_F (f q))) (p_F (f q)) (mmul (p_vel (f q)) (p_F (f q)))), !of2_mmul, of2_exp, of2_scaled. fold a F.
        set (b := me a). clearbody b. unfold a. set (v := of2 (p_vel (f q))). clearbody v F. meq. }
      rewrite <- K. destruct (idx3 i Hi) as [->|[->| ->]], (idx3 j Hj) as [->|[->| ->]]; reflexivity. }
    rewrite <- E. eapply Rle_trans; [apply entry_le; assumption|]. eapply Rle_trans; [apply nm_mm|]. apply Rmult_le_compat_r; [apply nm_nonneg|]. replace (nm a ^ 2) with (nm a * nm a) by ring. apply me_first. exact Sz.
  - change (defgradavg (snd (update_defgrad npts tdot wgt actual f)) i j) with (sumn npts (fun q => mmul (matrix_exp (scaled tdot (p_vel (f q)))) (p_F (f q)) i j * wgt)). unfold velgradrefavg.
    rewrite (sumn_ext' npts _ (fun q => mmul (matrix_exp (scaled tdot (p_vel (f q)))) (p_F (f q)) i j * wgt + (-1 * (p_F (f q) i j * wgt) + - tdot * (mmul (p_vel (f q)) (p_F (f q)) i j * wgt)))) by (intros; ring).
    rewrite !sumn_plus, !sumn_scal. ring.
Qed.

Print Assumptions C124_first_order.
Print Assumptions C124_faces.
Print Assumptions C124_shared.
Print Assumptions C124_written_faces.
Print Assumptions C124_undeformed.
Print Assumptions C124_positions_partial.
Print Assumptions C124_positions_refuted.
Print Assumptions C124_processes_refuted.
Print Assumptions C124_uniform_refuted.
