(** Concrete cohesive zones used by the refutations and examples. *)
From Coq Require Import Reals List Lia Lra.
From Verif Require Import BaseArr BaseReal FracModel FracSpec FracProofs FracMore FracForce.
Import ListNotations.
Open Scope R_scope.

Lemma zap_id v : v = 0 \/ v = 1 \/ v = -1 -> zap v = v.
Proof.
  intros H. unfold zap. destruct (Rlt_dec (Rabs v) 1e-13) as [L|L]; [|reflexivity]. destruct H as [H|[H|H]]; [lra| |]; exfalso; subst v.
  - rewrite Rabs_right in L by lra. lra.
  - rewrite Rabs_left in L by lra. lra.
Qed.

Lemma geometry_axis x nodes f fc (r s N : vec) : face_corners f = Some fc ->
  same3 (fun d => sumn 4 (fun a => dN_dxi a * face_x x nodes fc a d)) r ->
  same3 (fun d => sumn 4 (fun a => dN_deta a * face_x x nodes fc a d)) s ->
  vdot r r = / 4 -> vdot s s = / 4 -> same3 (vcross r s) (vscale (/ 4) N) -> vdot N N = 1 ->
  (forall k, (k < 3)%nat -> N k = 0 \/ N k = 1 \/ N k = -1) ->
  same3 (f_n (face_geometry x nodes f)) N /\
  f_c (face_geometry x nodes f) = (fun d => sumn 4 (fun a => 0.25 * face_x x nodes fc a d)).
Proof.
  intros F R S Rr Ss C NN K. unfold face_geometry. rewrite F. cbv zeta.
  set (r0 := fun d => sumn 4 (fun a => dN_dxi a * face_x x nodes fc a d)) in *.
  set (s0 := fun d => sumn 4 (fun a => dN_deta a * face_x x nodes fc a d)) in *.
  assert (H4 : sqrt (/ 4) = / 2). { replace (/ 4) with (/ 2 * / 2) by lra. apply sqrt_square. lra. }
  assert (MR : vmag r0 = / 2) by (rewrite (vmag_ext _ _ R); unfold vmag; rewrite Rr; exact H4).
  assert (MS : vmag s0 = / 2) by (rewrite (vmag_ext _ _ S); unfold vmag; rewrite Ss; exact H4).
  rewrite MR, MS. destruct (Rlt_dec 1e-20 (/ 2)) as [L|L]; [|lra].
  set (n0 := vcross (fun d => r0 d / / 2) (fun d => s0 d / / 2)).
  assert (E : same3 n0 N).
  { intros k Hk. replace (N k) with (4 * vscale (/ 4) N k) by (unfold vscale; field). rewrite <- (C k Hk). unfold n0.
    pose proof (R 0%nat ltac:(lia)) as R0. pose proof (R 1%nat ltac:(lia)) as R1. pose proof (R 2%nat ltac:(lia)) as R2.
    pose proof (S 0%nat ltac:(lia)) as S0. pose proof (S 1%nat ltac:(lia)) as S1. pose proof (S 2%nat ltac:(lia)) as S2.
    destruct k as [|[|[|k]]]; [| | |lia]; unfold vcross; rewrite ?R0, ?R1, ?R2, ?S0, ?S1, ?S2; field. }
  assert (MN : vmag n0 = 1) by (rewrite (vmag_ext _ _ E); unfold vmag; rewrite NN; apply sqrt_1).
  change (vcross (fun d => sumn 4 (fun a => dN_dxi a * face_x x nodes fc a d) / / 2) (fun d => sumn 4 (fun a => dN_deta a * face_x x nodes fc a d) / / 2)) with n0.
  rewrite MN. destruct (Rlt_dec 1e-20 1) as [L1|L1]; [|lra]. cbn [f_n f_c]. split; [|reflexivity].
  intros k Hk. rewrite (E k Hk). replace (N k / 1) with (N k) by field. apply zap_id. apply K. exact Hk.
Qed.

(** ** Three unit cubes: element 0 touches element 1 across x = 1 and element 2 across y = 1; elements 1 and 2 share the edge x = y = 1.
    Element 0 is not joined to the others. *)
Definition bit (b : bool) : R := if b then 1 else 0.
Definition corner_x (k : nat) : vec := fun d =>
  match d with
  | 0%nat => bit (Nat.testbit k 0) | 1%nat => bit (Nat.testbit k 1) | _ => bit (Nat.testbit k 2)
  end.
Definition ell_nodes (e k : nat) : nat :=
  match e with
  | 0%nat => k
  | 1%nat => (8 + k)%nat
  | _ => match k with 1%nat => 10%nat | 5%nat => 14%nat | _ => (16 + k)%nat end
  end.
Definition ell_x (n : nat) : vec := fun d =>
  if Nat.ltb n 8 then corner_x n d
  else if Nat.ltb n 16 then match d with 0%nat => corner_x (n - 8) 0%nat + 1 | _ => corner_x (n - 8) d end
  else match d with 1%nat => corner_x (n - 16) 1%nat + 1 | _ => corner_x (n - 16) d end.
Definition ell_elems (n : nat) : list nat :=
  match n with 3%nat => [0%nat] | 10%nat => [1; 2]%nat | _ => [] end.

Definition axis (i : nat) (c : R) : vec := fun d => if Nat.eqb d i then c else 0.

Ltac ell_vec := intros k Hk; destruct k as [|[|[|k]]]; [| | |lia]; cbn [sumn]; unfold face_x, ell_x, corner_x, ell_nodes, bit, axis, dN_dxi, dN_deta;
  cbn [nth Nat.add Nat.sub Nat.ltb Nat.leb Nat.testbit Nat.odd Nat.even Nat.div2 Nat.eqb negb]; lra.
Ltac ell_face a b c d :=
  match goal with |- same3 (f_n (face_geometry ell_x ?nd ?f)) _ /\ _ =>
    apply (geometry_axis ell_x nd f _ (axis a b) (axis c d)); [reflexivity|ell_vec|ell_vec| | | | |];
    [unfold vdot, axis; cbn [Nat.eqb]; lra|unfold vdot, axis; cbn [Nat.eqb]; lra
    |intros k Hk; destruct k as [|[|[|k]]]; [| | |lia]; unfold vcross, vscale, axis; cbn [Nat.eqb]; lra
    |unfold vdot, axis; cbn [Nat.eqb]; lra
    |intros k Hk; destruct k as [|[|[|k]]]; [| | |lia]; unfold axis; cbn [Nat.eqb]; lra]
  end.

Lemma ell_A1 : same3 (f_n (face_geometry ell_x (ell_nodes 0) 1)) (axis 0 1) /\
  f_c (face_geometry ell_x (ell_nodes 0) 1) = (fun d => sumn 4 (fun a => 0.25 * face_x ell_x (ell_nodes 0) [1; 3; 7; 5]%nat a d)).
Proof. ell_face 1%nat (/ 2) 2%nat (/ 2). Qed.
Lemma ell_B0 : same3 (f_n (face_geometry ell_x (ell_nodes 1) 0)) (axis 0 (-1)) /\
  f_c (face_geometry ell_x (ell_nodes 1) 0) = (fun d => sumn 4 (fun a => 0.25 * face_x ell_x (ell_nodes 1) [0; 4; 6; 2]%nat a d)).
Proof. ell_face 2%nat (/ 2) 1%nat (/ 2). Qed.
Lemma ell_A3 : same3 (f_n (face_geometry ell_x (ell_nodes 0) 3)) (axis 1 1) /\
  f_c (face_geometry ell_x (ell_nodes 0) 3) = (fun d => sumn 4 (fun a => 0.25 * face_x ell_x (ell_nodes 0) [3; 2; 6; 7]%nat a d)).
Proof. ell_face 0%nat (- / 2) 2%nat (/ 2). Qed.
Lemma ell_B2 : same3 (f_n (face_geometry ell_x (ell_nodes 2) 2)) (axis 1 (-1)) /\
  f_c (face_geometry ell_x (ell_nodes 2) 2) = (fun d => sumn 4 (fun a => 0.25 * face_x ell_x (ell_nodes 2) [0; 1; 5; 4]%nat a d)).
Proof. ell_face 0%nat (/ 2) 2%nat (/ 2). Qed.

Lemma vmag_zero_same v : same3 v vzero -> vmag v = 0.
Proof. intros H. rewrite (vmag_ext _ _ H). unfold vmag, vdot, vzero. replace (0 * 0 + 0 * 0 + 0 * 0) with 0 by ring. apply sqrt_0. Qed.

Ltac ell_centre := intros k Hk; destruct k as [|[|[|k]]]; [| | |lia]; unfold vminus, vzero; cbn [sumn]; unfold face_x, ell_x, corner_x, ell_nodes, bit;
  cbn [nth Nat.add Nat.sub Nat.ltb Nat.leb Nat.testbit Nat.odd Nat.even Nat.div2 negb]; lra.

Lemma ell_facing_1 : facing ell_x (ell_nodes 0) (ell_nodes 1) 1e-8 1 0.
Proof.
  unfold facing. cbv zeta. destruct ell_A1 as [N1 C1]. destruct ell_B0 as [N2 C2]. rewrite C1, C2. split.
  - rewrite vmag_zero_same; [lra|ell_centre].
  - rewrite (vdot_ext _ _ _ _ N1 N2). unfold vdot, axis. cbn [Nat.eqb]. lra.
Qed.
Lemma ell_facing_2 : facing ell_x (ell_nodes 0) (ell_nodes 2) 1e-8 3 2.
Proof.
  unfold facing. cbv zeta. destruct ell_A3 as [N1 C1]. destruct ell_B2 as [N2 C2]. rewrite C1, C2. split.
  - rewrite vmag_zero_same; [lra|ell_centre].
  - rewrite (vdot_ext _ _ _ _ N1 N2). unfold vdot, axis. cbn [Nat.eqb]. lra.
Qed.
