(* The neural network strength model: C137. *)
From Coq Require Import Reals List Arith Lia Lra.
From Verif Require Import BaseReal AnnModel AnnSpec.
Import ListNotations.
Local Open Scope R_scope.

Definition unbiased (l : ann_layer) : Prop := forall j, (j < width l)%nat -> biases l j = 0.
Definition same (n : nat) (x y : nat -> R) : Prop := forall j, (j < n)%nat -> x j = y j.

Lemma network_ext ls : forall n x y, same n x y -> same (last_width n ls) (network n x ls) (network n y ls).
Proof.
  induction ls as [|l ls IH]; intros n x y H; [exact H|]. unfold last_width. cbn [network map].
  assert (E : last (width l :: map width ls) n = last_width (width l) ls) by (unfold last_width; destruct (map width ls) eqn:M; [reflexivity|]; clear; revert n0; induction l0 as [|a q IHq]; intros b; [reflexivity|]; exact (IHq a)).
  rewrite E. apply IH. intros j J. f_equal. f_equal. apply sumn_ext. intros i I. rewrite (H i I). reflexivity.
Qed.
Lemma last_width_cons n l ls : last_width n (l :: ls) = last_width (width l) ls.
Proof. unfold last_width. cbn [map]. destruct (map width ls) as [|m q]; [reflexivity|]. revert m. induction q as [|a q IHq]; intros m; [reflexivity|]. exact (IHq a). Qed.

Lemma layer_network n x l bias o : (forall j, (j < width l)%nat -> snd bias j = 0) -> forward_layer (n, x) l bias = Some o ->
  fst o = width l /\ forall j, (j < width l)%nat -> snd o j = logistic (sumn n (fun i => weights l i j * x i) + 0).
Proof.
  intros Z. unfold forward_layer. cbn [fst snd]. destruct (_ && _)%bool; [discriminate|]. intros E. injection E as <-. split; [reflexivity|]. cbn [snd]. intros j J.
  rewrite (sumn_ext n _ (fun i => weights l i j * x i)) by (intros i _; rewrite (Z j J); ring). unfold logistic. rewrite Rplus_0_r. unfold Rdiv. rewrite Rmult_1_l. reflexivity.
Qed.

Lemma rest_network first : (forall j, (j < fst first)%nat -> snd first j = 0) -> forall ls n x, (forall l, In l ls -> unbiased l /\ (width l <= fst first)%nat) ->
  exists o, forward_rest first (n, x) ls = Some (last_width n ls, o) /\ same (last_width n ls) o (network n x ls).
Proof.
  intros Z. induction ls as [|l ls IH]; intros n x H; cbn [forward_rest]; [exists x; split; [reflexivity|intros j J; reflexivity]|].
  destruct (H l (or_introl eq_refl)) as [U W]. destruct (forward_layer (n, x) l first) as [[m y]|] eqn:F.
  - destruct (layer_network n x l first (m, y) ltac:(intros j J; apply Z; lia) F) as [M Y]. cbn [fst snd] in M, Y. subst m.
    destruct (IH (width l) y ltac:(intros; apply H; right; assumption)) as (o & O & S1). exists o. rewrite last_width_cons. split; [exact O|].
    cbn [network]. intros j J. rewrite (S1 j J). apply network_ext; [|exact J]. intros q Q. rewrite (Y q Q), (U q Q). reflexivity.
  - exfalso. unfold forward_layer in F. cbn [fst snd] in F. destruct (Nat.ltb_spec (fst first) (width l)); [lia|]. discriminate.
Qed.

(* With no biases, and no layer wider than the first, the outputs are those of the network. *)
Theorem C137_network : forall n x l ls, (forall k, In k (l :: ls) -> unbiased k /\ (width k <= width l)%nat) ->
  exists o, ann_forward (n, x) (l :: ls) = Some (last_width n (l :: ls), o) /\ same (last_width n (l :: ls)) o (network n x (l :: ls)).
Proof.
  intros n x l ls H. destruct (H l (or_introl eq_refl)) as [U _]. change (ann_forward (n, x) (l :: ls)) with (forward_rest (width l, biases l) (n, x) (l :: ls)).
  apply rest_network; [exact U|]. intros k K. exact (H k K).
Qed.
Print Assumptions C137_network.

(* The network as it is set up: its outputs do not depend on the material point, and any list of
   widths that do not exceed the first hidden one works. *)
Theorem C137_set_up : forall n l ws, (forall k, In k ws -> (k <= l)%nat) ->
  exists o, ann_forward (init_inputs (n :: l :: ws)) (init_layers (n :: l :: ws)) = Some (last (l :: ws) n, o)
    /\ same (last (l :: ws) n) o (network n (fun _ => 1) (init_layers (n :: l :: ws))).
Proof.
  intros n l ws H. unfold init_layers, init_inputs. cbn [hd tl map].
  destruct (C137_network n (fun _ => 1) (AnnLayer l (fun _ _ => 1) (fun _ => 0)) (map (fun n => AnnLayer n (fun _ _ => 1) (fun _ => 0)) ws)) as (o & O & E).
  - intros k [<-|K]; [split; [intros j J; reflexivity|apply le_n]|]. apply in_map_iff in K. destruct K as (m & <- & M). split; [intros j J; reflexivity|exact (H m M)].
  - assert (L : last_width n (AnnLayer l (fun _ _ => 1) (fun _ => 0) :: map (fun n => AnnLayer n (fun _ _ => 1) (fun _ => 0)) ws) = last (l :: ws) n).
    { unfold last_width. cbn [map width]. rewrite map_map. cbn [width]. rewrite map_id. reflexivity. }
    rewrite L in O, E. exists o. split; assumption.
Qed.
Print Assumptions C137_set_up.

Lemma logistic_range s : 0 < logistic s < 1.
Proof.
  unfold logistic. pose proof (exp_pos (- s)) as E. split; [apply Rinv_0_lt_compat; lra|]. rewrite <- Rinv_1 at 2. apply Rinv_lt_contravar; lra.
Qed.
Lemma layer_range inp l bias o : forward_layer inp l bias = Some o -> forall j, 0 < snd o j < 1.
Proof.
  unfold forward_layer. cbv zeta. destruct (_ && _)%bool; [discriminate|]. intros E. injection E as <-. intros j. cbn [snd].
  replace (1 / (1 + exp (- sumn (fst inp) (fun i => snd inp i * weights l i j + snd bias j)))) with (logistic (sumn (fst inp) (fun i => snd inp i * weights l i j + snd bias j))) by (unfold logistic; field; pose proof (exp_pos (- sumn (fst inp) (fun i => snd inp i * weights l i j + snd bias j))); lra).
  apply logistic_range.
Qed.
Lemma rest_range first : forall ls inp o, (forall j, 0 < snd inp j < 1) -> forward_rest first inp ls = Some o -> forall j, 0 < snd o j < 1.
Proof.
  induction ls as [|l ls IH]; intros inp o R; cbn [forward_rest]; intros E; [injection E as <-; exact R|].
  destruct (forward_layer inp l first) as [y|] eqn:F; [|discriminate]. apply (IH _ _ (layer_range _ _ _ _ F) E).
Qed.
(* Whatever weights, biases and inputs, every output lies strictly between zero and one: no
   network of this kind can return a compressive stress or one above the unit. *)
Theorem C137_range : forall inp l ls o, ann_forward inp (l :: ls) = Some o -> forall j, 0 < snd o j < 1.
Proof.
  intros inp l ls o. cbn [ann_forward]. cbv zeta. destruct (forward_layer inp l _) as [y|] eqn:F; [|discriminate]. apply rest_range. exact (layer_range _ _ _ _ F).
Qed.
Print Assumptions C137_range.

(* A bias counts once for every input of its layer. *)
Lemma logistic_inj s t : logistic s = logistic t -> s = t.
Proof.
  unfold logistic. intros H. apply (f_equal Rinv) in H. rewrite !Rinv_inv in H. assert (E : exp (- s) = exp (- t)) by lra. apply exp_inv in E. lra.
Qed.
Theorem C137_bias_refuted : forall n x l j, (2 <= n)%nat -> biases l j <> 0 ->
  exists o, ann_forward (n, x) [l] = Some o /\ snd o j = logistic (sumn n (fun i => weights l i j * x i) + INR n * biases l j) /\ snd o j <> network n x [l] j.
Proof.
  intros n x l j N B. cbn [ann_forward forward_rest]. unfold forward_layer. cbn [fst snd]. rewrite Nat.ltb_irrefl. cbn [andb]. eexists. split; [reflexivity|]. cbn [snd].
  assert (E : 1 / (1 + exp (- sumn n (fun i => x i * weights l i j + biases l j))) = logistic (sumn n (fun i => weights l i j * x i) + INR n * biases l j)).
  { rewrite sumn_plus, sumn_const. rewrite (sumn_ext n (fun i => x i * weights l i j) (fun i => weights l i j * x i)) by (intros; ring). unfold logistic, Rdiv. rewrite Rmult_1_l. reflexivity. }
  split; [exact E|]. rewrite E. cbn [network]. intros H. apply logistic_inj in H. assert (2 <= INR n) by (change 2 with (INR 2); apply le_INR; exact N). assert (C : (INR n - 1) * biases l j = 0) by lra. apply Rmult_integral in C. destruct C; [lra|contradiction].
Qed.
Print Assumptions C137_bias_refuted.

(* The later layers take the biases of the first ... *)
Theorem C137_layers_refuted : forall n x l k j, (width k <= width l)%nat -> width l = 1%nat -> (j < width k)%nat -> biases k j = 0 -> biases l j <> 0 -> n = 1%nat ->
  exists o, ann_forward (n, x) [l; k] = Some o /\ snd o j <> network n x [l; k] j.
Proof.
  intros n x l k j W L J B Bl ->. cbn [ann_forward forward_rest]. unfold forward_layer. cbn [fst snd]. rewrite Nat.ltb_irrefl. cbn [andb]. destruct (Nat.ltb_spec (width l) (width k)); [lia|]. cbn [andb].
  eexists. split; [reflexivity|]. cbn [snd network]. rewrite L. assert (j = 0)%nat as -> by lia. cbn [sumn]. rewrite B.
  set (y := 1 / (1 + exp (- (0 + (x 0%nat * weights l 0%nat 0%nat + biases l 0%nat))))).
  assert (Y : logistic (0 + weights l 0%nat 0%nat * x 0%nat + biases l 0%nat) = y) by (unfold logistic, y; unfold Rdiv; rewrite Rmult_1_l; do 4 f_equal; ring). rewrite Y.
  intros HN.
  assert (G : logistic (0 + (y * weights k 0%nat 0%nat + biases l 0%nat)) = logistic (0 + weights k 0%nat 0%nat * y + 0)) by (rewrite <- HN; unfold logistic, Rdiv; rewrite Rmult_1_l; reflexivity).
  apply logistic_inj in G. lra.
Qed.
Print Assumptions C137_layers_refuted.

(* ... and a layer wider than the first reads past their end. *)
Theorem C137_wide_refuted : forall n x l k, (0 < n)%nat -> (0 < width l < width k)%nat -> ann_forward (n, x) [l; k] = None.
Proof.
  intros n x l k N W. cbn [ann_forward]. unfold forward_layer at 1. cbn [fst snd]. rewrite Nat.ltb_irrefl. cbn [andb forward_rest]. unfold forward_layer. cbn [fst snd].
  destruct (Nat.ltb_spec (width l) (width k)); [|lia]. destruct (Nat.ltb_spec 0 (width l)); [reflexivity|lia].
Qed.
Print Assumptions C137_wide_refuted.

(* The stress of the material point is left as it was, whatever the velocity gradient. *)
Theorem C137_stress_refuted : forall (L : nat -> nat -> R) (stress : nat -> nat -> R), ann_calc_stress (init_inputs ann_widths) (init_layers ann_widths) L stress = Some stress.
Proof. reflexivity. Qed.
Print Assumptions C137_stress_refuted.

Example C137_met : (forall k, In k [3; 1]%nat -> (k <= 3)%nat) /\ ann_widths = [6; 3; 1]%nat
  /\ (exists o, ann_forward (init_inputs ann_widths) (init_layers ann_widths) = Some (1%nat, o) /\ o 0%nat = logistic (3 * logistic 6)).
Proof.
  split; [intros k [<-|[<-|[]]]; lia|]. split; [reflexivity|]. destruct (C137_set_up 6 3 [1%nat]) as (o & O & E); [intros k [<-|[]]; lia|]. exists o. split; [exact O|].
  rewrite (E 0%nat (Nat.lt_0_succ 0)). cbn [init_layers tl map network sumn weights biases width]. replace (0 + 1 * 1 + 1 * 1 + 1 * 1 + 1 * 1 + 1 * 1 + 1 * 1 + 0) with 6 by ring. f_equal. ring.
Qed.
