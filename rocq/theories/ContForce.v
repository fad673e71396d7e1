(** Proofs about the contact point, the contact forces and the force increment. *)
From Coq Require Import Reals List Lia Lra ZArith Permutation.
From Verif Require Import BaseArr BaseReal FracModel FracSpec ContModel ContSpec ContProofs ContMore.
Import ListNotations.
Local Open Scope R_scope.

Lemma d125 : 0.125 = / 8. Proof. lra. Qed.

(** ** The contact point *)
Lemma iso_loop_converged fuel X p : forall cur pos s, iso_loop fuel X p cur pos = Some (s, true) -> vmag (fun d => p d - trilinear X s d) < 1e-8.
Proof.
  induction fuel as [|fuel IH]; intros cur pos s H; cbn [iso_loop] in H; [discriminate|].
  destruct (Req_EM_T (det3 (jacobian X cur)) 0); [discriminate|].
  match type of H with (if Rlt_dec ?a ?b then _ else _) = _ => destruct (Rlt_dec a b) as [L|L] end.
  - injection H as <-. exact L.
  - eapply IH; exact H.
Qed.

(** fixed coordinate of a face *)
Definition on_face (f : nat) (s : vec) : Prop :=
  match f with 0%nat => s 0%nat = -1 | 1%nat => s 0%nat = 1 | 2%nat => s 1%nat = -1 | 3%nat => s 1%nat = 1 | 4%nat => s 2%nat = -1 | _ => s 2%nat = 1 end.
Lemma face_coords_point X f s d : (f < 6)%nat -> on_face f s ->
  patch_point (fquad X f) (fst (face_coords f s)) (snd (face_coords f s)) d = trilinear X s d.
Proof.
  intros Hf Hs. unfold patch_point, trilinear, pphi. cbn [sumn]. rewrite d25, d125.
  do 6 (destruct f as [|f]; [cbn [on_face] in Hs; unfold fquad; cbn [face_corners nth face_coords fst snd pxi peta s_xi s_eta s_zeta]; rewrite Hs; field|]). lia.
Qed.

Lemma inv3_l M : det3 M <> 0 -> forall v i, (i < 3)%nat ->
  inv3 M i 0%nat * (M 0%nat 0%nat * v 0%nat + M 0%nat 1%nat * v 1%nat + M 0%nat 2%nat * v 2%nat)
  + inv3 M i 1%nat * (M 1%nat 0%nat * v 0%nat + M 1%nat 1%nat * v 1%nat + M 1%nat 2%nat * v 2%nat)
  + inv3 M i 2%nat * (M 2%nat 0%nat * v 0%nat + M 2%nat 1%nat * v 1%nat + M 2%nat 2%nat * v 2%nat) = (v : vec) i.
Proof.
  intros Hd v i Hi. unfold det3 in Hd.
  destruct i as [|[|[|i]]]; [| | |lia]; cbn [inv3]; unfold det3;
  (set (a := M 0%nat 0%nat) in *; set (b := M 0%nat 1%nat) in *; set (c := M 0%nat 2%nat) in *; set (d := M 1%nat 0%nat) in *; set (e := M 1%nat 1%nat) in *;
   set (f := M 1%nat 2%nat) in *; set (g := M 2%nat 0%nat) in *; set (h := M 2%nat 1%nat) in *; set (k := M 2%nat 2%nat) in *; clearbody a b c d e f g h k; field; exact Hd).
Qed.

(** a parallelepiped is mapped affinely *)
Lemma trilinear_brick o a b c s d : trilinear (brick o a b c) s d = o d + (1 + s 0%nat) / 2 * a d + (1 + s 1%nat) / 2 * b d + (1 + s 2%nat) / 2 * c d.
Proof. unfold trilinear. cbn [sumn]. unfold brick. cbn [s_xi s_eta s_zeta]. rewrite d125. field. Qed.
Lemma jacobian_brick o a b c s j k : jacobian (brick o a b c) s j k = match k with 0%nat => a j / 2 | 1%nat => b j / 2 | _ => c j / 2 end.
Proof. unfold jacobian, jac_row. destruct k as [|[|k]]; cbn [sumn]; unfold brick; cbn [s_xi s_eta s_zeta]; rewrite d125; field. Qed.
Lemma det_brick o a b c s : det3 (jacobian (brick o a b c) s) = volume a b c / 8.
Proof. unfold det3. rewrite !jacobian_brick. unfold volume, vdot, vcross. field. Qed.
Lemma mean_brick o a b c d : sumn 8 (fun n => brick o a b c n d) / 8 = o d + a d / 2 + b d / 2 + c d / 2.
Proof. cbn [sumn]. unfold brick. cbn [s_xi s_eta s_zeta]. field. Qed.

Lemma vmag_zero v : (forall d, (d < 3)%nat -> v d = 0) -> vmag v = 0.
Proof. intros H. unfold vmag, vdot. rewrite !H by lia. rewrite !Rmult_0_r, !Rplus_0_r. apply sqrt_0. Qed.

Lemma iso_brick fuel o a b c p : volume a b c <> 0 -> exists s, iso_inverse (S fuel) (brick o a b c) p = Some (s, true) /\
  forall d, (d < 3)%nat -> trilinear (brick o a b c) s d = p d.
Proof.
  intros Hv. unfold iso_inverse. cbn [iso_loop].
  destruct (Req_EM_T (det3 (jacobian (brick o a b c) vzero)) 0) as [E|E]; [rewrite det_brick in E; lra|].
  set (M := jacobian (brick o a b c) vzero) in *.
  (* coordinates that map to p *)
  set (y := fun i => inv3 M i 0%nat * (p 0%nat - sumn 8 (fun n => brick o a b c n 0%nat) / 8) + inv3 M i 1%nat * (p 1%nat - sumn 8 (fun n => brick o a b c n 1%nat) / 8)
                     + inv3 M i 2%nat * (p 2%nat - sumn 8 (fun n => brick o a b c n 2%nat) / 8)).
  set (nx := fun j => vzero j + _ + _ + _).
  assert (Hn : forall j, nx j = y j) by (intros j; unfold nx, y, vzero; ring).
  assert (Hy : forall d, (d < 3)%nat -> M d 0%nat * y 0%nat + M d 1%nat * y 1%nat + M d 2%nat * y 2%nat = p d - sumn 8 (fun n => brick o a b c n d) / 8).
  { assert (R : forall d, (d < 3)%nat -> forall r : vec, M d 0%nat * (inv3 M 0%nat 0%nat * r 0%nat + inv3 M 0%nat 1%nat * r 1%nat + inv3 M 0%nat 2%nat * r 2%nat)
        + M d 1%nat * (inv3 M 1%nat 0%nat * r 0%nat + inv3 M 1%nat 1%nat * r 1%nat + inv3 M 1%nat 2%nat * r 2%nat)
        + M d 2%nat * (inv3 M 2%nat 0%nat * r 0%nat + inv3 M 2%nat 1%nat * r 1%nat + inv3 M 2%nat 2%nat * r 2%nat) = r d).
    { intros d Hd r. clearbody M. clear y nx Hn. unfold det3 in E. cbn [inv3]. unfold det3.
      destruct d as [|[|[|d]]]; [| | |lia];
      (set (a1 := M 0%nat 0%nat) in *; set (b1 := M 0%nat 1%nat) in *; set (c1 := M 0%nat 2%nat) in *; set (d1 := M 1%nat 0%nat) in *; set (e1 := M 1%nat 1%nat) in *;
       set (f1 := M 1%nat 2%nat) in *; set (g1 := M 2%nat 0%nat) in *; set (h1 := M 2%nat 1%nat) in *; set (k1 := M 2%nat 2%nat) in *; clearbody a1 b1 c1 d1 e1 f1 g1 h1 k1; field; exact E). }
    intros d Hd. exact (R d Hd (fun d => p d - sumn 8 (fun n => brick o a b c n d) / 8)). }
  assert (Hp : forall d, (d < 3)%nat -> trilinear (brick o a b c) nx d = p d).
  { intros d Hd. specialize (Hy d Hd). unfold M in Hy. rewrite !jacobian_brick, mean_brick in Hy. rewrite trilinear_brick, !Hn. lra. }
  destruct (Rlt_dec (vmag (fun d => p d - trilinear (brick o a b c) nx d)) 1e-8) as [L|L].
  - exists nx. split; [reflexivity|exact Hp].
  - exfalso. apply L. rewrite vmag_zero; [lra|]. intros d Hd. rewrite Hp by exact Hd. ring.
Qed.

Lemma brick_planar o a b c f : (f < 6)%nat ->
  vdot (fun d => fquad (brick o a b c) f 0%nat d - centre4 (fquad (brick o a b c) f) d) (area_vec (fquad (brick o a b c) f)) = 0.
Proof.
  intros Hf. do 6 (destruct f as [|f]; [unfold fquad; cbn [face_corners]; unfold vdot, area_vec, centre4, vcross; cbn [nth]; unfold brick; cbn [s_xi s_eta s_zeta]; field|]). lia.
Qed.
Lemma brick_area o a b c f : (f < 6)%nat -> 0 < volume a b c -> vmag (area_vec (fquad (brick o a b c) f)) <> 0.
Proof.
  intros Hf Hv. set (s := match f with 0%nat | 2%nat | 4%nat => 1 | _ => 0 end).
  destruct (brick_inside o a b c f s s s Hf Hv) as [H _]; [|exact H]. unfold s. do 6 (destruct f as [|f]; [cbn [depth]; lra|]). lia.
Qed.

(** foot of the perpendicular on the plane of a patch *)
Lemma project_foot q n p : patch_normal q 0 0 = Some n -> unit_vec n /\
  (forall d, project q n p d = p d - vdot (fun d => p d - q 0%nat d) n * n d) /\ vdot (fun d => project q n p d - q 0%nat d) n = 0.
Proof.
  intros E. pose proof (normal_centre q) as H. rewrite E in H. destruct H as [Hm Hn].
  assert (Hu : n 0%nat * n 0%nat + n 1%nat * n 1%nat + n 2%nat * n 2%nat = 1).
  { rewrite !Hn. pose proof (vdot_self_area q) as S. unfold vdot in S. set (m := vmag _) in *. clearbody m.
    set (a := area_vec q 0%nat) in *. set (b := area_vec q 1%nat) in *. set (c := area_vec q 2%nat) in *. clearbody a b c.
    replace (a / m * (a / m) + b / m * (b / m) + c / m * (c / m)) with ((a * a + b * b + c * c) / (m * m)) by (field; exact Hm). rewrite <- S. field. exact Hm. }
  split; [exact Hu|].
  assert (P : forall d, project q n p d = p d - vdot (fun d => p d - q 0%nat d) n * n d).
  { intros d. unfold project. replace (- n 0%nat * n 0%nat - n 1%nat * n 1%nat - n 2%nat * n 2%nat) with (-1) by lra. unfold vdot. field. }
  split; [exact P|]. unfold vdot. rewrite !P. set (t := vdot _ _).
  replace ((p 0%nat - t * n 0%nat - q 0%nat 0%nat) * n 0%nat + (p 1%nat - t * n 1%nat - q 0%nat 1%nat) * n 1%nat + (p 2%nat - t * n 2%nat - q 0%nat 2%nat) * n 2%nat)
    with (t - t * (n 0%nat * n 0%nat + n 1%nat * n 1%nat + n 2%nat * n 2%nat)) by (unfold t, vdot; ring). rewrite Hu. ring.
Qed.

Lemma new_pair_brick fuel o a b c f p : (f < 6)%nat -> 0 < volume a b c -> exists v, new_pair (S fuel) (brick o a b c) f p = Some v /\
  (forall d, p_n v d = area_vec (fquad (brick o a b c) f) d / vmag (area_vec (fquad (brick o a b c) f))) /\
  (forall d, (d < 3)%nat -> patch_point (fquad (brick o a b c) f) (p_xi v) (p_eta v) d
     = p d - vdot (fun d => p d - fquad (brick o a b c) f 0%nat d) (p_n v) * p_n v d) /\ p_inc v = 0 /\ p_tot v = 0.
Proof.
  intros Hf Hv. unfold new_pair. set (q := fquad (brick o a b c) f).
  pose proof (normal_centre q) as Hn. destruct (patch_normal q 0 0) as [n|] eqn:En.
  2: { exfalso. exact (brick_area o a b c f Hf Hv Hn). }
  destruct Hn as [Hm Hn]. cbn [obind]. destruct (project_foot q n p En) as (Hu & Hpr & Hpl).
  set (P := project q n p) in *. destruct (iso_brick fuel o a b c P) as (s & -> & Hs); [lra|]. cbn [obind].
  eexists. split; [reflexivity|]. cbn [p_n p_xi p_eta p_inc p_tot]. split; [exact Hn|]. split; [|auto].
  intros d Hd. assert (Hon : on_face f s).
  { assert (K : vdot (fun d => P d - centre4 q d) (area_vec q) = 0).
    { pose proof (brick_planar o a b c f Hf) as B. fold q in B.
      assert (Z : vdot (fun d => P d - q 0%nat d) (area_vec q) = 0).
      { unfold vdot in Hpl |- *. rewrite !Hn in Hpl. set (m := vmag _) in *. clearbody m.
        apply Rmult_eq_reg_r with (/ m); [|now apply Rinv_neq_0_compat]. rewrite Rmult_0_l, <- Hpl. field. exact Hm. }
      unfold vdot in *. lra. }
    pose proof (brick_side o a b c f ((1 + s 0%nat) / 2) ((1 + s 1%nat) / 2) ((1 + s 2%nat) / 2) Hf) as S. fold q in S.
    assert (S' : - 2 * depth f ((1 + s 0%nat) / 2) ((1 + s 1%nat) / 2) ((1 + s 2%nat) / 2) * volume a b c = 0).
    { rewrite <- S, <- K. unfold vdot. rewrite <- !(Hs _) by lia. rewrite !trilinear_brick. reflexivity. }
    assert (D : depth f ((1 + s 0%nat) / 2) ((1 + s 1%nat) / 2) ((1 + s 2%nat) / 2) = 0).
    { destruct (Rmult_integral _ _ S') as [D|D]; lra. }
    clear - Hf D. do 6 (destruct f as [|f]; [cbn [depth on_face] in *; lra|]). lia. }
  rewrite <- Hpr. fold P. rewrite <- (Hs d Hd). unfold q. apply face_coords_point; assumption.
Qed.

(** ** Forces *)
Lemma pphi_unity s t : sumn 4 (pphi s t) = 1.
Proof. cbn [sumn]. unfold pphi. cbn [pxi peta]. rewrite d25. field. Qed.

Lemma fadd_sum nb F n v d : (n < nb)%nat -> sumn nb (fun i => fadd F n v i d) = sumn nb (fun i => F i d) + v d.
Proof.
  intros Hn. transitivity (sumn nb (fun i => F i d + (if Nat.eqb i n then v d else 0))).
  - apply sumn_ext. intros i _. unfold fadd. destruct (Nat.eqb i n); ring.
  - rewrite sumn_plus. f_equal. now apply sumn_delta.
Qed.
Lemma apply_pair_sum nb F cid cmap n phi f d : (cid < nb)%nat -> (forall k, (k < 4)%nat -> (cmap k < nb)%nat) ->
  sumn nb (fun i => apply_pair F cid cmap n phi f i d) = sumn nb (fun i => F i d) + f * n d * (1 - sumn 4 phi).
Proof.
  intros Hc Hm. unfold apply_pair. cbn [seq fold_left]. rewrite !fadd_sum by (assumption || (apply Hm; lia)). cbn [sumn]. ring.
Qed.
Lemma distribute_sum nb F cid cmap v d : (cid < nb)%nat -> (forall k, (k < 4)%nat -> (cmap k < nb)%nat) ->
  sumn nb (fun i => fst (distribute F cid cmap v) i d) = sumn nb (fun i => F i d).
Proof.
  intros Hc Hm. unfold distribute. cbv zeta. match goal with |- context [if ?b then _ else _] => destruct b end; cbn [fst];
  rewrite apply_pair_sum by assumption; rewrite pphi_unity; ring.
Qed.

(** moment about the origin *)
Definition moment (nb : nat) (r F : nat -> vec) (d : nat) : R := sumn nb (fun i => vcross (r i) (F i) d).
Lemma fadd_moment nb r F n v d : (n < nb)%nat -> moment nb r (fadd F n v) d = moment nb r F d + vcross (r n) v d.
Proof.
  intros Hn. unfold moment. transitivity (sumn nb (fun i => vcross (r i) (F i) d + (if Nat.eqb i n then vcross (r n) v d else 0))).
  - apply sumn_ext. intros i _. unfold fadd, vcross. destruct (Nat.eqb_spec i n) as [->|]; destruct d as [|[|d]]; ring.
  - rewrite sumn_plus. f_equal. now apply sumn_delta.
Qed.
Lemma apply_pair_moment nb r F cid cmap n s t f d : (cid < nb)%nat -> (forall k, (k < 4)%nat -> (cmap k < nb)%nat) ->
  moment nb r (apply_pair F cid cmap n (pphi s t) f) d
  = moment nb r F d + f * vcross (fun d => r cid d - patch_point (fun k => r (cmap k)) s t d) n d.
Proof.
  intros Hc Hm. unfold apply_pair. cbn [seq fold_left]. rewrite !fadd_moment by (assumption || (apply Hm; lia)).
  unfold patch_point. cbn [sumn]. unfold vcross. destruct d as [|[|d]]; ring.
Qed.

(** one pass over the pairs *)
Definition ids_ok (nb : nat) (c : cpair) : Prop := (c_id c < nb)%nat /\ forall k, (k < 4)%nat -> (c_map c k < nb)%nat.
Lemma spread_snoc F l c : spread F (l ++ [c]) =
  (fst (distribute (fst (spread F l)) (c_id c) (c_map c) (c_pv c)),
   snd (spread F l) ++ [mkPair (c_id c) (c_map c) (snd (distribute (fst (spread F l)) (c_id c) (c_map c) (c_pv c)))]).
Proof.
  unfold spread. rewrite fold_left_app. destruct (fold_left _ l (F, [])) as [F' out]. cbn [fold_left fst snd].
  destruct (distribute F' (c_id c) (c_map c) (c_pv c)) as [F'' v]. reflexivity.
Qed.
Lemma spread_sum nb F l d : Forall (ids_ok nb) l -> sumn nb (fun i => fst (spread F l) i d) = sumn nb (fun i => F i d).
Proof.
  induction l as [|c l IH] using rev_ind; intros H; [reflexivity|]. apply Forall_app in H as [Hl Hc]. inversion Hc; subst.
  rewrite spread_snoc. cbn [fst]. match goal with K : ids_ok nb c |- _ => destruct K as [K1 K2] end. rewrite distribute_sum by assumption. now apply IH.
Qed.
Lemma spread_ids F l : map (fun c => (c_id c, c_map c)) (snd (spread F l)) = map (fun c => (c_id c, c_map c)) l.
Proof.
  induction l as [|c l IH] using rev_ind; [reflexivity|]. rewrite spread_snoc. cbn [snd]. now rewrite !map_app, IH.
Qed.
Lemma ids_map nb l l' : map (fun c => (c_id c, c_map c)) l' = map (fun c => (c_id c, c_map c)) l -> Forall (ids_ok nb) l -> Forall (ids_ok nb) l'.
Proof.
  revert l. induction l' as [|c' l' IH]; intros [|c l] E H; try discriminate; constructor; inversion H; subst; injection E as E1 E2 E3.
  - unfold ids_ok in *. now rewrite E1, E2.
  - eapply IH; eassumption.
Qed.
Lemma all_incs_ids incr F l l' : all_incs incr F l = Some l' -> map (fun c => (c_id c, c_map c)) l' = map (fun c => (c_id c, c_map c)) l.
Proof.
  revert l'. induction l as [|c l IH]; intros l' H; cbn [all_incs] in H; [injection H as <-; reflexivity|].
  destruct (incr F c) as [v|]; [|discriminate]. cbn [obind] in H. destruct (all_incs incr F l) as [r|] eqn:E; [|discriminate]. cbn [obind] in H.
  injection H as <-. cbn [map c_id c_map]. f_equal. now apply IH.
Qed.
Lemma resolve_sum incr nb fuel d : forall F l F' l' b, Forall (ids_ok nb) l -> resolve incr fuel F l = Some (F', l', b) ->
  sumn nb (fun i => F' i d) = sumn nb (fun i => F i d).
Proof.
  induction fuel as [|fuel IH]; intros F l F' l' b Hl H; cbn [resolve] in H; [injection H as <- <- <-; reflexivity|].
  destruct (all_incs incr F l) as [l1|] eqn:E1; [|discriminate]. cbn [obind] in H.
  pose proof (ids_map nb l l1 (all_incs_ids _ _ _ _ E1) Hl) as Hl1.
  destruct (spread F l1) as [F1 l2] eqn:E2. assert (S : sumn nb (fun i => F1 i d) = sumn nb (fun i => F i d)).
  { pose proof (spread_sum nb F l1 d Hl1) as S. now rewrite E2 in S. }
  assert (Hl2 : Forall (ids_ok nb) l2). { eapply ids_map; [|exact Hl1]. pose proof (spread_ids F l1) as K. now rewrite E2 in K. }
  destruct (Rle_dec (norm_incs l2) 1e-8).
  - injection H as <- <- <-. exact S.
  - rewrite <- S. eapply IH; eassumption.
Qed.

(** no tension, contact only on the patch *)
Definition pushing (v : pvars) : Prop := 0 <= p_tot v /\ (p_tot v <> 0 -> Rabs (p_xi v) <= 1.01 /\ Rabs (p_eta v) <= 1.01).
Lemma distribute_pushing F cid cmap v : pushing (snd (distribute F cid cmap v)).
Proof.
  unfold distribute. cbv zeta. destruct (Rlt_dec (0.2 * p_inc v + p_tot v) 0) as [A|A]; [cbn [snd]; split; cbn [p_tot]; [lra|intros K; contradiction]|].
  destruct (Rlt_dec 1.01 (Rabs (p_xi v))) as [B|B]; [cbn [snd]; split; cbn [p_tot]; [lra|intros K; contradiction]|].
  destruct (Rlt_dec 1.01 (Rabs (p_eta v))) as [C|C]; [cbn [snd]; split; cbn [p_tot]; [lra|intros K; contradiction]|].
  cbn [snd]. split; cbn [p_tot p_xi p_eta]; [lra|]. intros _. split; lra.
Qed.
Lemma spread_pushing F l : Forall (fun c => pushing (c_pv c)) (snd (spread F l)).
Proof.
  induction l as [|c l IH] using rev_ind; [constructor|]. rewrite spread_snoc. cbn [snd]. apply Forall_app. split; [exact IH|].
  constructor; [|constructor]. cbn [c_pv]. apply distribute_pushing.
Qed.
Lemma resolve_pushing incr fuel : forall F l F' l' b, Forall (fun c => pushing (c_pv c)) l -> resolve incr fuel F l = Some (F', l', b) ->
  Forall (fun c => pushing (c_pv c)) l'.
Proof.
  induction fuel as [|fuel IH]; intros F l F' l' b Hl H; cbn [resolve] in H; [injection H as <- <- <-; exact Hl|].
  destruct (all_incs incr F l) as [l1|] eqn:E1; [|discriminate]. cbn [obind] in H.
  pose proof (spread_pushing F l1) as S. destruct (spread F l1) as [F1 l2]. cbn [snd] in S.
  destruct (Rle_dec (norm_incs l2) 1e-8); [injection H as <- <- <-; exact S|]. eapply IH; eassumption.
Qed.

(** what the pairs hold: total force along the normal, spread with the shape functions *)
Definition share (c : cpair) (i d : nat) : R :=
  (if Nat.eqb i (c_id c) then p_tot (c_pv c) * p_n (c_pv c) d else 0)
  - sumn 4 (fun k => if Nat.eqb i (c_map c k) then p_tot (c_pv c) * p_n (c_pv c) d * pphi (p_xi (c_pv c)) (p_eta (c_pv c)) k else 0).
Lemma apply_pair_at F cid cmap n phi f i d :
  apply_pair F cid cmap n phi f i d = F i d + ((if Nat.eqb i cid then f * n d else 0) - sumn 4 (fun k => if Nat.eqb i (cmap k) then f * n d * phi k else 0)).
Proof.
  unfold apply_pair. cbn [seq fold_left sumn]. unfold fadd.
  destruct (Nat.eqb i cid), (Nat.eqb i (cmap 0%nat)), (Nat.eqb i (cmap 1%nat)), (Nat.eqb i (cmap 2%nat)), (Nat.eqb i (cmap 3%nat)); ring.
Qed.
Definition with_pv (c : cpair) (v : pvars) : cpair := mkPair (c_id c) (c_map c) v.
Lemma distribute_share F c i d :
  fst (distribute F (c_id c) (c_map c) (c_pv c)) i d - share (with_pv c (snd (distribute F (c_id c) (c_map c) (c_pv c)))) i d
  = F i d - share c i d.
Proof.
  unfold distribute. cbv zeta. match goal with |- context [if ?b then (_, _) else _] => destruct b end; cbn [fst snd];
  rewrite apply_pair_at; unfold share; cbn [with_pv c_id c_map c_pv p_tot p_n p_xi p_eta sumn];
  destruct (Nat.eqb i (c_id c)), (Nat.eqb i (c_map c 0%nat)), (Nat.eqb i (c_map c 1%nat)), (Nat.eqb i (c_map c 2%nat)), (Nat.eqb i (c_map c 3%nat)); ring.
Qed.
Lemma spread_share F l i d : fst (spread F l) i d - suml (fun c => share c i d) (snd (spread F l)) = F i d - suml (fun c => share c i d) l.
Proof.
  induction l as [|c l IH] using rev_ind; [reflexivity|]. rewrite spread_snoc. cbn [fst snd]. rewrite !suml_app, !suml_cons.
  pose proof (distribute_share (fst (spread F l)) c i d) as D. unfold with_pv in D. cbn [suml map fold_right] in *. unfold suml in *. cbn [fold_right] in *. lra.
Qed.
Lemma all_incs_share incr F l l' i d : (forall F c v, incr F c = Some v -> p_tot v = p_tot (c_pv c) /\ p_xi v = p_xi (c_pv c) /\ p_eta v = p_eta (c_pv c) /\ p_n v = p_n (c_pv c)) ->
  all_incs incr F l = Some l' -> suml (fun c => share c i d) l' = suml (fun c => share c i d) l.
Proof.
  intros Hi. revert l'. induction l as [|c l IH]; intros l' H; cbn [all_incs] in H; [injection H as <-; reflexivity|].
  destruct (incr F c) as [v|] eqn:Ev; [|discriminate]. cbn [obind] in H. destruct (all_incs incr F l) as [r|] eqn:E; [|discriminate]. cbn [obind] in H.
  injection H as <-. rewrite !suml_cons, (IH r eq_refl). f_equal. destruct (Hi _ _ _ Ev) as (T & X & Y & N). unfold share. cbn [c_id c_map c_pv]. now rewrite T, X, Y, N.
Qed.
Lemma resolve_share incr fuel i d : (forall F c v, incr F c = Some v -> p_tot v = p_tot (c_pv c) /\ p_xi v = p_xi (c_pv c) /\ p_eta v = p_eta (c_pv c) /\ p_n v = p_n (c_pv c)) ->
  forall F l F' l' b, resolve incr fuel F l = Some (F', l', b) ->
  F' i d - suml (fun c => share c i d) l' = F i d - suml (fun c => share c i d) l.
Proof.
  intros Hi. induction fuel as [|fuel IH]; intros F l F' l' b H; cbn [resolve] in H; [injection H as <- <- <-; reflexivity|].
  destruct (all_incs incr F l) as [l1|] eqn:E1; [|discriminate]. cbn [obind] in H.
  pose proof (spread_share F l1 i d) as S. rewrite (all_incs_share incr F l l1 i d Hi E1) in S.
  destruct (spread F l1) as [F1 l2]. cbn [fst snd] in S. destruct (Rle_dec (norm_incs l2) 1e-8).
  - injection H as <- <- <-. exact S.
  - rewrite <- S. eapply IH; eassumption.
Qed.

(** nodes *)
Lemma node_force_at nb bdy F : (forall i j, (i < nb)%nat -> (j < nb)%nat -> bdy i = bdy j -> i = j) ->
  (forall i, (i < nb)%nat -> forall d, node_contact_force nb bdy F (bdy i) d = F i d) /\
  (forall m, (forall i, (i < nb)%nat -> bdy i <> m) -> forall d, node_contact_force nb bdy F m d = 0).
Proof.
  unfold node_contact_force. induction nb as [|n IH]; intros Hinj.
  - split; [intros; lia|reflexivity].
  - destruct IH as [I1 I2]. { intros i j Hi Hj. apply Hinj; lia. }
    rewrite seq_S, fold_left_app. cbn [fold_left plus]. split.
    + intros i Hi d. destruct (Nat.eqb_spec (bdy i) (bdy n)) as [E|E].
      * apply Hinj in E; [subst; reflexivity|lia|lia].
      * apply I1. assert (i <> n) by (intros ->; contradiction). lia.
    + intros m Hm d. destruct (Nat.eqb_spec m (bdy n)) as [->|E]; [exfalso; apply (Hm n); [lia|reflexivity]|]. apply I2. intros i Hi. apply Hm. lia.
Qed.
Lemma node_force_sum nn nb bdy F d : (forall i j, (i < nb)%nat -> (j < nb)%nat -> bdy i = bdy j -> i = j) -> (forall i, (i < nb)%nat -> (bdy i < nn)%nat) ->
  sumn nn (fun m => node_contact_force nb bdy F m d) = sumn nb (fun i => F i d).
Proof.
  intros Hinj Hlt. unfold node_contact_force. induction nb as [|n IH]; [apply sumn_0|].
  rewrite seq_S, fold_left_app. cbn [fold_left plus]. set (C := fold_left _ (seq 0 n) _) in *.
  assert (Z : C (bdy n) d = 0).
  { unfold C. apply (node_force_at n bdy F); [intros i j Hi Hj; apply Hinj; lia|]. intros i Hi E. apply Hinj in E; lia. }
  cbn [sumn]. rewrite <- IH; [|intros i j Hi Hj; apply Hinj; lia|intros i Hi; apply Hlt; lia].
  transitivity (sumn nn (fun m => C m d + (if Nat.eqb m (bdy n) then F n d else 0))).
  - apply sumn_ext. intros m _. destruct (Nat.eqb_spec m (bdy n)) as [->|]; [rewrite Z; ring|ring].
  - rewrite sumn_plus. f_equal. apply sumn_delta. apply Hlt. lia.
Qed.

(** ** The increment *)
Section Newton.
  Variables (dt : R) (xs vs fs : vec) (ms : R) (xk vk fk : nat -> vec) (mk : nat -> R).
  Notation gap' := (gap dt xs vs fs ms xk vk fk mk).
  Notation newton' := (newton dt xs vs fs ms xk vk fk mk).

  Lemma newton_result fuel n0 : forall sol2 v v' b, newton' fuel n0 sol2 v = Some (v', b) ->
    p_tot v' = p_tot v /\ (b = true -> gap' v' 0%nat * gap' v' 0%nat + gap' v' 1%nat * gap' v' 1%nat + gap' v' 2%nat * gap' v' 2%nat <= newton_tol).
  Proof.
    induction fuel as [|fuel IH]; intros sol2 v v' b H; cbn [newton] in H; [injection H as <- <-; split; [reflexivity|discriminate]|].
    cbv zeta in H. match type of H with (if Rle_dec ?a ?c then _ else _) = _ => destruct (Rle_dec a c) as [L|L] end.
    - injection H as <- <-. split; [reflexivity|]. intros _. exact L.
    - destruct (newton_matrix dt ms xk vk fk mk n0 v) as [J|]; [|discriminate]. cbn [obind] in H.
      destruct (Req_EM_T (det3 J) 0); [injection H as <- <-; split; [reflexivity|discriminate]|].
      match type of H with obind ?o _ = _ => destruct o as [nn|] end; [|discriminate]. cbn [obind] in H.
      destruct (IH _ _ _ _ H) as [T C]. split; [exact T|exact C].
  Qed.
End Newton.

Lemma increment_tot it dt xs vs fs ms xk vk fk mk v v' b : increment dt xs vs fs ms xk vk fk mk it v = Some (v', b) -> p_tot v' = p_tot v.
Proof. unfold increment. destruct (first_guess _ _ _ _ _ _) as [g|]; [|discriminate]. cbn [obind]. intros H. eapply newton_result. exact H. Qed.

(** a node flying straight at the middle of a flat patch whose corners move together *)
Section HeadOn.
  Variables (dt : R) (xs vs fs : vec) (ms m : R) (ctr a b vp fp n : vec) (g : R).
  Hypothesis dt_pos : 0 < dt.
  Hypothesis ms_pos : 0 < ms.
  Hypothesis m_pos : 0 < m.
  (** parallelogram with centre ctr and half edges a (along xi), b (along eta) *)
  Definition flat (k : nat) : vec := fun d => ctr d + pxi k * a d + peta k * b d.
  Hypothesis flat_ok : vmag (vcross a b) <> 0.
  Hypothesis n_def : forall d, n d = vcross a b d / vmag (vcross a b).
  (** without contact force the node would end g above the middle of the patch *)
  Hypothesis ahead : forall d, (d < 3)%nat ->
    xs d + vs d * dt + 0.5 * (fs d / ms) * dt * dt - (ctr d + vp d * dt + 0.5 * (fp d / m) * dt * dt) = g * n d.
  Definition kappa : R := dt * dt / 2 * (1 / ms + 1 / (4 * m)).

  Lemma kappa_pos : 0 < kappa.
  Proof.
    unfold kappa. apply Rmult_lt_0_compat; [apply Rmult_lt_0_compat; [now apply Rmult_lt_0_compat|lra]|].
    apply Rplus_lt_0_compat; apply Rmult_lt_0_compat; try lra; apply Rinv_0_lt_compat; lra.
  Qed.
  Lemma d5 : 0.5 = / 2. Proof. lra. Qed.
  Lemma n_unit : n 0%nat * n 0%nat + n 1%nat * n 1%nat + n 2%nat * n 2%nat = 1.
  Proof.
    rewrite !n_def. assert (S : vmag (vcross a b) * vmag (vcross a b) = vdot (vcross a b) (vcross a b)) by (unfold vmag; apply sqrt_def; unfold vdot; nra).
    unfold vdot in S. set (M := vmag _) in *. clearbody M. set (c0 := vcross a b 0%nat) in *. set (c1 := vcross a b 1%nat) in *. set (c2 := vcross a b 2%nat) in *. clearbody c0 c1 c2.
    replace (c0 / M * (c0 / M) + c1 / M * (c1 / M) + c2 / M * (c2 / M)) with ((c0 * c0 + c1 * c1 + c2 * c2) / (M * M)) by (field; exact flat_ok). rewrite <- S. field. exact flat_ok.
  Qed.
  Notation later := (patch_later dt flat (fun _ => vp) (fun _ => fp) (fun _ => m)).
  Lemma later_at inc k j : later inc n (pphi 0 0) k j = flat k j + (vp j * dt + (fp j - inc * n j / 4) / m * dt * dt / 2).
  Proof. unfold patch_later. rewrite pphi_0, d5. field. lra. Qed.
  Lemma gap_at inc tot d : (d < 3)%nat -> gap dt xs vs fs ms flat (fun _ => vp) (fun _ => fp) (fun _ => m) (mkPv 0 0 n inc tot) d = (g + kappa * inc) * n d.
  Proof.
    intros Hd. unfold gap, node_later. cbn [p_inc p_n p_xi p_eta sumn]. rewrite !later_at, !pphi_0. pose proof (ahead d Hd) as A. rewrite d5 in *.
    unfold flat. cbn [pxi peta]. unfold kappa.
    replace ((g + dt * dt / 2 * (1 / ms + 1 / (4 * m)) * inc) * n d) with (g * n d + dt * dt / 2 * (1 / ms + 1 / (4 * m)) * inc * n d) by ring.
    rewrite <- A. field. lra.
  Qed.
  Lemma tangents inc d : sumn 4 (fun k => later inc n (pphi 0 0) k d * dphi_xi 0 k) = a d /\ sumn 4 (fun k => later inc n (pphi 0 0) k d * dphi_eta 0 k) = b d.
  Proof.
    cbn [sumn]. rewrite !later_at. unfold dphi_xi, dphi_eta, flat. cbn [pxi peta]. rewrite d25. split; field; lra.
  Qed.
  Lemma normal_later inc : exists n', patch_normal (later inc n (pphi 0 0)) 0 0 = Some n' /\ forall d, n' d = n d.
  Proof.
    unfold patch_normal. set (c := vcross _ _). assert (Hc : forall d, c d = vcross a b d).
    { intros d. unfold c, vcross. destruct d as [|[|d]]; rewrite !(proj1 (tangents _ _)), !(proj2 (tangents _ _)); reflexivity. }
    assert (Hm : vmag c = vmag (vcross a b)) by (unfold vmag, vdot; now rewrite !Hc). destruct (Req_EM_T (vmag c) 0) as [E|E]; [exfalso; apply flat_ok; lra|].
    eexists. split; [reflexivity|]. intros d. cbv beta. now rewrite Hc, Hm, n_def.
  Qed.
  Lemma derivs_zero : exists u w, normal_derivs flat (dphi_xi 0) (dphi_eta 0) = Some (u, w) /\ (forall d, u d = 0) /\ (forall d, w d = 0).
  Proof.
    unfold normal_derivs. cbv zeta. set (Sx := fun i => sumn 4 _). set (Se := fun i => sumn 4 _).
    assert (Ex : forall d, Sx d = a d) by (intros d; unfold Sx; cbn [sumn]; unfold dphi_xi, flat; cbn [pxi peta]; rewrite d25; field).
    assert (Ee : forall d, Se d = b d) by (intros d; unfold Se; cbn [sumn]; unfold dphi_eta, flat; cbn [pxi peta]; rewrite d25; field).
    set (cr := fun i => _ - _ - _ + _). assert (Ec : forall d, cr d = - a d) by (intros d; unfold cr, flat; cbn [pxi peta]; rewrite d25; field).
    clearbody Sx Se cr. assert (HN : forall d, vcross Sx Se d = vcross a b d) by (intros d; unfold vcross; destruct d as [|[|d]]; rewrite !Ex, !Ee; reflexivity).
    assert (Hm : vmag (vcross Sx Se) = vmag (vcross a b)) by (unfold vmag, vdot; now rewrite !HN).
    assert (HA : forall d, vcross Sx cr d = 0) by (intros d; unfold vcross; destruct d as [|[|d]]; rewrite !Ex, !Ec; ring).
    assert (HB : forall d, vcross cr Se d = - vcross a b d) by (intros d; unfold vcross; destruct d as [|[|d]]; rewrite !Ee, !Ec; ring).
    destruct (Req_EM_T (vmag (vcross Sx Se)) 0) as [E|E]; [exfalso; apply flat_ok; lra|].
    eexists. eexists. split; [reflexivity|]. cbv beta. split; intros d.
    - unfold vdot. rewrite !HA, Hm. field. exact flat_ok.
    - unfold vdot. rewrite !HB, !HN, Hm.
      assert (S : vmag (vcross a b) * vmag (vcross a b) = vdot (vcross a b) (vcross a b)) by (unfold vmag; apply sqrt_def; unfold vdot; nra). unfold vdot in S.
      set (M := vmag _) in *. clearbody M. set (c0 := vcross a b 0%nat) in *. set (c1 := vcross a b 1%nat) in *. set (c2 := vcross a b 2%nat) in *. set (cd := vcross a b d). clearbody c0 c1 c2 cd.
      replace (c0 * - c0 + c1 * - c1 + c2 * - c2) with (- (M * M)) by (rewrite S; ring). field. exact flat_ok.
  Qed.
  Lemma matrix_at n0 inc tot : (forall d, n0 d = n d) -> exists J, newton_matrix dt ms flat (fun _ => vp) (fun _ => fp) (fun _ => m) n0 (mkPv 0 0 n inc tot) = Some J /\
    forall j, J j 0%nat = - a j /\ J j 1%nat = - b j /\ J j 2%nat = kappa * n j.
  Proof.
    intros H0. unfold newton_matrix. cbv zeta. cbn [p_xi p_eta p_inc p_n]. destruct derivs_zero as (u & w & -> & Hu & Hw). cbn [obind].
    eexists. split; [reflexivity|]. intros j. cbv beta iota. rewrite !(proj1 (tangents _ _)), !(proj2 (tangents _ _)). split; [|split].
    - cbn [sumn]. rewrite !Hu, !Hw, !H0, !pphi_0. unfold dphi_xi. cbn [pxi peta]. rewrite d25, d5. field. lra.
    - cbn [sumn]. rewrite !Hu, !H0, !pphi_0. unfold dphi_eta. cbn [pxi peta]. rewrite d25, d5. field. lra.
    - cbn [sumn]. rewrite !H0, !pphi_0. rewrite d5. unfold kappa. field. lra.
  Qed.
  Lemma det_J J : (forall j, J j 0%nat = - a j /\ J j 1%nat = - b j /\ J j 2%nat = kappa * n j) -> det3 J <> 0.
  Proof.
    intros H. assert (D : det3 J = kappa * vmag (vcross a b)).
    { unfold det3. rewrite !(proj1 (H _)), !(proj1 (proj2 (H _))), !(proj2 (proj2 (H _))). rewrite !n_def.
      assert (S : vmag (vcross a b) * vmag (vcross a b) = vdot (vcross a b) (vcross a b)) by (unfold vmag; apply sqrt_def; unfold vdot; nra).
      unfold vdot in S. assert (Mz : vmag (vcross a b) <> 0) by exact flat_ok. set (M := vmag _) in *. clearbody M. unfold vcross in *. set (K := kappa). clearbody K.
      apply Rmult_eq_reg_r with M; [|exact Mz]. rewrite (Rmult_assoc K M M), S. field. exact Mz. }
    rewrite D. pose proof kappa_pos. intros Z. apply Rmult_integral in Z as [Z|Z]; [lra|contradiction].
  Qed.
  Notation newton' := (newton dt xs vs fs ms flat (fun _ => vp) (fun _ => fp) (fun _ => m)).
  Lemma newton_step fuel sol2 inc tot : newton' (S fuel) n sol2 (mkPv 0 0 n inc tot) =
    if Rle_dec ((g + kappa * inc) * (g + kappa * inc)) newton_tol then Some (mkPv 0 0 n inc tot, true)
    else newton' fuel n (sol2 - (g + kappa * inc) / kappa) (mkPv 0 0 n (sol2 - (g + kappa * inc) / kappa) tot).
  Proof.
    cbn [newton]. cbv zeta. rewrite !gap_at by lia. set (e := g + kappa * inc).
    replace (e * n 0%nat * (e * n 0%nat) + e * n 1%nat * (e * n 1%nat) + e * n 2%nat * (e * n 2%nat)) with (e * e)
      by (rewrite <- (Rmult_1_r (e * e)), <- n_unit; ring).
    destruct (Rle_dec (e * e) newton_tol) as [L|L]; [reflexivity|].
    destruct (matrix_at n inc tot (fun d => eq_refl)) as (J & -> & HJ). cbn [obind].
    pose proof (det_J J HJ) as Hdet. destruct (Req_EM_T (det3 J) 0) as [E|_]; [contradiction|].
    assert (G : forall i, (i < 3)%nat -> inv3 J i 0%nat * (e * n 0%nat) + inv3 J i 1%nat * (e * n 1%nat) + inv3 J i 2%nat * (e * n 2%nat)
        = match i with 2%nat => e / kappa | _ => 0 end).
    { intros i Hi. rewrite <- (inv3_l J Hdet (fun i => match i with 2%nat => e / kappa | _ => 0 end) i Hi).
      rewrite !(proj2 (proj2 (HJ _))). pose proof kappa_pos. assert (Q : forall z, z * 0 + e / kappa * 0 = 0) by (intros; ring).
      assert (Hk : forall y c0 c1, c0 * 0 + c1 * 0 + kappa * y * (e / kappa) = e * y) by (intros; field; lra).
      rewrite !Hk. reflexivity. }
    cbn [p_xi p_eta p_n p_tot]. rewrite (G 0%nat), (G 1%nat), (G 2%nat) by lia. rewrite !Rminus_0_r.
    destruct (normal_later (sol2 - e / kappa)) as (n' & -> & Hn). cbn [obind]. replace n' with n; [reflexivity|].
    apply FunctionalExtensionality.functional_extensionality. intros d. now rewrite Hn.
  Qed.
  Lemma tol_pos : 0 <= newton_tol. Proof. unfold newton_tol. lra. Qed.
  Lemma newton_exact fuel inc tot : exists v', newton' (S (S fuel)) n inc (mkPv 0 0 n inc tot) = Some (v', true) /\ p_xi v' = 0 /\ p_eta v' = 0 /\ p_n v' = n /\
    (g + kappa * p_inc v') * (g + kappa * p_inc v') <= newton_tol.
  Proof.
    rewrite newton_step. destruct (Rle_dec _ _) as [L|L].
    - eexists. split; [reflexivity|]. cbn [p_xi p_eta p_n p_inc]. repeat split; auto.
    - rewrite newton_step. pose proof kappa_pos as K.
      assert (Z : g + kappa * (inc - (g + kappa * inc) / kappa) = 0) by (field; lra). rewrite Z, Rmult_0_l.
      destruct (Rle_dec 0 newton_tol) as [L'|L']; [|exfalso; apply L', tol_pos].
      eexists. split; [reflexivity|]. cbn [p_xi p_eta p_n p_inc]. rewrite Z, Rmult_0_l. repeat split; auto; apply tol_pos.
  Qed.
  Lemma head_on fuel inc tot : exists v', increment dt xs vs fs ms flat (fun _ => vp) (fun _ => fp) (fun _ => m) (S (S (S fuel))) (mkPv 0 0 n inc tot) = Some (v', true) /\
    p_xi v' = 0 /\ p_eta v' = 0 /\ p_n v' = n /\ (g + kappa * p_inc v') * (g + kappa * p_inc v') <= newton_tol.
  Proof.
    unfold increment, first_guess. cbn [p_xi p_eta p_n p_inc]. cbv zeta.
    match goal with |- context [Req_EM_T ?t 0] => assert (D : t <> 0) end.
    { assert (U : vdot n n = 1) by (unfold vdot; apply n_unit). rewrite U. cbn [sumn]. rewrite Rmult_1_r. apply Rmult_integral_contrapositive. split.
      - apply Rmult_integral_contrapositive. lra.
      - assert (0 < 1 / ms) by (apply Rmult_lt_0_compat; [lra|now apply Rinv_0_lt_compat]). assert (0 < 1 / m) by (apply Rmult_lt_0_compat; [lra|now apply Rinv_0_lt_compat]). lra. }
    match goal with |- context [Req_EM_T ?t 0] => destruct (Req_EM_T t 0) as [E|_]; [contradiction|] end. cbn [obind].
    match goal with |- context [newton _ _ _ _ _ _ _ _ _ _ _ ?s _] => set (sol2 := s) end. clearbody sol2.
    rewrite newton_step. destruct (Rle_dec _ _) as [L|L].
    - eexists. split; [reflexivity|]. cbn [p_xi p_eta p_n p_inc]. repeat split; auto.
    - apply newton_exact.
  Qed.
End HeadOn.

(** only the four corners matter *)
Section Corners.
  Variables (dt : R) (xs vs fs : vec) (ms : R) (xk vk fk xk' vk' fk' : nat -> vec) (mk mk' : nat -> R).
  Hypothesis E : forall k d, (k < 4)%nat -> xk k d = xk' k d /\ vk k d = vk' k d /\ fk k d = fk' k d /\ mk k = mk' k.
  Lemma later_ext inc n phi k j : (k < 4)%nat -> patch_later dt xk vk fk mk inc n phi k j = patch_later dt xk' vk' fk' mk' inc n phi k j.
  Proof. intros Hk. unfold patch_later. destruct (E k j Hk) as (-> & -> & -> & ->). reflexivity. Qed.
  Lemma gap_ext v j : gap dt xs vs fs ms xk vk fk mk v j = gap dt xs vs fs ms xk' vk' fk' mk' v j.
  Proof. unfold gap. f_equal. apply sumn_ext. intros k Hk. now rewrite later_ext. Qed.
  Lemma normal_corners q q' s t : (forall k j, (k < 4)%nat -> q k j = q' k j) -> patch_normal q s t = patch_normal q' s t.
  Proof.
    intros H. unfold patch_normal. set (u := fun d => sumn 4 (fun k => q k d * dphi_xi t k)). set (w := fun d => sumn 4 (fun k => q k d * dphi_eta s k)).
    assert (Eu : u = (fun d => sumn 4 (fun k => q' k d * dphi_xi t k))) by (apply FunctionalExtensionality.functional_extensionality; intros d; apply sumn_ext; intros k Hk; now rewrite H).
    assert (Ew : w = (fun d => sumn 4 (fun k => q' k d * dphi_eta s k))) by (apply FunctionalExtensionality.functional_extensionality; intros d; apply sumn_ext; intros k Hk; now rewrite H).
    now rewrite Eu, Ew.
  Qed.
  Lemma derivs_ext dx de : normal_derivs xk dx de = normal_derivs xk' dx de.
  Proof.
    unfold normal_derivs. cbv zeta. set (Sx := fun i => sumn 4 (fun k => xk k i * dx k)). set (Se := fun i => sumn 4 (fun k => xk k i * de k)). set (cr := fun i => 0.25 * xk 0%nat i - _ - _ + _).
    assert (E1 : Sx = (fun i => sumn 4 (fun k => xk' k i * dx k))) by (apply FunctionalExtensionality.functional_extensionality; intros d; apply sumn_ext; intros k Hk; now rewrite (proj1 (E k d Hk))).
    assert (E2 : Se = (fun i => sumn 4 (fun k => xk' k i * de k))) by (apply FunctionalExtensionality.functional_extensionality; intros d; apply sumn_ext; intros k Hk; now rewrite (proj1 (E k d Hk))).
    assert (E3 : cr = (fun i => 0.25 * xk' 0%nat i - 0.25 * xk' 1%nat i - 0.25 * xk' 2%nat i + 0.25 * xk' 3%nat i))
      by (apply FunctionalExtensionality.functional_extensionality; intros d; unfold cr; rewrite (proj1 (E 0%nat d ltac:(lia))), (proj1 (E 1%nat d ltac:(lia))), (proj1 (E 2%nat d ltac:(lia))), (proj1 (E 3%nat d ltac:(lia))); reflexivity).
    now rewrite E1, E2, E3.
  Qed.
  Lemma matrix_ext n0 v : match newton_matrix dt ms xk vk fk mk n0 v, newton_matrix dt ms xk' vk' fk' mk' n0 v with
    | Some J, Some J' => forall j c, J j c = J' j c | None, None => True | _, _ => False end.
  Proof.
    unfold newton_matrix. cbv zeta. rewrite derivs_ext. destruct (normal_derivs xk' _ _) as [[nx ne]|]; cbn [obind]; [|exact I].
    assert (M : forall k, (k < 4)%nat -> mk k = mk' k) by (intros k Hk; apply (E k 0%nat Hk)).
    intros j c. destruct c as [|[|c]]; repeat match goal with |- _ + _ = _ + _ => f_equal | |- _ - _ = _ - _ => f_equal | |- - _ = - _ => f_equal end; try reflexivity;
    apply sumn_ext; intros k Hk; rewrite ?(M k Hk), ?(later_ext _ _ _ k j Hk); reflexivity.
  Qed.
  Lemma newton_ext fuel n0 : forall sol2 v, newton dt xs vs fs ms xk vk fk mk fuel n0 sol2 v = newton dt xs vs fs ms xk' vk' fk' mk' fuel n0 sol2 v.
  Proof.
    induction fuel as [|fuel IH]; intros sol2 v; [reflexivity|]. cbn [newton]. cbv zeta. rewrite !gap_ext.
    match goal with |- (if Rle_dec ?a ?b then _ else _) = _ => destruct (Rle_dec a b) end; [reflexivity|].
    pose proof (matrix_ext n0 v) as M. destruct (newton_matrix dt ms xk vk fk mk n0 v) as [J|], (newton_matrix dt ms xk' vk' fk' mk' n0 v) as [J'|]; try contradiction; [|reflexivity].
    assert (EJ : J = J') by (apply FunctionalExtensionality.functional_extensionality; intros j; apply FunctionalExtensionality.functional_extensionality; intros c; apply M). subst J'.
    cbn [obind]. destruct (Req_EM_T (det3 J) 0); [reflexivity|].
    match goal with |- obind (patch_normal ?q ?s ?t) _ = obind (patch_normal ?q' _ _) _ => rewrite (normal_corners q q' s t) by (intros k j Hk; now apply later_ext) end.
    match goal with |- obind ?o _ = _ => destruct o as [nn|] end; [|reflexivity]. cbn [obind]. apply IH.
  Qed.
  Lemma increment_ext fuel v : increment dt xs vs fs ms xk vk fk mk fuel v = increment dt xs vs fs ms xk' vk' fk' mk' fuel v.
  Proof.
    unfold increment, first_guess. cbv zeta.
    assert (D : sumn 4 (fun k => 1 / mk k) = sumn 4 (fun k => 1 / mk' k)) by (apply sumn_ext; intros k Hk; now rewrite (proj2 (proj2 (proj2 (E k 0%nat Hk))))).
    assert (G : forall i, sumn 4 (fun k => xk k i * pphi (p_xi v) (p_eta v) k) = sumn 4 (fun k => xk' k i * pphi (p_xi v) (p_eta v) k)) by (intros i; apply sumn_ext; intros k Hk; now rewrite (proj1 (E k i Hk))).
    rewrite D. unfold vdot. rewrite !G. match goal with |- context [Req_EM_T ?t 0] => destruct (Req_EM_T t 0) end; [reflexivity|]. cbn [obind]. apply newton_ext.
  Qed.
End Corners.
