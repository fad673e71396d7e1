From Verif Require Import BaseReal BaseArr GeomModel GeomSpec GeomProofs SghModel SghSpec SghProofs SghExamples MarsModel MarsProofs ThermModel ThermProofs ThermFlow LevelModel LevelSpec LevelProofs.
Local Open Scope R_scope.

Lemma max_exists n (f : nat -> R) : (0 < n)%nat -> exists k, (k < n)%nat /\ forall i, (i < n)%nat -> f i <= f k.
Proof.
  induction n as [|n IH]; [lia|]. intros _. destruct n as [|n].
  - exists O. split; [lia|]. intros i Hi. replace i with O by lia. lra.
  - destruct IH as (k & Hk & H); [lia|]. destruct (Rle_dec (f k) (f (S n))) as [Hle|Hgt].
    + exists (S n). split; [lia|]. intros i Hi. destruct (Nat.eq_dec i (S n)) as [->|Hn]; [lra|]. specialize (H i). assert (f i <= f k) by (apply H; lia). lra.
    + exists k. split; [lia|]. intros i Hi. destruct (Nat.eq_dec i (S n)) as [->|Hn]; [lra|]. apply H. lia.
Qed.

Section Stage.
Variable P : lset.
Hypothesis HP : lset_ok P.
Let m := v_mesh P.
Let L := v_L P.
Let nn := v_nn P.
Let nd := v_dims P.

Lemma steepest_exists phi e : exists G, steepest P phi e G.
Proof.
  assert (Hn : (0 < nn)%nat) by (unfold nn, v_nn; destruct (Nat.eqb (v_dims P) 3); lia).
  destruct (max_exists nn (fun l => length_of P (stored_gradient P phi (nodes_in m e l))) Hn) as (k & Hk & H).
  exists (length_of P (stored_gradient P phi (nodes_in m e k))). split; [exact H|]. exists k. auto.
Qed.

Lemma evolves_spec mat e : evolves P mat e <-> (mat < num_mats L)%nat /\ v_type P mat = EvolveFront /\ in_mat P mat e.
Proof. unfold evolves. rewrite in_mat_spec. reflexivity. Qed.

Lemma evolves_range mat e : evolves P mat e -> (e < num_elems m)%nat.
Proof.
  intros (Hm & _ & sid & Hs & <-). apply (lo_layout P HP (mat, sid)). apply points_in. auto.
Qed.

Lemma stage_inv bcs fuzz small alpha dt s s' : ls_stage P bcs fuzz small alpha dt s = Some s' -> exists s1 s2,
  nodal_gradient P fuzz s = Some s1 /\
  for_up 0 (num_mats L) (fun mat s => if evolving P mat then boundary_velocity P small bcs s else Some s) s1 = Some s2 /\
  for_up 0 (num_mats L) (fun mat s => if evolving P mat then update_level_set P fuzz alpha dt mat s else Some s) s2 = Some s'.
Proof.
  unfold ls_stage. destruct (nodal_gradient P fuzz s) as [s1|]; [|easy]. cbn [obind]. fold L.
  destruct (for_up 0 (num_mats L) (fun mat s => if evolving P mat then boundary_velocity P small bcs s else Some s) s1) as [s2|] eqn:E; [|easy].
  cbn [obind]. intros H. exists s1, s2. auto.
Qed.

(** what the stage does, in terms of the state [s2] in which the elements are updated *)
Lemma stage_moved bcs fuzz small alpha dt s s' (Q : nat -> (nat -> R) -> Prop) :
  (forall b n v, In b bcs -> Q n v -> mag nd (vs_fn b n v) + small <> 0 -> Q n (fun d => vs_fn b n v d / (mag nd (vs_fn b n v) + small))) ->
  (forall s1, (forall n, (n < num_nodes m)%nat -> node_fine P fuzz (l_phi s) n) -> (forall n, (n < num_nodes m)%nat -> graded P fuzz (l_phi s) s1 n) -> forall n, Q n (l_vel s1 n)) ->
  ls_stage P bcs fuzz small alpha dt s = Some s' -> exists s2,
  l_phi s2 = l_phi s /\ l_phi0 s2 = l_phi0 s /\ node_ready P s2 /\ (forall n, (n < num_nodes m)%nat -> node_fine P fuzz (l_phi s) n) /\
  (forall n d, (n < num_nodes m)%nat -> l_grad s2 n d = stored_gradient P (l_phi s) n d) /\ (forall n, Q n (l_vel s2 n)) /\
  l_phi0 s' = l_phi0 s /\
  forall e, (forall mat, ~ evolves P mat e) /\ l_phi s' e = l_phi s e \/
    exists mat phi, evolves P mat e /\ elem_fine P s2 fuzz mat e phi /\ l_phi s' e = moved P s2 fuzz alpha dt mat e phi /\
      (phi = l_phi s e \/ exists mat', mat' <> mat /\ evolves P mat' e).
Proof.
  intros HQ H0 E. destruct (stage_inv _ _ _ _ _ _ _ E) as (s1 & s2 & E1 & E2 & E3).
  destruct (proj1 (nodal_gradient_spec P HP fuzz s) s1 E1) as (F & A1 & A2 & A3 & A4).
  destruct (bcs_loop P small bcs Q _ HQ s1 s2 (H0 s1 F A4) E2) as (B1 & B2 & B3 & B4 & B5 & B6).
  destruct (mats_loop P HP fuzz alpha dt (seq 0 (num_mats L)) (seq_NoDup _ _)) with (s := s2) (s' := s') as ((C1 & _) & C2).
  { intros mat Hm. apply in_seq in Hm. exact (proj2 Hm). } { exact E3. }
  exists s2. split; [congruence|]. split; [congruence|]. split; [intros e l He Hl; rewrite B4, B5; now apply A3|]. split; [exact F|].
  split; [intros n d Hn; rewrite B3; now apply A4|]. split; [exact B6|]. split; [congruence|].
  intros e. destruct (C2 e) as [[D1 D2]|(mat & phi & D1 & D2 & D3 & D4 & D5 & D6)].
  - left. split; [|congruence]. intros mat (M1 & M2 & M3). apply (D1 mat); [apply in_seq; split; [lia|exact M1]|easy|]. now apply in_mat_spec.
  - right. exists mat, phi. apply in_seq in D1. split; [apply evolves_spec; split; [exact (proj2 D1)|auto]|]. split; [easy|]. split; [easy|].
    destruct D6 as [->|(mat' & G1 & G2 & G3 & G4)]; [left; congruence|right; exists mat'; split; [easy|]]. apply in_seq in G2.
    apply evolves_spec; split; [exact (proj2 G2)|auto].
Qed.

(** ** Range of the update *)

Definition aligned (fuzz : R) (phi : nat -> R) (n : nat) (v : nat -> R) : Prop := (n < num_nodes m)%nat -> 
  length_of P v <= 1 /\ forall d, 0 <= v d * stored_gradient P phi n d.

Lemma graded_length fuzz phi s n : 0 <= fuzz -> node_fine P fuzz phi n -> graded P fuzz phi s n -> length_of P (l_vel s n) <= 1.
Proof.
  intros Hf [_ Hn] G. unfold length_of. rewrite (sumn_ext _ _ (fun d => (stored_gradient P phi n d / (length_of P (stored_gradient P phi n) + fuzz)) * (stored_gradient P phi n d / (length_of P (stored_gradient P phi n) + fuzz)))).
  - exact (scaled_short P _ fuzz Hf Hn).
  - intros d _. now rewrite (proj2 (G d)).
Qed.

Lemma wall_keeps bcs fuzz small phi b n v : 0 <= small -> (forall b, In b bcs -> wall b) -> In b bcs -> aligned fuzz phi n v ->
  mag nd (vs_fn b n v) + small <> 0 -> aligned fuzz phi n (fun d => vs_fn b n v d / (mag nd (vs_fn b n v) + small)).
Proof.
  intros Hs Hw Hb Ha Hn Hn'. destruct (Ha Hn') as [_ H2]. split; [exact (scaled_short P _ small Hs Hn)|]. intros d.
  assert (0 <= mag nd (vs_fn b n v)) by apply sqrt_pos.
  assert (Hi : 0 < / (mag nd (vs_fn b n v) + small)) by (apply Rinv_0_lt_compat; lra).
  specialize (H2 d). unfold Rdiv. destruct (Hw b Hb n v d) as [->| ->]; [|lra]. 
  replace (v d * / (mag nd (vs_fn b n v) + small) * stored_gradient P phi n d) with (v d * stored_gradient P phi n d * / (mag nd (vs_fn b n v) + small)) by ring.
  apply Rmult_le_pos; lra.
Qed.

Lemma graded_aligned fuzz phi s n : 0 <= fuzz -> ((n < num_nodes m)%nat -> node_fine P fuzz phi n /\ graded P fuzz phi s n) -> aligned fuzz phi n (l_vel s n).
Proof.
  intros Hf H Hn. destruct (H Hn) as [F G]. split; [exact (graded_length _ _ _ _ Hf F G)|]. intros d. rewrite (proj2 (G d)).
  destruct F as [_ F]. pose proof (length_nonneg P (stored_gradient P phi n)).
  assert (Hi : 0 < / (length_of P (stored_gradient P phi n) + fuzz)) by (apply Rinv_0_lt_compat; lra). unfold Rdiv.
  pose proof (Rle_0_sqr (stored_gradient P phi n d)) as Hq. unfold Rsqr in Hq.
  set (g := stored_gradient P phi n d) in *. set (i := / (length_of P (stored_gradient P phi n) + fuzz)) in *.
  replace (g * i * g) with (g * g * i) by ring. apply Rmult_le_pos; lra.
Qed.

Lemma node_HJ_eq s phi n : (forall d, l_grad s n d = stored_gradient P phi n d) -> node_HJ P s n = sumn nd (fun d => l_vel s n d * stored_gradient P phi n d).
Proof. intros H. apply sumn_ext. intros d _. now rewrite H. Qed.

Lemma stage_range bcs fuzz small alpha dt s s' : 0 <= fuzz -> 0 <= small ->
  ls_stage P bcs fuzz small alpha dt s = Some s' -> l_phi0 s' = l_phi0 s /\ forall e,
  (forall mat, ~ evolves P mat e) /\ l_phi s' e = l_phi s e \/
  exists mat sg H G, evolves P mat e /\ steepest P (l_phi s) e G /\ -1 < sg < 1 /\ Rabs H <= G /\
    l_phi s' e = l_phi0 s e - front_move (v_speed P mat) sg H alpha dt /\
    ((forall b, In b bcs -> wall b) -> 0 <= H) /\
    ((forall mat', evolves P mat' e -> mat' = mat) -> 0 <= l_phi s e * sg /\ (sg = 0 -> l_phi s e = 0)).
Proof.
  intros Hf Hs E.
  set (Q := fun n v => (n < num_nodes m)%nat -> length_of P v <= 1 /\ ((forall b, In b bcs -> wall b) -> forall d, 0 <= v d * stored_gradient P (l_phi s) n d)).
  destruct (stage_moved bcs fuzz small alpha dt s s' Q) as (s2 & A1 & A2 & A3 & A4 & A5 & A6 & A7 & A8); [| |exact E|].
  - intros b n v Hb Hq Hn Hn'. split; [exact (scaled_short P _ small Hs Hn)|]. intros Hw.
    assert (Ha : aligned fuzz (l_phi s) n v) by (intros Hx; destruct (Hq Hx); auto).
    now apply (wall_keeps bcs fuzz small (l_phi s) b n v Hs Hw Hb Ha Hn).
  - intros s1 F G n Hn. pose proof (graded_aligned fuzz (l_phi s) s1 n Hf (fun Hx => conj (F n Hx) (G n Hx)) Hn). tauto.
  - split; [exact A7|]. intros e. destruct (A8 e) as [H|(mat & phi & B1 & B2 & B3 & B4)]; [now left|right].
    pose proof (evolves_range mat e B1) as He. pose proof (signum_range P phi e (lo_vol P HP e He)) as (S1 & S2 & S3).
    destruct (steepest_exists (l_phi s) e) as (G & HG). set (sg := signum P phi e) in *. set (H := hj P s2 fuzz (v_speed P mat + sg) e).
    assert (G0 : 0 <= G) by (destruct HG as [_ (l & _ & ->)]; apply length_nonneg).
    assert (Hnode : forall l, (l < nn)%nat -> - G <= node_HJ P s2 (nodes_in m e l) <= G /\ ((forall b, In b bcs -> wall b) -> 0 <= node_HJ P s2 (nodes_in m e l))).
    { intros l Hl. assert (Hn : (nodes_in m e l < num_nodes m)%nat) by (apply (ok_range _ _ (lo_mesh P HP)); assumption).
      rewrite (node_HJ_eq s2 (l_phi s)) by (intros d; now apply A5). destruct (A6 _ Hn) as [V1 V2]. destruct HG as [HG _]. specialize (HG l Hl). fold m in HG.
      pose proof (dot_bound P _ (stored_gradient P (l_phi s) (nodes_in m e l)) V1) as D1.
      assert (V3 : length_of P (fun d => - l_vel s2 (nodes_in m e l) d) <= 1).
      { replace (length_of P (fun d => - l_vel s2 (nodes_in m e l) d)) with (length_of P (l_vel s2 (nodes_in m e l))); [exact V1|].
        unfold length_of. f_equal. apply sumn_ext. intros; ring. }
      pose proof (dot_bound P _ (stored_gradient P (l_phi s) (nodes_in m e l)) V3) as D2.
      rewrite (sumn_ext _ _ (fun d => -1 * (l_vel s2 (nodes_in m e l) d * stored_gradient P (l_phi s) (nodes_in m e l) d))), sumn_scal in D2 by (intros; ring).
      fold nd in D1, D2. split; [lra|]. intros Hw. apply sumn_nonneg. intros d _. now apply V2. }
    exists mat, sg, H, G. split; [easy|]. split; [easy|]. split; [easy|]. split; [|split; [|split]].
    + apply Rabs_le. apply hj_range; [easy|lra|apply B2|]. intros l Hl. now apply Hnode.
    + rewrite B3. unfold moved, front_move. cbv zeta. rewrite A2. reflexivity.
    + intros Hw. apply (hj_range P s2 fuzz (v_speed P mat + sg) e 0 G); [easy|lra|apply B2|]. intros l Hl. destruct (Hnode l Hl) as [N1 N2]. specialize (N2 Hw). split; [exact N2|exact (proj2 N1)].
    + intros Ho. destruct B4 as [->|(mat' & C1 & C2)]; [|exfalso; apply C1; now apply Ho]. unfold sg. auto.
Qed.

(** ** The stored values at the start of a step *)

Definition has_level_set (mat : nat) : bool := match v_type P mat with NoLevelSet => false | _ => true end.

Lemma init_inner mat l : forall s, let s' := fold_left (fun s sid => let e := elem_in_mat L mat sid in set_phi0 (fupd (l_phi0 s) e (l_phi s e)) s) l s in
  l_phi s' = l_phi s /\ l_grad s' = l_grad s /\ l_vel s' = l_vel s /\ l_cn s' = l_cn s /\ l_cv s' = l_cv s /\
  forall e, l_phi0 s' e = if in_dec Nat.eq_dec e (map (elem_in_mat L mat) l) then l_phi s e else l_phi0 s e.
Proof.
  induction l as [|sid l IH]; intros s; [repeat split|]. cbn [fold_left]. cbv zeta in IH |- *.
  destruct (IH (set_phi0 (fupd (l_phi0 s) (elem_in_mat L mat sid) (l_phi s (elem_in_mat L mat sid))) s)) as (A1 & A2 & A3 & A4 & A5 & A6).
  cbn [set_phi0 l_phi l_phi0 l_grad l_vel l_cn l_cv] in A1, A2, A3, A4, A5, A6. repeat (split; [assumption|]).
  intros e. rewrite A6. cbn [map]. unfold fupd.
  destruct (in_dec Nat.eq_dec e (map (elem_in_mat L mat) l)) as [H|H].
  - destruct (in_dec _ e _) as [_|Hn]; [easy|]. exfalso; apply Hn; now right.
  - destruct (Nat.eqb e (elem_in_mat L mat sid)) eqn:Ee.
    + apply Nat.eqb_eq in Ee. subst e. destruct (in_dec _ _ _) as [_|Hn]; [easy|]. exfalso; apply Hn; now left.
    + apply Nat.eqb_neq in Ee. destruct (in_dec _ e _) as [[Hy|Hy]|_]; [congruence|easy|easy].
Qed.

Lemma init_outer l : forall s, let s' := fold_left (fun s mat => match v_type P mat with
      | NoLevelSet => s
      | _ => fold_left (fun s sid => let e := elem_in_mat L mat sid in set_phi0 (fupd (l_phi0 s) e (l_phi s e)) s)
               (seq 0 (num_mat_elems L mat)) s
      end) l s in
  l_phi s' = l_phi s /\ l_grad s' = l_grad s /\ l_vel s' = l_vel s /\
  forall e, (l_phi0 s' e = l_phi s e \/ l_phi0 s' e = l_phi0 s e) /\
    (forall mat, In mat l -> v_type P mat <> NoLevelSet -> in_mat P mat e -> l_phi0 s' e = l_phi s e).
Proof.
  induction l as [|mat l IH]; intros s; [repeat split; [now right|easy]|]. cbn [fold_left]. cbv zeta in IH |- *.
  set (s1 := match v_type P mat with NoLevelSet => s | _ => _ end).
  assert (H1 : l_phi s1 = l_phi s /\ l_grad s1 = l_grad s /\ l_vel s1 = l_vel s /\
    forall e, (l_phi0 s1 e = l_phi s e \/ l_phi0 s1 e = l_phi0 s e) /\ (v_type P mat <> NoLevelSet -> in_mat P mat e -> l_phi0 s1 e = l_phi s e)).
  { destruct (init_inner mat (seq 0 (num_mat_elems L mat)) s) as (A1 & A2 & A3 & A4 & A5 & A6). cbv zeta in A1, A2, A3, A4, A5, A6. subst s1.
    destruct (v_type P mat); (repeat (split; [easy|])); intros e; [split; [now right|easy]|rewrite A6; destruct (in_dec _ e _) as [H|H]; (split; [tauto|]); [easy|intros _ Hi; contradiction]..]. }
  destruct H1 as (A1 & A2 & A3 & A4). destruct (IH s1) as (B1 & B2 & B3 & B4).
  split; [congruence|]. split; [congruence|]. split; [congruence|]. intros e. destruct (B4 e) as [C1 C2]. rewrite A1 in C1, C2. destruct (A4 e) as [D1 D2]. split.
  - destruct C1 as [->| ->]; [now left|exact D1].
  - intros k [<-|Hk] Hv Hi.
    + destruct C1 as [->| ->]; [easy|]. now apply D2.
    + now apply (C2 k).
Qed.

Lemma init_spec s : let s' := ls_rk_init P s in l_phi s' = l_phi s /\
  forall e, (exists mat, evolves P mat e) -> l_phi0 s' e = l_phi s e.
Proof.
  destruct (init_outer (seq 0 (num_mats L)) s) as (A1 & _ & _ & A4). cbv zeta. split; [exact A1|].
  intros e (mat & Hm). apply evolves_spec in Hm. destruct Hm as (H1 & H2 & H3). apply (proj2 (A4 e) mat); [apply in_seq; split; [lia|exact H1]|congruence|easy].
Qed.

Lemma evolves_dec e : (exists mat, evolves P mat e) \/ (forall mat, ~ evolves P mat e).
Proof.
  assert (H : forall k, (exists mat, (mat < k)%nat /\ v_type P mat = EvolveFront /\ in_mat P mat e) \/ (forall mat, (mat < k)%nat -> ~ (v_type P mat = EvolveFront /\ in_mat P mat e))).
  { induction k as [|k [IH|IH]]; [right; intros; lia|left; destruct IH as (mat & H1 & H2); exists mat; split; [lia|easy]|].
    destruct (evolving P k) eqn:Ek.
    - apply evolving_true in Ek. destruct (in_mat_dec P k e) as [Hi|Hi]; [left; exists k; split; [lia|easy]|].
      right. intros mat Hm [H1 H2]. destruct (Nat.eq_dec mat k) as [->|Hne]; [easy|]. apply (IH mat); [lia|easy].
    - right. intros mat Hm [H1 H2]. destruct (Nat.eq_dec mat k) as [->|Hne]; [apply evolving_true in H1; congruence|]. apply (IH mat); [lia|easy]. }
  destruct (H (num_mats L)) as [(mat & H1 & H2 & H3)|Hn].
  - left. exists mat. now apply evolves_spec.
  - right. intros mat Hm. apply evolves_spec in Hm. destruct Hm as (H1 & H2 & H3). apply (Hn mat); auto.
Qed.

(** ** Time step *)

Lemma stages_keep bcs fuzz small N dt k : 0 <= fuzz -> 0 <= small -> forall s s', for_up 0 k (fun k => ls_stage P bcs fuzz small (rk_alpha N k) dt) s = Some s' ->
  l_phi0 s' = l_phi0 s /\ forall e, (forall mat, ~ evolves P mat e) -> l_phi s' e = l_phi s e.
Proof.
  intros Hf Hs s s' E. unfold for_up in E.
  refine (for_each_inv (fun t => l_phi0 t = l_phi0 s /\ forall e, (forall mat, ~ evolves P mat e) -> l_phi t e = l_phi s e) _ _ _ s s' _ E); [|easy].
  intros j t t' _ [A1 A2] Et. destruct (stage_range _ _ _ _ _ _ _ Hf Hs Et) as [B1 B2]. split; [congruence|].
  intros e He. rewrite <- (A2 e He). destruct (B2 e) as [[_ H]|(mat & sg & H & G & Hm & _)]; [easy|]. now apply He in Hm.
Qed.

Lemma step_spec bcs fuzz small N dt s s' : 0 <= fuzz -> 0 <= small -> ls_step P bcs fuzz small (S N) dt s = Some s' -> exists t,
  (forall e, (forall mat, ~ evolves P mat e) -> l_phi t e = l_phi s e) /\ (N = O -> l_phi t = l_phi s) /\
  forall e, (forall mat, ~ evolves P mat e) /\ l_phi s' e = l_phi s e \/
  exists mat sg H G, evolves P mat e /\ steepest P (l_phi t) e G /\ -1 < sg < 1 /\ Rabs H <= G /\
    l_phi s' e = l_phi s e - front_move (v_speed P mat) sg H 1 dt /\
    ((forall b, In b bcs -> wall b) -> 0 <= H) /\
    ((forall mat', evolves P mat' e -> mat' = mat) -> 0 <= l_phi t e * sg /\ (sg = 0 -> l_phi t e = 0)).
Proof.
  intros Hf Hs E. unfold ls_step, for_up in E. rewrite seq_S, for_each_app in E.
  destruct (for_each (seq 0 N) (fun k => ls_stage P bcs fuzz small (rk_alpha (S N) k) dt) (ls_rk_init P s)) as [t|] eqn:Et; [|easy].
  cbn [obind for_each] in E. destruct (ls_stage P bcs fuzz small (rk_alpha (S N) (0 + N)) dt t) as [t'|] eqn:E1; [|easy]. cbn [obind] in E. injection E as <-.
  destruct (stages_keep bcs fuzz small (S N) dt N Hf Hs _ _ Et) as [A1 A2]. destruct (init_spec s) as [B1 B2]. cbv zeta in B1, B2.
  destruct (stage_range _ _ _ _ _ _ _ Hf Hs E1) as [_ C]. exists t. split; [|split].
  - intros e He. rewrite (A2 e He). now rewrite B1.
  - intros ->. cbn in Et. injection Et as <-. exact B1.
  - intros e. destruct (C e) as [[D1 D2]|(mat & sg & H & G & D1 & D2 & D3 & D4 & D5 & D6)]; [left|right].
    + split; [easy|]. rewrite D2, (A2 e D1). now rewrite B1.
    + exists mat, sg, H, G. split; [easy|]. split; [easy|]. split; [easy|]. split; [easy|]. split; [|easy].
      rewrite D5, A1, (B2 e (ex_intro _ mat D1)). cbn [Nat.add]. now rewrite rk_alpha_last.
Qed.

(** ** The zero field *)

Lemma zero_gradient phi n d : (forall e, (e < num_elems m)%nat -> phi e = 0) -> stored_gradient P phi n d = 0.
Proof.
  intros H. unfold stored_gradient, at_node_sum. rewrite (sumn_ext _ _ (fun _ => 0)); [rewrite sumn_0; unfold Rdiv; ring|].
  intros e He. rewrite (sumn_ext _ _ (fun _ => 0)); [apply sumn_0|]. intros l _. rewrite (H e He). destruct (Nat.eqb _ _); ring.
Qed.

Lemma signum_zero e : signum P 0 e = 0.
Proof. unfold signum, Rdiv. ring. Qed.

Definition zero_everywhere (s : lstate) : Prop := forall e, (e < num_elems m)%nat -> l_phi s e = 0.

Lemma zero_moved s2 fuzz alpha dt mat e phi : (e < num_elems m)%nat -> (forall n d, (n < num_nodes m)%nat -> l_grad s2 n d = 0) -> phi = 0 -> l_phi0 s2 e = 0 ->
  moved P s2 fuzz alpha dt mat e phi = 0.
Proof.
  intros He Hg -> H0. unfold moved. cbv zeta. rewrite signum_zero, H0.
  assert (Hh : forall a, hj P s2 fuzz a e = 0).
  { intros a. unfold hj. fold m nn. rewrite (sumn_ext nn _ (fun _ => 0)); [rewrite sumn_0; unfold Rdiv; ring|]. intros l Hl.
    unfold node_HJ. rewrite (sumn_ext _ _ (fun _ => 0)); [rewrite sumn_0; ring|]. intros d _. rewrite Hg; [ring|].
    apply (ok_range _ _ (lo_mesh P HP)); assumption. }
  rewrite Hh. ring.
Qed.

Lemma mats_zero fuzz alpha dt l : (forall mat, In mat l -> (mat < num_mats L)%nat) -> forall s s', zero_everywhere s ->
  (forall n d, (n < num_nodes m)%nat -> l_grad s n d = 0) -> (forall e, (exists mat, evolves P mat e) -> l_phi0 s e = 0) ->
  for_each l (fun mat s => if evolving P mat then update_level_set P fuzz alpha dt mat s else Some s) s = Some s' ->
  zero_everywhere s' /\ l_phi0 s' = l_phi0 s.
Proof.
  intros Hr s s' Hz Hg H0 E.
  assert (I : zero_everywhere s' /\ like s s'); [|destruct I as [I1 (I2 & _)]; easy].
  refine (for_each_inv (fun t => zero_everywhere t /\ like s t) _ l _ s s' _ E); [|split; [easy|apply like_refl]].
  intros mat t t' Hm [It Lt] Et. destruct (evolving P mat) eqn:Ev; [|injection Et as <-; easy]. apply evolving_true in Ev.
  destruct (update_level_set_spec P HP fuzz alpha dt mat t t' (Hr mat Hm) Et) as (A1 & A2 & A3). split; [|exact (like_trans _ _ _ Lt A1)].
  intros e He. destruct (in_mat_dec P mat e) as [Hi|Hi]; [|rewrite (A2 e Hi); now apply It].
  rewrite (proj2 (A3 e Hi)). destruct Lt as (L1 & L2 & _). apply zero_moved; [easy|intros n d Hn; rewrite L2; now apply Hg|now apply It|].
  rewrite L1. apply H0. exists mat. apply evolves_spec. split; [now apply Hr|easy].
Qed.

Lemma stage_zero bcs fuzz small alpha dt s s' : zero_everywhere s -> (forall e, (exists mat, evolves P mat e) -> l_phi0 s e = 0) ->
  ls_stage P bcs fuzz small alpha dt s = Some s' -> zero_everywhere s' /\ l_phi0 s' = l_phi0 s.
Proof.
  intros Hz H0 E. destruct (stage_inv _ _ _ _ _ _ _ E) as (s1 & s2 & E1 & E2 & E3).
  destruct (proj1 (nodal_gradient_spec P HP fuzz s) s1 E1) as (F & A1 & A2 & A3 & A4).
  destruct (bcs_loop P small bcs (fun _ _ => True) _ (fun _ _ _ _ _ _ => I) s1 s2 (fun _ => I) E2) as (B1 & B2 & B3 & B4 & B5 & _).
  destruct (mats_zero fuzz alpha dt (seq 0 (num_mats L))) with (s := s2) (s' := s') as [C1 C2].
  - intros mat Hm. apply in_seq in Hm. exact (proj2 Hm).
  - intros e He. rewrite B1, A1. now apply Hz.
  - intros n d Hn. rewrite B3. rewrite (proj1 (A4 n Hn d)). apply zero_gradient. exact Hz.
  - intros e He. rewrite B2, A2. now apply H0.
  - exact E3.
  - split; [easy|congruence].
Qed.

Lemma step_zero bcs fuzz small N dt s s' : zero_everywhere s -> ls_step P bcs fuzz small N dt s = Some s' -> zero_everywhere s'.
Proof.
  intros Hz E. unfold ls_step, for_up in E. destruct (init_spec s) as [B1 B2]. cbv zeta in B1, B2.
  assert (I : zero_everywhere s' /\ l_phi0 s' = l_phi0 (ls_rk_init P s)); [|easy].
  refine (for_each_inv (fun t => zero_everywhere t /\ l_phi0 t = l_phi0 (ls_rk_init P s)) _ _ _ (ls_rk_init P s) s' _ E).
  - intros k t t' _ [A1 A2] Et. assert (H0 : forall e, (exists mat, evolves P mat e) -> l_phi0 t e = 0).
    { intros e He. rewrite A2, (B2 e He). destruct He as [mat Hm]. apply Hz. exact (evolves_range mat e Hm). }
    destruct (stage_zero _ _ _ _ _ _ _ A1 H0 Et) as [C1 C2]. split; [easy|congruence].
  - split; [|easy]. intros e He. rewrite B1. now apply Hz.
Qed.

Lemma run_zero fuzz small N cycles s s' : zero_everywhere s -> ls_run P fuzz small N cycles s = Some s' -> zero_everywhere s'.
Proof.
  intros Hz E. refine (for_each_inv zero_everywhere _ _ _ s s' Hz E). intros [dt bcs] t t' _ Ht Et. exact (step_zero _ _ _ _ _ _ _ Ht Et).
Qed.

Lemma run_unchanged fuzz small N cycles s s' e : 0 <= fuzz -> 0 <= small -> (forall mat, ~ evolves P mat e) -> ls_run P fuzz small N cycles s = Some s' -> l_phi s' e = l_phi s e.
Proof.
  intros Hf Hs He E. refine (for_each_inv (fun t => l_phi t e = l_phi s e) _ _ _ s s' eq_refl E). intros [dt bcs] t t' _ Ht Et. rewrite <- Ht.
  unfold ls_step in Et. destruct (stages_keep bcs fuzz small N dt N Hf Hs _ _ Et) as [_ A]. rewrite (A e He). destruct (init_spec t) as [-> _]. easy.
Qed.

(** ** A plane front *)

Lemma normals_closed e d : (d < nd)%nat -> sumn nn (fun l => area_normal P e l d) = 0.
Proof.
  intros Hd. unfold nn, v_nn, area_normal, nd in *. destruct (lo_dims P HP) as [E|E]; rewrite E in *; cbn [Nat.eqb].
  - apply bmat2D_closure.
  - apply bmat_closure.
Qed.

Lemma normals_moment e c d : (c < nd)%nat -> (d < nd)%nat ->
  sumn nn (fun l => v_x P (nodes_in m e l) c * area_normal P e l d) = if Nat.eqb c d then enclosed P e else 0.
Proof.
  intros Hc Hd. unfold nn, v_nn, area_normal, enclosed, nd in *. fold m. destruct (lo_dims P HP) as [E|E]; rewrite E in *; cbn [Nat.eqb].
  - rewrite <- bmat2D_moment by assumption. apply sumn_ext. intros l _. destruct c as [|[|c]]; [reflexivity..|lia].
  - unfold elem_bmat. rewrite <- bmat_moment by assumption. apply sumn_ext. intros l _. destruct c as [|[|[|c]]]; [reflexivity..|lia].
Qed.

(** a direction that is orthogonal to all corner normals of a real element is zero *)
Lemma normals_span e v : enclosed P e <> 0 -> (forall l, (l < nn)%nat -> sumn nd (fun d => v d * area_normal P e l d) = 0) -> forall c, (c < nd)%nat -> v c = 0.
Proof.
  intros He H c Hc.
  assert (E : sumn nn (fun l => v_x P (nodes_in m e l) c * sumn nd (fun d => v d * area_normal P e l d)) = v c * enclosed P e).
  { rewrite (sumn_ext nn _ (fun l => sumn nd (fun d => v_x P (nodes_in m e l) c * (v d * area_normal P e l d)))) by (intros; now rewrite sumn_scal).
    rewrite sumn_exchange. rewrite (sumn_ext nd _ (fun d => if Nat.eqb d c then v c * enclosed P e else 0)); [now apply sumn_delta|].
    intros d Hd. rewrite (sumn_ext nn _ (fun l => v d * (v_x P (nodes_in m e l) c * area_normal P e l d))) by (intros; ring).
    rewrite sumn_scal, normals_moment by assumption. rewrite (Nat.eqb_sym c d). destruct (Nat.eqb d c) eqn:Ed; [apply Nat.eqb_eq in Ed; now subst|ring]. }
  rewrite (sumn_ext nn _ (fun _ => 0)) in E by (intros l Hl; rewrite (H l Hl); ring). rewrite sumn_0 in E. symmetry in E. apply Rmult_integral in E. tauto.
Qed.

Lemma sumn_zero_each n f : sumn n f = 0 -> (forall i, (i < n)%nat -> 0 <= f i) -> forall i, (i < n)%nat -> f i = 0.
Proof.
  induction n as [|n IH]; intros E H i Hi; [lia|]. cbn [sumn] in E.
  assert (0 <= sumn n f) by (apply sumn_nonneg; intros; apply H; lia). assert (0 <= f n) by (apply H; lia).
  destruct (Nat.eq_dec i n) as [->|Hn]; [lra|]. apply IH; [lra|intros; apply H; lia|lia].
Qed.

Lemma weights_positive e v a s : enclosed P e <> 0 -> (e < num_elems m)%nat -> a <> 0 -> node_ready P s -> (exists d, (d < nd)%nat /\ v d <> 0) ->
  (forall l d, (l < nn)%nat -> (d < nd)%nat -> l_vel s (nodes_in m e l) d = v d) -> 0 < sumn nn (fun l => corner_weight P s a e l).
Proof.
  intros He Hr Ha Hs (c & Hc & Hv) Hv'.
  set (f := fun l => a * sumn nd (fun d => v d * area_normal P e l d)).
  assert (Ew : forall l, (l < nn)%nat -> corner_weight P s a e l = Rmax 0 (f l)).
  { intros l Hl. unfold corner_weight, fmax, f. f_equal. rewrite <- sumn_scal. apply sumn_ext. intros d Hd. fold m. rewrite Hv' by assumption.
    destruct (Hs e l Hr Hl) as [En _]. fold m in En. rewrite En. ring. }
  assert (Ef : sumn nn f = 0).
  { unfold f. rewrite sumn_scal, sumn_exchange. rewrite (sumn_ext nd _ (fun _ => 0)); [rewrite sumn_0; ring|].
    intros d Hd. rewrite sumn_scal, normals_closed by assumption. ring. }
  destruct (Rle_lt_dec (sumn nn (fun l => corner_weight P s a e l)) 0) as [Hle|Hlt]; [exfalso|exact Hlt].
  assert (Hz : forall l, (l < nn)%nat -> corner_weight P s a e l = 0).
  { apply sumn_zero_each; [|intros; apply weight_nonneg]. apply Rle_antisym; [exact Hle|]. apply sumn_nonneg. intros; apply weight_nonneg. }
  assert (Hf : forall l, (l < nn)%nat -> - f l = 0).
  { apply sumn_zero_each.
    - rewrite (sumn_ext nn _ (fun l => -1 * f l)) by (intros; ring). rewrite sumn_scal, Ef. ring.
    - intros l Hl. specialize (Hz l Hl). rewrite (Ew l Hl) in Hz. pose proof (Rmax_r 0 (f l)). lra. }
  apply Hv. apply (normals_span e v He); [|exact Hc]. intros l Hl. specialize (Hf l Hl). unfold f in Hf.
  assert (E2 : a * sumn nd (fun d => v d * area_normal P e l d) = 0) by lra. apply Rmult_integral in E2. tauto.
Qed.

Lemma length_pos_component g : 0 < length_of P g -> exists d, (d < nd)%nat /\ g d <> 0.
Proof.
  intros Hp. assert (H : ~ (forall d, (d < nd)%nat -> g d = 0)).
  { intros H. assert (E : length_of P g = 0); [|lra]. unfold length_of. fold nd. rewrite (sumn_ext nd _ (fun _ => 0)); [rewrite sumn_0; apply sqrt_0|].
    intros d Hd. rewrite (H d Hd). ring. }
  assert (K : forall k, (forall d, (d < k)%nat -> g d = 0) \/ exists d, (d < k)%nat /\ g d <> 0).
  { induction k as [|k [IH|(d & H1 & H2)]]; [left; intros; lia| |right; exists d; split; [lia|easy]].
    destruct (Req_dec (g k) 0) as [E|E]; [left|right; exists k; split; [lia|easy]].
    intros d Hd. destruct (Nat.eq_dec d k) as [->|Hn]; [easy|]. apply IH. lia. }
  destruct (K nd) as [K1|K1]; [contradiction|exact K1].
Qed.

Lemma stage_plane fuzz small alpha dt s s' mat e g : 0 <= fuzz -> 0 <= small -> ls_stage P [] fuzz small alpha dt s = Some s' ->
  evolves P mat e -> (forall mat', evolves P mat' e -> mat' = mat) -> enclosed P e <> 0 ->
  0 < length_of P g -> (forall l d, (l < nn)%nat -> (d < nd)%nat -> stored_gradient P (l_phi s) (nodes_in m e l) d = g d) ->
  v_speed P mat + signum P (l_phi s e) e <> 0 ->
  exists W, 0 < W /\ l_phi s' e = l_phi0 s e - front_move (v_speed P mat) (signum P (l_phi s e) e)
    (length_of P g * (length_of P g / (length_of P g + fuzz)) * (W / (W + fuzz))) alpha dt.
Proof.
  intros Hf Hs E Hev Honly Henc Hg Hall Ha. pose proof (evolves_range mat e Hev) as He.
  set (Q := fun n v => (n < num_nodes m)%nat -> forall d, v d = stored_gradient P (l_phi s) n d / (length_of P (stored_gradient P (l_phi s) n) + fuzz)).
  destruct (stage_moved [] fuzz small alpha dt s s' Q) as (s2 & A1 & A2 & A3 & A4 & A5 & A6 & A7 & A8); [easy| |exact E|].
  { intros s1 F G n Hn d. apply (G n Hn). }
  destruct (A8 e) as [[H _]|(mat' & phi & B1 & B2 & B3 & B4)]; [now apply H in Hev|].
  assert (mat' = mat) by now apply Honly. subst mat'.
  assert (phi = l_phi s e) by (destruct B4 as [->|(k & C1 & C2)]; [easy|exfalso; apply C1; now apply Honly]). subst phi.
  assert (Hn : forall l, (l < nn)%nat -> (nodes_in m e l < num_nodes m)%nat) by (intros l Hl; apply (ok_range _ _ (lo_mesh P HP)); assumption).
  assert (Hlen : forall l, (l < nn)%nat -> length_of P (stored_gradient P (l_phi s) (nodes_in m e l)) = length_of P g).
  { intros l Hl. unfold length_of. f_equal. apply sumn_ext. intros d Hd. now rewrite Hall. }
  assert (Hvel : forall l d, (l < nn)%nat -> (d < nd)%nat -> l_vel s2 (nodes_in m e l) d = g d / (length_of P g + fuzz)).
  { intros l d Hl Hd. rewrite (A6 _ (Hn l Hl)). rewrite Hlen, Hall by assumption. reflexivity. }
  assert (Hlp : 0 < length_of P g + fuzz) by lra.
  exists (sumn nn (fun l => corner_weight P s2 (v_speed P mat + signum P (l_phi s e) e) e l)). split.
  - apply (weights_positive e (fun d => g d / (length_of P g + fuzz))); try assumption.
    + destruct (length_pos_component g Hg) as (d & Hd & Hd'). exists d. split; [easy|]. unfold Rdiv. apply Rmult_integral_contrapositive. split; [easy|]. apply Rinv_neq_0_compat. lra.
  - rewrite B3. unfold moved, front_move. cbv zeta. rewrite A2.
    assert (Eh : hj P s2 fuzz (v_speed P mat + signum P (l_phi s e) e) e =
      length_of P g * (length_of P g / (length_of P g + fuzz)) *
      (sumn nn (fun l => corner_weight P s2 (v_speed P mat + signum P (l_phi s e) e) e l) / (sumn nn (fun l => corner_weight P s2 (v_speed P mat + signum P (l_phi s e) e) e l) + fuzz))).
    { unfold hj. fold m nn. set (w := corner_weight P s2 (v_speed P mat + signum P (l_phi s e) e) e).
      rewrite (sumn_ext nn (fun l => w l * node_HJ P s2 (nodes_in m e l)) (fun l => length_of P g * (length_of P g / (length_of P g + fuzz)) * w l)).
      - rewrite sumn_scal. unfold Rdiv. ring.
      - intros l Hl. assert (EH : node_HJ P s2 (nodes_in m e l) = length_of P g * (length_of P g / (length_of P g + fuzz))); [|rewrite EH; ring].
        rewrite (node_HJ_eq s2 (l_phi s)) by (intros d; now apply A5, Hn).
        rewrite (sumn_ext nd _ (fun d => / (length_of P g + fuzz) * (g d * g d))) by (intros d Hd; rewrite (Hvel l d Hl Hd), (Hall l d Hl Hd); unfold Rdiv; ring).
        rewrite sumn_scal. unfold nd. rewrite <- (length_sq P g). unfold Rdiv. ring. }
    rewrite Eh. reflexivity.
Qed.

End Stage.
