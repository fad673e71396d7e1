From Verif Require MeshIndexProofs.
From Verif Require Import BaseReal BaseArr GeomModel GeomSpec GeomProofs SghModel SghSpec SghProofs MarsModel MarsProofs ThermModel ThermProofs ThermFlow LevelModel LevelSpec.
Local Open Scope R_scope.

Lemma fold_fupd_key {A X} (key : X -> nat) (val : X -> A) l : forall f x, In x l -> (forall y, In y l -> key y = key x -> val y = val x) ->
  fold_left (fun f y => fupd f (key y) (val y)) l f (key x) = val x.
Proof.
  induction l as [|y l IH] using rev_ind; intros f x Hx H; [easy|]. rewrite fold_left_app. cbn [fold_left]. unfold fupd at 1.
  destruct (Nat.eqb (key x) (key y)) eqn:E.
  - apply Nat.eqb_eq in E. apply H; [apply in_app_iff; right; now left|easy].
  - apply in_app_iff in Hx. destruct Hx as [Hx|[->|[]]]; [|now rewrite Nat.eqb_refl in E].
    apply IH; [easy|]. intros z Hz. apply H. apply in_app_iff; now left.
Qed.
Lemma fold_fupd_out {A X} (key : X -> nat) (val : X -> A) l : forall f i, (forall y, In y l -> key y <> i) ->
  fold_left (fun f y => fupd f (key y) (val y)) l f i = f i.
Proof.
  induction l as [|y l IH]; intros f i H; [easy|]. cbn [fold_left]. rewrite IH by (intros; apply H; now right).
  unfold fupd. rewrite (proj2 (Nat.eqb_neq i (key y))); [easy|]. intros ->. apply (H y); [now left|easy].
Qed.

Section Level.
Variable P : lset.
Hypothesis HP : lset_ok P.
Let m := v_mesh P.
Let L := v_L P.
Let nn := v_nn P.
Let nd := v_dims P.

Lemma nn_pos : 0 < INR nn.
Proof. unfold nn, v_nn. destruct (Nat.eqb (v_dims P) 3); cbn; lra. Qed.

(** ** Corner quantities *)

Lemma corner_loop_spec s : let s' := corner_loop P s in
  l_phi s' = l_phi s /\ l_phi0 s' = l_phi0 s /\ l_grad s' = l_grad s /\ l_vel s' = l_vel s /\
  forall e l, (e < num_elems m)%nat -> (l < nn)%nat ->
    l_cn s' (corners_in_elem m e l) = area_normal P e l /\ l_cv s' (corners_in_elem m e l) = 1 / INR nn * elem_size P e.
Proof.
  cbv zeta.
  set (key := fun p : nat * nat => corners_in_elem m (fst p) (snd p)).
  set (v1 := fun p : nat * nat => area_normal P (fst p) (snd p)).
  set (v2 := fun p : nat * nat => 1 / INR nn * elem_size P (fst p)).
  assert (H : forall l s, let s' := fold_left (fun s '(e, l) =>
      let c := corners_in_elem (v_mesh P) e l in
      mkLs (l_phi s) (l_phi0 s) (l_grad s) (l_vel s) (fupd (l_cn s) c (area_normal P e l))
           (fupd (l_cv s) c (1 / INR (v_nn P) * elem_size P e))) l s in
      l_phi s' = l_phi s /\ l_phi0 s' = l_phi0 s /\ l_grad s' = l_grad s /\ l_vel s' = l_vel s /\
      l_cn s' = fold_left (fun f y => fupd f (key y) (v1 y)) l (l_cn s) /\
      l_cv s' = fold_left (fun f y => fupd f (key y) (v2 y)) l (l_cv s)).
  { induction l as [|[e k] l IH]; intros s0; [repeat split|]. cbn [fold_left]. cbv zeta in IH.
    destruct (IH (mkLs (l_phi s0) (l_phi0 s0) (l_grad s0) (l_vel s0) (fupd (l_cn s0) (corners_in_elem m e k) (area_normal P e k))
       (fupd (l_cv s0) (corners_in_elem m e k) (1 / INR nn * elem_size P e)))) as (A1 & A2 & A3 & A4 & A5 & A6).
    cbn [l_phi l_phi0 l_grad l_vel l_cn l_cv] in A1, A2, A3, A4, A5, A6. repeat split; assumption. }
  destruct (H (elem_corners (num_elems m) nn) s) as (A1 & A2 & A3 & A4 & A5 & A6). clear H.
  repeat (split; [assumption|]).
  intros e l He Hl. rewrite (A5 : l_cn (corner_loop P s) = _), (A6 : l_cv (corner_loop P s) = _).
  change (corners_in_elem m e l) with (key (e, l)).
  assert (K : forall y, In y (elem_corners (num_elems m) nn) -> key y = key (e, l) -> y = (e, l)).
  { intros [e' l'] Hy Ek. apply elem_corners_in in Hy. cbn in Ek.
    destruct (ok_distinct _ _ (lo_mesh P HP) e' l' e l) as [-> ->]; [apply Hy|apply Hy|easy|easy|exact Ek|easy]. }
  split; (rewrite fold_fupd_key; [reflexivity|now apply elem_corners_in|intros y Hy Ek; now rewrite (K y Hy Ek)]).
Qed.

(** ** Nodal gradient *)

Lemma pairs_sum n (f : nat -> nat -> R) pairs : NoDup pairs ->
  (forall e l, In (e, l) pairs <-> (e < num_elems m)%nat /\ (l < nn)%nat /\ nodes_in m e l = n) ->
  suml (fun p => f (fst p) (snd p)) pairs = at_node_sum P n f.
Proof.
  intros Hd Hi. unfold at_node_sum. fold m nn.
  transitivity (suml (fun p => f (fst p) (snd p)) (filter (fun p => Nat.eqb (nodes_in m (fst p) (snd p)) n) (elem_corners (num_elems m) nn))).
  - apply suml_perm. apply NoDup_Permutation; [easy|apply NoDup_filter, elem_corners_nodup|].
    intros [e l]. rewrite filter_In, elem_corners_in, Hi. cbn [fst snd]. rewrite Nat.eqb_eq. tauto.
  - rewrite suml_filter, suml_elem_corners. reflexivity.
Qed.

Definition node_ready (s : lstate) : Prop := forall e l, (e < num_elems m)%nat -> (l < nn)%nat ->
    l_cn s (corners_in_elem m e l) = area_normal P e l /\ l_cv s (corners_in_elem m e l) = 1 / INR nn * elem_size P e.

Lemma combine_map {A B C} (f : A -> B) (g : A -> C) l : combine (map f l) (map g l) = map (fun x => (f x, g x)) l.
Proof. induction l as [|x l IH]; [easy|]. cbn. now rewrite IH. Qed.

Lemma ring_sums s n : node_ready s ->
  let ring := combine (corners_in_node m n) (v_elems P n) in
  (forall d, fold_left (fun acc '(c, e) => acc + l_cn s c d * l_phi s e) ring 0 = at_node_sum P n (fun e l => area_normal P e l d * l_phi s e)) /\
  fold_left (fun acc '(c, _) => acc + l_cv s c) ring 0 = node_volume P n.
Proof.
  intros Hs ring. destruct (lo_ring P HP n) as (pairs & Hd & Hi & Hc & He). fold m nn in Hi, Hc.
  subst ring. rewrite Hc, He, combine_map. split.
  - intros d. rewrite fold_left_map. rewrite (fold_left_suml (fun p => l_cn s (corners_in_elem m (fst p) (snd p)) d * l_phi s (fst p))).
    rewrite Rplus_0_l. rewrite <- (pairs_sum n _ pairs Hd Hi). apply suml_ext. intros [e l] Hp. apply Hi in Hp. cbn [fst snd].
    destruct (Hs e l) as [-> _]; tauto.
  - rewrite fold_left_map. rewrite (fold_left_suml (fun p => l_cv s (corners_in_elem m (fst p) (snd p)))).
    rewrite Rplus_0_l. unfold node_volume. fold nn. rewrite <- (pairs_sum n _ pairs Hd Hi). apply suml_ext. intros [e l] Hp. apply Hi in Hp. cbn [fst snd].
    destruct (Hs e l) as [_ ->]; [tauto|tauto|]. unfold Rdiv. ring.
Qed.

Definition node_fine (fuzz : R) (phi : nat -> R) (n : nat) : Prop :=
  node_volume P n <> 0 /\ length_of P (stored_gradient P phi n) + fuzz <> 0.

Lemma node_gradient_spec fuzz n s : node_ready s -> 
  (forall s', node_gradient P fuzz n s = Some s' -> node_fine fuzz (l_phi s) n /\
    l_phi s' = l_phi s /\ l_phi0 s' = l_phi0 s /\ l_cn s' = l_cn s /\ l_cv s' = l_cv s /\
    l_grad s' = fupd (l_grad s) n (l_grad s' n) /\ l_vel s' = fupd (l_vel s) n (l_vel s' n) /\
    forall d, l_grad s' n d = stored_gradient P (l_phi s) n d /\
      l_vel s' n d = stored_gradient P (l_phi s) n d / (length_of P (stored_gradient P (l_phi s) n) + fuzz)) /\
  (node_fine fuzz (l_phi s) n -> exists s', node_gradient P fuzz n s = Some s').
Proof.
  intros Hs. destruct (ring_sums s n Hs) as [Hg Hv]. unfold node_gradient. fold m. cbv zeta. rewrite Hv.
  assert (Em : mag (v_dims P) (fun d => fold_left (fun acc '(c, e) => acc + l_cn s c d * l_phi s e) (combine (corners_in_node m n) (v_elems P n)) 0 / node_volume P n)
    = length_of P (stored_gradient P (l_phi s) n)).
  { unfold mag, length_of. f_equal. apply sumn_ext. intros d _. now rewrite Hg. }
  rewrite Em. unfold node_fine. split.
  - intros s' E. destruct (Req_EM_T (node_volume P n) 0) as [|Hn]; [easy|]. destruct (Req_EM_T _ 0) as [|Hm]; [easy|]. injection E as <-.
    cbn [l_phi l_phi0 l_grad l_vel l_cn l_cv]. split; [auto|]. do 4 (split; [reflexivity|]). do 2 (split; [unfold fupd; now rewrite Nat.eqb_refl|]).
    intros d. unfold fupd. rewrite Nat.eqb_refl. rewrite Hg. easy.
  - intros [H1 H2]. destruct (Req_EM_T (node_volume P n) 0) as [|Hn]; [easy|]. destruct (Req_EM_T _ 0) as [|Hm]; [easy|]. eauto.
Qed.

Definition graded (fuzz : R) (phi : nat -> R) (s : lstate) (n : nat) : Prop := forall d, l_grad s n d = stored_gradient P phi n d /\
  l_vel s n d = stored_gradient P phi n d / (length_of P (stored_gradient P phi n) + fuzz).

Lemma nodes_loop fuzz l : forall s, node_ready s ->
  (forall s', for_each l (node_gradient P fuzz) s = Some s' -> (forall n, In n l -> node_fine fuzz (l_phi s) n) /\
    l_phi s' = l_phi s /\ l_phi0 s' = l_phi0 s /\ l_cn s' = l_cn s /\ l_cv s' = l_cv s /\
    (forall n, ~ In n l -> l_grad s' n = l_grad s n /\ l_vel s' n = l_vel s n) /\
    forall n, In n l -> graded fuzz (l_phi s) s' n) /\
  ((forall n, In n l -> node_fine fuzz (l_phi s) n) -> exists s', for_each l (node_gradient P fuzz) s = Some s').
Proof.
  induction l as [|n l IH]; intros s Hs.
  - split; [|intros _; exists s; reflexivity]. intros s' E. injection E as <-. repeat split; easy.
  - destruct (node_gradient_spec fuzz n s Hs) as [H1 H2]. split.
    + intros s' E. cbn [for_each] in E. destruct (node_gradient P fuzz n s) as [s1|] eqn:E1; [|easy]. cbn [obind] in E.
      destruct (H1 s1 eq_refl) as (F & A1 & A2 & A3 & A4 & A5 & A6 & A7).
      assert (Hs1 : node_ready s1) by (intros e k He Hk; rewrite A3, A4; now apply Hs).
      destruct (proj1 (IH s1 Hs1) s' E) as (G & B1 & B2 & B3 & B4 & B5 & B6). rewrite A1 in G, B1, B6.
      split; [intros k [<-|Hk]; auto|]. repeat (split; [congruence|]). split.
      * intros k Hk. destruct (B5 k) as [-> ->]; [intros Hk'; apply Hk; now right|]. rewrite A5, A6. unfold fupd.
        rewrite (proj2 (Nat.eqb_neq k n)); [easy|]. intros ->. apply Hk; now left.
      * intros k Hk. destruct (in_dec Nat.eq_dec k l) as [Hin|Hout]; [now apply B6|]. destruct Hk as [<-|Hk]; [|easy].
        intros d. destruct (B5 n Hout) as [-> ->]. apply A7.
    + intros F. destruct (H2 (F n (or_introl eq_refl))) as (s1 & E1). cbn [for_each]. rewrite E1. cbn [obind].
      destruct (H1 s1 E1) as (_ & A1 & A2 & A3 & A4 & _). apply IH.
      * intros e k He Hk; rewrite A3, A4; now apply Hs.
      * intros k Hk. rewrite A1. apply F. now right.
Qed.

Lemma nodal_gradient_spec fuzz s :
  (forall s', nodal_gradient P fuzz s = Some s' -> (forall n, (n < num_nodes m)%nat -> node_fine fuzz (l_phi s) n) /\
    l_phi s' = l_phi s /\ l_phi0 s' = l_phi0 s /\ node_ready s' /\
    forall n, (n < num_nodes m)%nat -> graded fuzz (l_phi s) s' n) /\
  ((forall n, (n < num_nodes m)%nat -> node_fine fuzz (l_phi s) n) -> exists s', nodal_gradient P fuzz s = Some s').
Proof.
  destruct (corner_loop_spec s) as (A1 & A2 & A3 & A4 & A5).
  destruct (nodes_loop fuzz (seq 0 (num_nodes m)) (corner_loop P s) A5) as [H1 H2]. rewrite A1 in H1, H2. unfold nodal_gradient, for_up. fold m. split.
  - intros s' E. destruct (H1 s' E) as (F & B1 & B2 & B3 & B4 & B5 & B6).
    split; [intros n Hn; apply F; apply in_seq; lia|]. split; [easy|]. split; [congruence|]. split; [intros e l He Hl; rewrite B3, B4; now apply A5|].
    intros n Hn. apply B6. apply in_seq; lia.
  - intros F. apply H2. intros n Hn. apply F. apply in_seq in Hn. lia.
Qed.

(** ** Boundary velocities *)

Lemma length_nonneg v : 0 <= length_of P v.
Proof. apply sqrt_pos. Qed.

Lemma length_sq v : length_of P v * length_of P v = sumn nd (fun d => v d * v d).
Proof. apply sqrt_sqrt. apply sumn_nonneg. intros. apply Rle_0_sqr. Qed.

Lemma length_scaled v c : 0 < c -> length_of P (fun d => v d / c) = length_of P v / c.
Proof.
  intros Hc. unfold length_of. fold nd.
  rewrite (sumn_ext nd _ (fun d => / (c * c) * (v d * v d))) by (intros; field; lra). rewrite sumn_scal.
  rewrite sqrt_mult_alt by (left; apply Rinv_0_lt_compat; nra).
  rewrite sqrt_inv. rewrite sqrt_square by lra. unfold Rdiv. ring.
Qed.

Lemma scaled_short v c : 0 <= c -> length_of P v + c <> 0 -> length_of P (fun d => v d / (length_of P v + c)) <= 1.
Proof.
  intros Hc Hn. pose proof (length_nonneg v). rewrite length_scaled by lra.
  apply (Rmult_le_reg_r (length_of P v + c)); [lra|]. unfold Rdiv. rewrite Rmult_assoc, Rinv_l by lra. lra.
Qed.

Lemma dot_bound v g : length_of P v <= 1 -> sumn nd (fun d => v d * g d) <= length_of P g.
Proof.
  intros Hv. pose proof (length_nonneg v) as V0. pose proof (length_nonneg g) as G0.
  pose proof (length_sq v) as Ev. pose proof (length_sq g) as Eg.
  destruct (Req_dec (length_of P g) 0) as [E|E].
  - rewrite E in *. assert (Z : forall d, (d < nd)%nat -> g d * g d = 0).
    { intros d Hd. assert (g d * g d <= sumn nd (fun d => g d * g d)).
      { apply (Rle_trans _ (sumn nd (fun k => if Nat.eqb k d then g d * g d else 0))).
        - rewrite sumn_delta by easy. lra.
        - apply sumn_le. intros k Hk. destruct (Nat.eqb k d) eqn:Ek; [apply Nat.eqb_eq in Ek; subst; lra|apply Rle_0_sqr]. }
      pose proof (Rle_0_sqr (g d)). unfold Rsqr in *. lra. }
    rewrite (sumn_ext nd _ (fun _ => 0)); [rewrite sumn_0; lra|]. intros d Hd. specialize (Z d Hd). assert (g d = 0) by nra. rewrite H. ring.
  - set (G := length_of P g) in *. assert (Gp : 0 < G) by lra.
    apply (Rle_trans _ (sumn nd (fun d => / 2 * G * (v d * v d) + / (2 * G) * (g d * g d)))).
    + apply sumn_le. intros d _.
      assert (0 <= (v d * G - g d) * (v d * G - g d)) by apply Rle_0_sqr.
      assert (E1 : / 2 * G * (v d * v d) + / (2 * G) * (g d * g d) - v d * g d = (v d * G - g d) * (v d * G - g d) * / (2 * G)) by (field; lra).
      assert (0 <= (v d * G - g d) * (v d * G - g d) * / (2 * G)) by (apply Rmult_le_pos; [easy|left; apply Rinv_0_lt_compat; lra]). lra.
    + rewrite sumn_plus, !sumn_scal, <- Ev, <- Eg.
      assert (E2 : / (2 * G) * (G * G) = G / 2) by (field; lra). rewrite E2.
      assert (length_of P v * length_of P v <= 1) by nra. assert (/ 2 * G * (length_of P v * length_of P v) <= / 2 * G * 1) by (apply Rmult_le_compat_l; lra). lra.
Qed.

Lemma bc_inv small bcs (Q : nat -> (nat -> R) -> Prop) :
  (forall b n v, In b bcs -> Q n v -> mag nd (vs_fn b n v) + small <> 0 -> Q n (fun d => vs_fn b n v d / (mag nd (vs_fn b n v) + small))) ->
  forall s s', (forall n, Q n (l_vel s n)) -> boundary_velocity P small bcs s = Some s' ->
  l_phi s' = l_phi s /\ l_phi0 s' = l_phi0 s /\ l_grad s' = l_grad s /\ l_cn s' = l_cn s /\ l_cv s' = l_cv s /\ forall n, Q n (l_vel s' n).
Proof.
  intros HQ s s' Hs E.
  apply (for_each_inv (fun t => l_phi t = l_phi s /\ l_phi0 t = l_phi0 s /\ l_grad t = l_grad s /\ l_cn t = l_cn s /\ l_cv t = l_cv s /\ forall n, Q n (l_vel t n)))
    with (l := bcs) (s := s) (s' := s') (3 := E); [|repeat split; easy].
  intros b t t' Hb It Et.
  refine (for_each_inv (fun t => l_phi t = l_phi s /\ l_phi0 t = l_phi0 s /\ l_grad t = l_grad s /\ l_cn t = l_cn s /\ l_cv t = l_cv s /\ forall n, Q n (l_vel t n))
    _ (vs_nodes b) _ t t' It Et).
  clear t t' It Et. intros n t t' _ (A1 & A2 & A3 & A4 & A5 & A6) Et. unfold bdy_node in Et. destruct (Req_EM_T _ 0) as [|Hn]; [easy|]. injection Et as <-.
  cbn [set_vel l_phi l_phi0 l_grad l_cn l_cv l_vel]. repeat (split; [assumption|]). intros k. unfold fupd. destruct (Nat.eqb k n) eqn:Ek; [|apply A6].
  apply Nat.eqb_eq in Ek. subst k. fold nd in Hn |- *. apply HQ; auto.
Qed.

Lemma bcs_loop small bcs (Q : nat -> (nat -> R) -> Prop) l :
  (forall b n v, In b bcs -> Q n v -> mag nd (vs_fn b n v) + small <> 0 -> Q n (fun d => vs_fn b n v d / (mag nd (vs_fn b n v) + small))) ->
  forall s s', (forall n, Q n (l_vel s n)) ->
  for_each l (fun mat s => if evolving P mat then boundary_velocity P small bcs s else Some s) s = Some s' ->
  l_phi s' = l_phi s /\ l_phi0 s' = l_phi0 s /\ l_grad s' = l_grad s /\ l_cn s' = l_cn s /\ l_cv s' = l_cv s /\ forall n, Q n (l_vel s' n).
Proof.
  intros HQ s s' Hs E.
  refine (for_each_inv (fun t => l_phi t = l_phi s /\ l_phi0 t = l_phi0 s /\ l_grad t = l_grad s /\ l_cn t = l_cn s /\ l_cv t = l_cv s /\ forall n, Q n (l_vel t n))
    _ l _ s s' _ E); [|repeat split; easy].
  intros mat t t' _ (A1 & A2 & A3 & A4 & A5 & A6) Et. destruct (evolving P mat); [|injection Et as <-; tauto].
  destruct (bc_inv small bcs Q HQ t t' A6 Et) as (B1 & B2 & B3 & B4 & B5 & B6). do 5 (split; [congruence|]). exact B6.
Qed.

(** ** Update of one element *)

Definition hj (s : lstate) (fuzz a : R) (e : nat) : R :=
  sumn nn (fun l => corner_weight P s a e l * node_HJ P s (nodes_in m e l)) / (sumn nn (fun l => corner_weight P s a e l) + fuzz).
Definition moved (s : lstate) (fuzz alpha dt : R) (mat e : nat) (phi : R) : R :=
  let sg := signum P phi e in let H := hj s fuzz (v_speed P mat + sg) e in
  l_phi0 s e - alpha * dt * (v_speed P mat * H + sg * (H - 1)).
Definition elem_fine (s : lstate) (fuzz : R) (mat e : nat) (phi : R) : Prop :=
  sqrt (phi * phi + delta_x P e * delta_x P e) <> 0 /\ sumn nn (fun l => corner_weight P s (v_speed P mat + signum P phi e) e l) + fuzz <> 0.

(** states that differ in the level set values only *)
Definition like (s t : lstate) : Prop := l_phi0 t = l_phi0 s /\ l_grad t = l_grad s /\ l_vel t = l_vel s /\ l_cn t = l_cn s.

Lemma like_weight s t a e l : like s t -> corner_weight P t a e l = corner_weight P s a e l.
Proof. intros (A1 & A2 & A3 & A4). unfold corner_weight. now rewrite A3, A4. Qed.
Lemma like_hj s t fuzz a e : like s t -> hj t fuzz a e = hj s fuzz a e.
Proof.
  intros Hl. pose proof Hl as (A1 & A2 & A3 & A4). unfold hj, node_HJ. rewrite A2, A3. f_equal.
  - apply sumn_ext. intros l _. now rewrite (like_weight s t).
  - f_equal. apply sumn_ext. intros l _. now rewrite (like_weight s t).
Qed.
Lemma like_moved s t fuzz alpha dt mat e phi : like s t -> moved t fuzz alpha dt mat e phi = moved s fuzz alpha dt mat e phi.
Proof. intros Hl. pose proof Hl as (A1 & _). unfold moved. cbv zeta. now rewrite (like_hj s t), A1. Qed.
Lemma like_fine s t fuzz mat e phi : like s t -> elem_fine t fuzz mat e phi <-> elem_fine s fuzz mat e phi.
Proof.
  intros Hl. unfold elem_fine. rewrite (sumn_ext nn (fun l => corner_weight P t _ e l) (fun l => corner_weight P s (v_speed P mat + signum P phi e) e l)); [tauto|].
  intros; now apply like_weight.
Qed.
Lemma like_refl s : like s s. Proof. repeat split. Qed.
Lemma like_trans s t u : like s t -> like t u -> like s u.
Proof. intros (A1 & A2 & A3 & A4) (B1 & B2 & B3 & B4). repeat split; congruence. Qed.

Lemma update_elem_spec fuzz alpha dt mat e s :
  (forall s', update_elem P fuzz alpha dt mat e s = Some s' -> elem_fine s fuzz mat e (l_phi s e) /\ like s s' /\
     l_phi s' = fupd (l_phi s) e (moved s fuzz alpha dt mat e (l_phi s e))) /\
  (elem_fine s fuzz mat e (l_phi s e) -> exists s', update_elem P fuzz alpha dt mat e s = Some s').
Proof.
  unfold update_elem. fold m nn. cbv zeta. rewrite !fold_sumn, !Rplus_0_l. unfold elem_fine. split.
  - intros s' E. destruct (Req_EM_T _ 0) as [|H1]; [easy|]. destruct (Req_EM_T _ 0) as [|H2]; [easy|]. injection E as <-.
    split; [auto|]. split; [repeat split|]. reflexivity.
  - intros [H1 H2]. destruct (Req_EM_T _ 0) as [|H3]; [easy|]. destruct (Req_EM_T _ 0) as [|H4]; [easy|]. eauto.
Qed.

Lemma elems_loop fuzz alpha dt mat l : NoDup (map (elem_in_mat L mat) l) -> forall s,
  (forall s', for_each l (fun sid => update_elem P fuzz alpha dt mat (elem_in_mat L mat sid)) s = Some s' -> like s s' /\
    (forall e, ~ In e (map (elem_in_mat L mat) l) -> l_phi s' e = l_phi s e) /\
    forall e, In e (map (elem_in_mat L mat) l) -> elem_fine s fuzz mat e (l_phi s e) /\ l_phi s' e = moved s fuzz alpha dt mat e (l_phi s e)) /\
  ((forall e, In e (map (elem_in_mat L mat) l) -> elem_fine s fuzz mat e (l_phi s e)) ->
    exists s', for_each l (fun sid => update_elem P fuzz alpha dt mat (elem_in_mat L mat sid)) s = Some s').
Proof.
  induction l as [|sid l IH]; intros Hd s.
  - split; [|intros _; exists s; reflexivity]. intros s' E. injection E as <-. split; [apply like_refl|]. split; easy.
  - cbn [map] in Hd. apply NoDup_cons_iff in Hd. destruct Hd as [Hn Hd]. destruct (update_elem_spec fuzz alpha dt mat (elem_in_mat L mat sid) s) as [H1 H2]. split.
    + intros s' E. cbn [for_each] in E. destruct (update_elem P fuzz alpha dt mat (elem_in_mat L mat sid) s) as [s1|] eqn:E1; [|easy]. cbn [obind] in E.
      destruct (H1 s1 eq_refl) as (F & A1 & A2). destruct (proj1 (IH Hd s1) s' E) as (B1 & B2 & B3).
      split; [exact (like_trans _ _ _ A1 B1)|]. cbn [map In]. split.
      * intros e He. rewrite B2 by tauto. rewrite A2. unfold fupd. rewrite (proj2 (Nat.eqb_neq _ _)); [easy|]. intros ->. apply He; now left.
      * intros e [<-|He].
        -- split; [exact F|]. rewrite B2 by exact Hn. rewrite A2. unfold fupd. now rewrite Nat.eqb_refl.
        -- destruct (B3 e He) as [C1 C2]. assert (Ep : l_phi s1 e = l_phi s e).
           { rewrite A2. unfold fupd. rewrite (proj2 (Nat.eqb_neq _ _)); [easy|]. intros ->. easy. }
           rewrite Ep in C1, C2. split; [now apply (like_fine s s1)|]. now rewrite C2, (like_moved s s1).
    + intros F. destruct (H2 (F _ (or_introl eq_refl))) as (s1 & E1). cbn [for_each]. rewrite E1. cbn [obind].
      destruct (H1 s1 E1) as (_ & A1 & A2). apply (IH Hd s1). intros e He. rewrite (like_fine s s1 _ _ _ _ A1).
      rewrite A2. unfold fupd. rewrite (proj2 (Nat.eqb_neq _ _)); [apply F; now right|]. intros ->. easy.
Qed.

Lemma mat_nodup mat : (mat < num_mats L)%nat -> NoDup (map (elem_in_mat L mat) (seq 0 (num_mat_elems L mat))).
Proof.
  intros Hm. apply MeshIndexProofs.NoDup_map_in; [apply seq_NoDup|]. intros i j Hi Hj E. apply in_seq in Hi, Hj.
  apply (lo_distinct P HP mat); [easy|exact (proj2 Hi)|exact (proj2 Hj)|exact E].
Qed.

Definition in_mat (mat e : nat) : Prop := In e (map (elem_in_mat L mat) (seq 0 (num_mat_elems L mat))).
Lemma in_mat_spec mat e : in_mat mat e <-> exists sid, (sid < num_mat_elems L mat)%nat /\ elem_in_mat L mat sid = e.
Proof.
  unfold in_mat. rewrite in_map_iff. split.
  - intros (sid & E & H). apply in_seq in H. exists sid. split; [lia|easy].
  - intros (sid & H & E). exists sid. split; [easy|]. apply in_seq. lia.
Qed.
Lemma in_mat_dec mat e : {in_mat mat e} + {~ in_mat mat e}.
Proof. apply in_dec, Nat.eq_dec. Qed.

(** one material *)
Lemma update_level_set_spec fuzz alpha dt mat s s' : (mat < num_mats L)%nat -> update_level_set P fuzz alpha dt mat s = Some s' -> like s s' /\
    (forall e, ~ in_mat mat e -> l_phi s' e = l_phi s e) /\
    forall e, in_mat mat e -> elem_fine s fuzz mat e (l_phi s e) /\ l_phi s' e = moved s fuzz alpha dt mat e (l_phi s e).
Proof. intros Hm. apply (elems_loop fuzz alpha dt mat (seq 0 (num_mat_elems L mat)) (mat_nodup mat Hm) s). Qed.

Lemma evolving_true mat : evolving P mat = true <-> v_type P mat = EvolveFront.
Proof. unfold evolving. destruct (v_type P mat); split; easy. Qed.

(** all materials: an element gets the value of the last evolving material in it *)
Lemma mats_loop fuzz alpha dt l : NoDup l -> (forall mat, In mat l -> (mat < num_mats L)%nat) -> forall s s',
  for_each l (fun mat s => if evolving P mat then update_level_set P fuzz alpha dt mat s else Some s) s = Some s' -> like s s' /\
  forall e, (forall mat, In mat l -> v_type P mat = EvolveFront -> ~ in_mat mat e) /\ l_phi s' e = l_phi s e \/
    exists mat phi, In mat l /\ v_type P mat = EvolveFront /\ in_mat mat e /\ elem_fine s fuzz mat e phi /\ l_phi s' e = moved s fuzz alpha dt mat e phi /\
      (phi = l_phi s e \/ exists mat', mat' <> mat /\ In mat' l /\ v_type P mat' = EvolveFront /\ in_mat mat' e).
Proof.
  induction l as [|mat l IH]; intros Hd Hr s s' E.
  - injection E as <-. split; [apply like_refl|]. intros e. left. easy.
  - apply NoDup_cons_iff in Hd. destruct Hd as [Hn Hd]. cbn [for_each] in E.
    destruct (evolving P mat) eqn:Ev.
    + destruct (update_level_set P fuzz alpha dt mat s) as [s1|] eqn:E1; [|easy]. cbn [obind] in E.
      destruct (update_level_set_spec fuzz alpha dt mat s s1 (Hr mat (or_introl eq_refl)) E1) as (A1 & A2 & A3).
      destruct (IH Hd (fun k Hk => Hr k (or_intror Hk)) s1 s' E) as (B1 & B2). split; [exact (like_trans _ _ _ A1 B1)|].
      apply evolving_true in Ev. intros e. destruct (B2 e) as [[C1 C2]|(mat2 & phi & D1 & D2 & D3 & D4 & D5 & D6)].
      * destruct (in_mat_dec mat e) as [Hin|Hout].
        -- right. exists mat, (l_phi s e). destruct (A3 e Hin) as [F1 F2]. repeat split; try easy; [now left|apply F1|apply F1|congruence|now left].
        -- left. split; [|rewrite C2; now apply A2]. intros k [<-|Hk]; [intros _; exact Hout|now apply C1].
      * right. exists mat2, phi. split; [now right|]. split; [easy|]. split; [easy|]. split; [now apply (like_fine s s1)|].
        split; [now rewrite D5, (like_moved s s1)|]. destruct (in_mat_dec mat e) as [Hin|Hout].
        -- right. exists mat. repeat split; try easy; [intros ->; easy|now left].
        -- destruct D6 as [D6|(mat' & G1 & G2 & G3 & G4)]; [left; now rewrite D6, A2|right; exists mat'; repeat split; try easy; now right].
    + cbn [obind] in E. destruct (IH Hd (fun k Hk => Hr k (or_intror Hk)) s s' E) as (B1 & B2). split; [easy|].
      assert (Nv : v_type P mat <> EvolveFront) by (intros Hv; apply evolving_true in Hv; congruence).
      intros e. destruct (B2 e) as [[C1 C2]|(mat2 & phi & D1 & D2 & D3 & D4 & D5 & D6)].
      * left. split; [|easy]. intros k [<-|Hk]; [easy|now apply C1].
      * right. exists mat2, phi. repeat split; try easy; [now right|apply D4|apply D4|].
        destruct D6 as [D6|(mat' & G1 & G2 & G3 & G4)]; [now left|right; exists mat'; repeat split; try easy; now right].
Qed.

(** ** The Hamilton-Jacobi average *)

Lemma weight_nonneg s a e l : 0 <= corner_weight P s a e l.
Proof. unfold corner_weight, fmax. apply Rmax_l. Qed.

Lemma hj_range s fuzz a e lo hi : 0 <= fuzz -> lo <= 0 <= hi -> sumn nn (fun l => corner_weight P s a e l) + fuzz <> 0 ->
  (forall l, (l < nn)%nat -> lo <= node_HJ P s (nodes_in m e l) <= hi) -> lo <= hj s fuzz a e <= hi.
Proof.
  intros Hf Hz Hn H. set (W := sumn nn (fun l => corner_weight P s a e l)) in *.
  assert (W0 : 0 <= W) by (apply sumn_nonneg; intros; apply weight_nonneg).
  assert (Wp : 0 < W + fuzz) by lra.
  assert (S1 : sumn nn (fun l => corner_weight P s a e l * node_HJ P s (nodes_in m e l)) <= hi * W).
  { unfold W. rewrite <- sumn_scal. apply sumn_le. intros l Hl. pose proof (weight_nonneg s a e l). destruct (H l Hl). nra. }
  assert (S2 : lo * W <= sumn nn (fun l => corner_weight P s a e l * node_HJ P s (nodes_in m e l))).
  { unfold W. rewrite <- sumn_scal. apply sumn_le. intros l Hl. pose proof (weight_nonneg s a e l). destruct (H l Hl). nra. }
  unfold hj. fold W. split; apply (Rmult_le_reg_r (W + fuzz)); try easy; unfold Rdiv; rewrite Rmult_assoc, Rinv_l by lra; nra.
Qed.

Lemma signum_range phi e : 0 < v_vol P e -> -1 < signum P phi e < 1 /\ 0 <= phi * signum P phi e /\ (signum P phi e = 0 -> phi = 0).
Proof.
  intros Hv. unfold signum.
  assert (Hd : 0 < delta_x P e).
  { unfold delta_x. destruct (Nat.eqb (v_dims P) 3).
    - assert (0 < cbrt (v_vol P e)) by apply exp_pos. lra.
    - assert (0 < sqrt (v_vol P e)) by now apply sqrt_lt_R0. lra. }
  set (h := delta_x P e) in *. assert (Hq : 0 < phi * phi + h * h) by nra.
  assert (Hs : 0 < sqrt (phi * phi + h * h)) by now apply sqrt_lt_R0.
  assert (Hb : Rabs phi < sqrt (phi * phi + h * h)).
  { rewrite <- sqrt_Rsqr_abs. apply sqrt_lt_1; unfold Rsqr; nra. }
  set (q := sqrt (phi * phi + h * h)) in *. apply Rabs_def2 in Hb.
  assert (Hi : 0 < / q) by now apply Rinv_0_lt_compat. assert (Ei : q * / q = 1) by (field; lra). unfold Rdiv. repeat split.
  - nra.
  - nra.
  - assert (0 <= phi * phi) by nra. nra.
  - intros H. apply Rmult_integral in H. destruct H; lra.
Qed.

End Level.
