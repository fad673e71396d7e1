(** Proofs about the thermal solver. *)
From Coq Require Import Permutation FunctionalExtensionality.
From Verif Require Import BaseReal BaseArr GeomModel GeomSpec GeomProofs SghModel SghSpec SghProofs TableModel TableSpec TableProofs TiptonProofs SetupProofs ThermModel ThermSpec.
Local Open Scope R_scope.

(** ** Loops *)

Lemma for_each_guard {A S} (ok : A -> bool) (f : A -> S -> S) (body : A -> S -> option S) l :
  (forall x s, In x l -> body x s = if ok x then Some (f x s) else None) ->
  forall s, for_each l body s = if forallb ok l then Some (fold_left (fun s x => f x s) l s) else None.
Proof.
  induction l as [|x l IH]; intros H s; [reflexivity|]. cbn [for_each forallb fold_left]. rewrite H by (left; easy).
  destruct (ok x); cbn [obind andb]; [apply IH; intros; apply H; right; easy|reflexivity].
Qed.

Lemma fold_proj {A S T} (pr : S -> T) (f : A -> S -> S) (g : A -> T -> T) l :
  (forall x s, In x l -> pr (f x s) = g x (pr s)) ->
  forall s, pr (fold_left (fun s x => f x s) l s) = fold_left (fun t x => g x t) l (pr s).
Proof.
  induction l as [|x l IH]; intros H s; [reflexivity|]. cbn [fold_left]. rewrite IH by (intros; apply H; right; easy).
  rewrite H by (left; easy). reflexivity.
Qed.

Lemma fold_same {A S T} (pr : S -> T) (f : A -> S -> S) l : (forall x s, pr (f x s) = pr s) ->
  forall s, pr (fold_left (fun s x => f x s) l s) = pr s.
Proof. intros H. induction l as [|x l IH]; intros s; [reflexivity|]. cbn [fold_left]. rewrite IH. apply H. Qed.

Lemma fold_sumn n f c : fold_left (fun a l => a + f l) (seq 0 n) c = c + sumn n f.
Proof. rewrite fold_left_suml, suml_seq. reflexivity. Qed.

(** writes to distinct places *)
Lemma fold_fupd {A} (key : nat -> nat) (val : nat -> A) l : forall (f : nat -> A),
  (forall i j, In i l -> In j l -> key i = key j -> i = j) ->
  (forall i, In i l -> fold_left (fun f i => fupd f (key i) (val i)) l f (key i) = val i) /\
  (forall c, (forall i, In i l -> key i <> c) -> fold_left (fun f i => fupd f (key i) (val i)) l f c = f c).
Proof.
  induction l as [|x l IH]; intros f H; [split; [intros i []|reflexivity]|]. cbn [fold_left].
  destruct (IH (fupd f (key x) (val x))) as [H1 H2]; [intros; apply H; auto; right; auto|]. split.
  - intros i Hi. destruct (in_dec Nat.eq_dec i l) as [Hl|Hl]; [now apply H1|]. destruct Hi as [->|Hi]; [|tauto].
    rewrite H2; [apply fupd_same|]. intros j Hj E. apply Hl. rewrite <- (H j i); auto; [now right|now left].
  - intros c Hc. rewrite H2 by (intros; apply Hc; right; auto). apply fupd_other. intros E. apply (Hc x); [now left|auto].
Qed.

(** ** Conduction *)

Section Conduction.
Variable P : thermal.
Hypothesis (Hm : corners_ok 8 (h_mesh P)) (HL : layout_ok (num_elems (h_mesh P)) (h_L P)) (HD : distinct_elems (h_L P)).
Let m := h_mesh P.
Let L := h_L P.

Lemma gradient_eq s e d : temp_gradient P s e d = gradient P (t_temp s) (t_vol s e) e d.
Proof. unfold temp_gradient, gradient. cbv zeta. rewrite fold_sumn. unfold Rdiv. ring. Qed.

Lemma conducted_eq s mat sid l : sumn 3 (fun d => point_flux P s mat sid d * (1 * elem_bmat m (h_x P) (elem_in_mat L mat sid) l d)) =
  conducted P (h_cond P mat sid) (t_temp s) (t_vol s (elem_in_mat L mat sid)) (elem_in_mat L mat sid) l.
Proof.
  unfold conducted. rewrite <- sumn_scal. apply sumn_ext. intros d _. unfold point_flux. rewrite gradient_eq. fold L m. ring.
Qed.

Lemma write_corners_spec e q cq : (e < num_elems m)%nat ->
  (forall l, (l < 8)%nat -> write_corners P e q cq (corners_in_elem m e l) = sumn 3 (fun d => q d * (1 * elem_bmat m (h_x P) e l d))) /\
  (forall e' l, (e' < num_elems m)%nat -> (l < 8)%nat -> e' <> e -> write_corners P e q cq (corners_in_elem m e' l) = cq (corners_in_elem m e' l)).
Proof.
  intros He. unfold write_corners. cbv zeta. fold m.
  destruct (fold_fupd (corners_in_elem m e) (fun l => fold_left (fun a d => a + q d * (1 * elem_bmat m (h_x P) e l d)) (seq 0 3) 0) (seq 0 8) cq) as [H1 H2].
  { intros i j Hi Hj E. apply in_seq in Hi, Hj. apply (ok_distinct _ _ Hm e i e j); auto; lia. }
  split.
  - intros l Hl. rewrite H1 by (apply in_seq; lia). rewrite fold_sumn. lra.
  - intros e' l He' Hl Hne. apply H2. intros i Hi E. apply in_seq in Hi.
    destruct (ok_distinct _ _ Hm e i e' l); auto; lia.
Qed.

(** the effect of one element, when defined *)
Definition heat_elem' (mat sid : nat) (s : tstate) : tstate :=
  let e := elem_in_mat L mat sid in
  let q := point_flux P s mat sid in
  set_cq (write_corners P e q (t_cq s)) (set_flux (fupd2 (t_flux s) mat sid q) (set_grad (fupd2 (t_grad s) mat e (temp_gradient P s e))
    (set_melt (if Rle_dec 900 (avg_temp m (t_temp s) e) then fupd2 (t_eroded s) mat sid true else t_eroded s) s))).
Definition elem_in_row (mat sid : nat) : bool := Nat.ltb (elem_in_mat L mat sid) (num_mat_elems L mat).

Lemma heat_elem_eq mat sid s : heat_elem P mat sid s = if elem_in_row mat sid then Some (heat_elem' mat sid s) else None.
Proof. reflexivity. Qed.

Definition heat_mat (mat : nat) (s : tstate) : tstate := fold_left (fun s sid => heat_elem' mat sid s) (seq 0 (num_mat_elems L mat)) s.
Definition mat_in_row (mat : nat) : bool := forallb (elem_in_row mat) (seq 0 (num_mat_elems L mat)).

Lemma get_heat_flux_eq mat s : get_heat_flux P mat s = if mat_in_row mat then Some (heat_mat mat s) else None.
Proof. unfold get_heat_flux, for_up. apply for_each_guard. intros; apply heat_elem_eq. Qed.

(** conduction only touches corner heat and the material point arrays *)
Definition same_nodes (s s' : tstate) : Prop := t_temp s' = t_temp s /\ t_temp0 s' = t_temp0 s /\ t_nq s' = t_nq s /\ t_vol s' = t_vol s.
Lemma same_nodes_refl s : same_nodes s s.
Proof. repeat split. Qed.
Lemma same_nodes_trans a b c : same_nodes a b -> same_nodes b c -> same_nodes a c.
Proof. intros (A1 & A2 & A3 & A4) (B1 & B2 & B3 & B4). repeat split; congruence. Qed.
Lemma fold_same_nodes {A} (f : A -> tstate -> tstate) l : (forall x s, In x l -> same_nodes s (f x s)) -> forall s, same_nodes s (fold_left (fun s x => f x s) l s).
Proof.
  induction l as [|x l IH]; intros H s; [apply same_nodes_refl|]. cbn [fold_left]. eapply same_nodes_trans; [apply H; left; easy|].
  apply IH. intros; apply H; right; easy.
Qed.

Lemma heat_elem_same mat sid s : same_nodes s (heat_elem' mat sid s).
Proof. repeat split. Qed.
Lemma heat_mat_same mat s : same_nodes s (heat_mat mat s).
Proof. unfold heat_mat. apply fold_same_nodes. intros; apply heat_elem_same. Qed.

Lemma in_layout mat sid : (mat < num_mats L)%nat -> (sid < num_mat_elems L mat)%nat -> (elem_in_mat L mat sid < num_elems m)%nat.
Proof. intros H1 H2. apply (HL (mat, sid)). apply points_in. auto. Qed.

Lemma elem_inj mat i j : (mat < num_mats L)%nat -> (i < num_mat_elems L mat)%nat -> (j < num_mat_elems L mat)%nat ->
  elem_in_mat L mat i = elem_in_mat L mat j -> i = j.
Proof.
  intros Hk Hi Hj E. pose proof (HD mat Hk) as N. rewrite NoDup_nth with (d := O) in N.
  specialize (N i j). rewrite map_length, seq_length in N. apply N; auto.
  assert (F : forall k, (k < num_mat_elems L mat)%nat -> nth k (map (elem_in_mat (h_L P) mat) (seq 0 (num_mat_elems (h_L P) mat))) 0%nat = elem_in_mat L mat k).
  { intros k Hk'. rewrite nth_indep with (d' := elem_in_mat (h_L P) mat 0) by (rewrite map_length, seq_length; exact Hk').
    rewrite map_nth, seq_nth by exact Hk'. reflexivity. }
  rewrite !F by auto. exact E.
Qed.

Lemma heat_fold mat l : (mat < num_mats L)%nat -> NoDup l -> (forall i, In i l -> (i < num_mat_elems L mat)%nat) -> forall s,
  let s' := fold_left (fun s sid => heat_elem' mat sid s) l s in
  (forall sid c, In sid l -> (c < 8)%nat -> t_cq s' (corners_in_elem m (elem_in_mat L mat sid) c) =
     conducted P (h_cond P mat sid) (t_temp s) (t_vol s (elem_in_mat L mat sid)) (elem_in_mat L mat sid) c) /\
  (forall e c, (e < num_elems m)%nat -> (c < 8)%nat -> (forall sid, In sid l -> elem_in_mat L mat sid <> e) ->
     t_cq s' (corners_in_elem m e c) = t_cq s (corners_in_elem m e c)).
Proof.
  intros Hk. induction l as [|x l IH]; intros N Hl s; [split; [intros ? ? []|reflexivity]|]. cbn [fold_left].
  apply NoDup_cons_iff in N. destruct N as [Nx N].
  specialize (IH N (fun i Hi => Hl i (or_intror Hi)) (heat_elem' mat x s)). cbv zeta in IH. destruct IH as [I1 I2].
  assert (Hx : (elem_in_mat L mat x < num_elems m)%nat) by (apply in_layout; [auto|apply Hl; now left]).
  destruct (write_corners_spec (elem_in_mat L mat x) (point_flux P s mat x) (t_cq s) Hx) as [W1 W2].
  split.
  - intros sid c Hin Hc. destruct Hin as [<-|Hin].
    + rewrite I2; auto; [|intros y Hy E; apply Nx; rewrite (elem_inj mat x y); auto; apply Hl; [now left|now right]].
      cbn [heat_elem' t_cq set_cq]. unfold heat_elem'. cbn [t_cq set_cq]. rewrite W1 by auto. apply conducted_eq.
    + rewrite I1; auto.
  - intros e c He Hc Hn. rewrite I2; auto; [|intros; apply Hn; right; auto].
    unfold heat_elem'. cbn [t_cq set_cq]. apply W2; auto. intros E. apply (Hn x); [now left|auto].
Qed.

Lemma heat_mat_spec mat s : (mat < num_mats L)%nat ->
  (forall sid c, (sid < num_mat_elems L mat)%nat -> (c < 8)%nat -> t_cq (heat_mat mat s) (corners_in_elem m (elem_in_mat L mat sid) c) =
     conducted P (h_cond P mat sid) (t_temp s) (t_vol s (elem_in_mat L mat sid)) (elem_in_mat L mat sid) c) /\
  (forall e c, (e < num_elems m)%nat -> (c < 8)%nat -> (forall sid, (sid < num_mat_elems L mat)%nat -> elem_in_mat L mat sid <> e) ->
     t_cq (heat_mat mat s) (corners_in_elem m e c) = t_cq s (corners_in_elem m e c)).
Proof.
  intros Hk. destruct (heat_fold mat (seq 0 (num_mat_elems L mat)) Hk (seq_NoDup _ _) (fun i Hi => proj2 (proj1 (in_seq _ _ _) Hi)) s) as [H1 H2].
  split; intros; [apply H1|apply H2]; auto; [apply in_seq; lia|]. intros sid Hs. apply in_seq in Hs. auto with arith. apply H3. lia.
Qed.

(** ** The moving source *)

Lemma in_source_spec pos e : in_source P pos e = true <-> covered P pos e.
Proof.
  unfold in_source, covered. rewrite fold_sumn.
  assert (E : forall d, elem_center P e d = center P e d) by (intros; unfold elem_center, center; rewrite fold_sumn; unfold Rdiv; ring).
  rewrite (sumn_ext 3 _ (fun d => (pos d - center P e d) ^ 2)) by (intros; rewrite E; ring).
  unfold source_radius2. destruct (Rle_dec _ _); split; intros; try easy; lra.
Qed.

Definition deposit (src : option ((nat -> R) * R)) (V : R) (e : nat) : R :=
  match src with
  | Some (pos, power) => if in_source P pos e then power_density power * V / 8 else 0
  | None => 0
  end.

Lemma moving_fold pos power mat l : (mat < num_mats L)%nat -> NoDup l -> (forall i, In i l -> (i < num_mat_elems L mat)%nat) -> forall s,
  let s' := fold_left (fun s sid =>
    let e := elem_in_mat (h_L P) mat sid in
    if in_source P pos e then
      set_cq (fold_left (fun cq l => let c := corners_in_elem (h_mesh P) e l in
                fupd cq c (cq c + power / source_volume * 0.125 * t_vol s e)) (seq 0 8) (t_cq s)) s
    else s) l s in
  same_nodes s s' /\
  (forall sid c, In sid l -> (c < 8)%nat -> let e := elem_in_mat L mat sid in
     t_cq s' (corners_in_elem m e c) = t_cq s (corners_in_elem m e c) + deposit (Some (pos, power)) (t_vol s e) e) /\
  (forall e c, (e < num_elems m)%nat -> (c < 8)%nat -> (forall sid, In sid l -> elem_in_mat L mat sid <> e) ->
     t_cq s' (corners_in_elem m e c) = t_cq s (corners_in_elem m e c)).
Proof.
  intros Hk. induction l as [|x l IH]; intros N Hl s; [split; [apply same_nodes_refl|split; [intros ? ? []|reflexivity]]|].
  cbn [fold_left]. apply NoDup_cons_iff in N. destruct N as [Nx N].
  set (e := elem_in_mat (h_L P) mat x).
  set (s1 := if in_source P pos e then _ else s).
  specialize (IH N (fun i Hi => Hl i (or_intror Hi)) s1). cbv zeta in IH. destruct IH as (I0 & I1 & I2).
  assert (He : (e < num_elems m)%nat) by (apply in_layout; [auto|apply Hl; now left]).
  assert (S1 : same_nodes s s1) by (unfold s1; destruct (in_source P pos e); repeat split).
  assert (G : forall k l0 cq, (k + length l0 = 8)%nat -> l0 = seq k (length l0) ->
     forall e' c, (e' < num_elems m)%nat -> (c < 8)%nat ->
     fold_left (fun cq l => let c := corners_in_elem (h_mesh P) e l in fupd cq c (cq c + power / source_volume * 0.125 * t_vol s e)) l0 cq (corners_in_elem m e' c)
     = cq (corners_in_elem m e' c) + (if Nat.eqb e' e && Nat.leb k c then power / source_volume * 0.125 * t_vol s e else 0)).
  { intros k l0. revert k. induction l0 as [|y l0 IH0]; intros k cq Hl0 Es e' c He' Hc.
    - cbn [fold_left]. cbn [length] in Hl0. rewrite (proj2 (Nat.leb_gt k c)) by lia. rewrite andb_false_r. ring.
    - cbn [length seq] in Es. injection Es as Ey Es. cbn [length] in Hl0. cbn [fold_left]. cbv zeta.
      rewrite (IH0 (S k)) by (auto; lia). subst y. unfold fupd.
      destruct (Nat.eqb_spec (corners_in_elem m e' c) (corners_in_elem (h_mesh P) e k)) as [E|E].
      + destruct (ok_distinct _ _ Hm e' c e k) as [E1 E2]; auto; [lia|]. subst e' c. rewrite Nat.eqb_refl, Nat.leb_refl.
        rewrite (proj2 (Nat.leb_gt (S k) k)) by lia. cbn [andb]. fold m. ring.
      + f_equal. destruct (Nat.eqb_spec e' e) as [->|]; [|reflexivity]. cbn [andb].
        assert (c <> k) by (intros ->; now apply E).
        destruct (Nat.leb_spec (S k) c), (Nat.leb_spec k c); try reflexivity; lia. }
  assert (A1 : forall c, (c < 8)%nat -> t_cq s1 (corners_in_elem m e c) = t_cq s (corners_in_elem m e c) + deposit (Some (pos, power)) (t_vol s e) e).
  { intros c Hc. unfold s1, deposit. destruct (in_source P pos e); [|ring]. cbn [t_cq set_cq].
    rewrite (G 0%nat) by (auto; reflexivity). rewrite Nat.eqb_refl. cbn [andb Nat.leb].
    unfold power_density, source_volume, source_radius2. f_equal.
    replace (4 / 3 * 3.14159 * (8 * 8) * 8) with (4 / 3 * 3.14159 * 8 ^ 3) by ring.
    unfold Rdiv. generalize (/ (4 * / 3 * 3.14159 * 8 ^ 3)). intros i. lra. }
  assert (A2 : forall e' c, (e' < num_elems m)%nat -> (c < 8)%nat -> e' <> e -> t_cq s1 (corners_in_elem m e' c) = t_cq s (corners_in_elem m e' c)).
  { intros e' c He' Hc Hne. unfold s1. destruct (in_source P pos e); [|reflexivity]. cbn [t_cq set_cq].
    rewrite (G 0%nat) by (auto; reflexivity). rewrite (proj2 (Nat.eqb_neq _ _) Hne). cbn [andb]. ring. }
  destruct S1 as (S1 & S2 & S3 & S4).
  split; [eapply same_nodes_trans; [|exact I0]; repeat split; auto|]. split.
  - intros sid c Hin Hc. cbv zeta. destruct Hin as [<-|Hin].
    + rewrite I2; auto. intros y Hy E. apply Nx. rewrite (elem_inj mat x y); auto; apply Hl; [now left|now right].
    + rewrite I1 by auto. rewrite S4. f_equal. apply A2; auto; [apply in_layout; auto; apply Hl; now right|].
      intros E. apply Nx. rewrite (elem_inj mat x sid); auto; apply Hl; [now left|now right].
  - intros e' c He' Hc Hn. rewrite I2; auto; [|intros; apply Hn; right; auto]. apply A2; auto. intros E. apply (Hn x); [now left|auto].
Qed.

Lemma moving_flux_spec pos power mat s : (mat < num_mats L)%nat ->
  let s' := moving_flux P pos power mat s in
  same_nodes s s' /\
  (forall sid c, (sid < num_mat_elems L mat)%nat -> (c < 8)%nat ->
     t_cq s' (corners_in_elem m (elem_in_mat L mat sid) c) = t_cq s (corners_in_elem m (elem_in_mat L mat sid) c)
       + deposit (Some (pos, power)) (t_vol s (elem_in_mat L mat sid)) (elem_in_mat L mat sid)) /\
  (forall e c, (e < num_elems m)%nat -> (c < 8)%nat -> (forall sid, (sid < num_mat_elems L mat)%nat -> elem_in_mat L mat sid <> e) ->
     t_cq s' (corners_in_elem m e c) = t_cq s (corners_in_elem m e c)).
Proof.
  intros Hk.
  destruct (moving_fold pos power mat (seq 0 (num_mat_elems L mat)) Hk (seq_NoDup _ _) (fun i Hi => proj2 (proj1 (in_seq _ _ _) Hi)) s)
      as (M0 & M1 & M2). split; [exact M0|]. split.
  - intros sid c Hs Hc. apply (M1 sid c); [apply in_seq; lia|auto].
  - intros e c He Hc Hn. apply M2; auto. intros sid Hs. apply in_seq in Hs. apply Hn. lia.
Qed.

Definition mat_step (src : option ((nat -> R) * R)) (mat : nat) (s : tstate) : tstate :=
  match src with Some (pos, power) => moving_flux P pos power mat (heat_mat mat s) | None => heat_mat mat s end.

Lemma corner_heat_eq src s : corner_heat P src s =
  if forallb mat_in_row (seq 0 (num_mats L)) then Some (fold_left (fun s mat => mat_step src mat s) (seq 0 (num_mats L)) s) else None.
Proof.
  unfold corner_heat, for_up. apply for_each_guard. intros mat s0 _. rewrite get_heat_flux_eq. destruct (mat_in_row mat); [|reflexivity].
  cbn [obind]. unfold mat_step. destruct src as [[pos power]|]; reflexivity.
Qed.

Lemma mat_step_spec src mat s : (mat < num_mats L)%nat ->
  same_nodes s (mat_step src mat s) /\
  (forall sid c, (sid < num_mat_elems L mat)%nat -> (c < 8)%nat -> let e := elem_in_mat L mat sid in
     t_cq (mat_step src mat s) (corners_in_elem m e c) = conducted P (h_cond P mat sid) (t_temp s) (t_vol s e) e c + deposit src (t_vol s e) e) /\
  (forall e c, (e < num_elems m)%nat -> (c < 8)%nat -> (forall sid, (sid < num_mat_elems L mat)%nat -> elem_in_mat L mat sid <> e) ->
     t_cq (mat_step src mat s) (corners_in_elem m e c) = t_cq s (corners_in_elem m e c)).
Proof.
  intros Hk. destruct (heat_mat_spec mat s Hk) as [H1 H2]. pose proof (heat_mat_same mat s) as H0.
  unfold mat_step. destruct src as [[pos power]|].
  - destruct (moving_flux_spec pos power mat (heat_mat mat s) Hk) as (M0 & M1 & M2).
    split; [eapply same_nodes_trans; [exact H0|exact M0]|]. split.
    + intros sid c Hs Hc. cbv zeta. rewrite M1 by auto. destruct H0 as (_ & _ & _ & H0). rewrite H0, H1 by auto. reflexivity.
    + intros e c He Hc Hn. rewrite M2; auto.
  - split; [exact H0|]. split; [|exact H2]. intros sid c Hs Hc. cbv zeta. rewrite H1 by auto. cbn [deposit]. ring.
Qed.

Lemma mats_fold src s k : (k <= num_mats L)%nat ->
  let s' := fold_left (fun s mat => mat_step src mat s) (seq 0 k) s in
  same_nodes s s' /\
  (forall e c mat sid, (e < num_elems m)%nat -> (c < 8)%nat -> holds L e mat sid -> (mat < k)%nat -> (forall mat' sid', holds L e mat' sid' -> (mat' < k)%nat -> (mat' <= mat)%nat) ->
     t_cq s' (corners_in_elem m e c) = conducted P (h_cond P mat sid) (t_temp s) (t_vol s e) e c + deposit src (t_vol s e) e) /\
  (forall e c, (e < num_elems m)%nat -> (c < 8)%nat -> (forall mat sid, holds L e mat sid -> (k <= mat)%nat) ->
     t_cq s' (corners_in_elem m e c) = t_cq s (corners_in_elem m e c)).
Proof.
  induction k as [|k IH]; intros Hk; cbv zeta; [split; [apply same_nodes_refl|split; [intros; lia|reflexivity]]|].
  rewrite seq_S, fold_left_app. cbn [fold_left Nat.add]. destruct IH as (I0 & I1 & I2); [lia|].
  set (s1 := fold_left _ (seq 0 k) s) in *.
  destruct (mat_step_spec src k s1) as (M0 & M1 & M2); [lia|].
  split; [eapply same_nodes_trans; eauto|]. destruct I0 as (T & _ & _ & V).
  split.
  - intros e c mat sid He Hc Hh Hlt Hmax. destruct (Nat.eq_dec mat k) as [->|Hne].
    + destruct Hh as (_ & Hs & E). specialize (M1 sid c Hs Hc). cbv zeta in M1. rewrite E in M1. rewrite M1, T, V. reflexivity.
    + rewrite M2; auto.
      * apply I1; auto; [lia|]. intros mat' sid' Hh' Hl'. apply (Hmax mat' sid' Hh'). lia.
      * intros sid' Hs' E. assert (k <= mat)%nat; [|lia]. apply (Hmax k sid'); [|lia]. repeat split; auto; lia.
  - intros e c He Hc Hn. rewrite M2; auto.
    + apply I2; auto. intros mat sid Hh. specialize (Hn mat sid Hh). lia.
    + intros sid' Hs' E. assert (S k <= k)%nat; [|lia]. apply (Hn k sid'). repeat split; auto; lia.
Qed.

Lemma corner_heat_spec src s s' : corner_heat P src s = Some s' ->
  same_nodes s s' /\
  (forall e c mat sid, (e < num_elems m)%nat -> (c < 8)%nat -> last_material L e mat sid ->
     t_cq s' (corners_in_elem m e c) = conducted P (h_cond P mat sid) (t_temp s) (t_vol s e) e c + deposit src (t_vol s e) e) /\
  (forall e c, (e < num_elems m)%nat -> (c < 8)%nat -> (forall mat sid, ~ holds L e mat sid) ->
     t_cq s' (corners_in_elem m e c) = t_cq s (corners_in_elem m e c)).
Proof.
  rewrite corner_heat_eq. destruct (forallb _ _); [|easy]. intros E. injection E as <-.
  destruct (mats_fold src s (num_mats L) (le_n _)) as (H0 & H1 & H2). split; [exact H0|]. split.
  - intros e c mat sid He Hc [Hh Hmax]. apply H1; auto; [apply Hh|]. intros; eapply Hmax; eauto.
  - intros e c He Hc Hn. apply H2; auto. intros mat sid Hh. destruct (Hn mat sid Hh).
Qed.

(** the conducted heat of an element *)
Lemma conducted_balance k T V e : sumn 8 (fun l => conducted P k T V e l) = 0.
Proof.
  unfold conducted. rewrite sumn_scal, sumn_exchange.
  rewrite (sumn_ext 3 _ (fun _ => 0)); [rewrite sumn_0; ring|].
  intros d _. rewrite sumn_scal. unfold elem_bmat. rewrite bmat_closure. ring.
Qed.

Lemma conducted_dissipates k T V e : V <> 0 ->
  sumn 8 (fun l => T (nodes_in m e l) * conducted P k T V e l) = - k * V * sumn 3 (fun d => gradient P T V e d ^ 2).
Proof.
  intros HV. unfold conducted.
  rewrite (sumn_ext 8 _ (fun l => sumn 3 (fun d => - k * gradient P T V e d * (T (nodes_in m e l) * elem_bmat m (h_x P) e l d)))).
  - rewrite sumn_exchange, <- sumn_scal. apply sumn_ext. intros d _. rewrite sumn_scal.
    assert (E : sumn 8 (fun l => T (nodes_in m e l) * elem_bmat m (h_x P) e l d) = V * gradient P T V e d)
      by (unfold gradient; fold m; field; auto).
    rewrite E. ring.
  - intros l _. rewrite <- !sumn_scal. apply sumn_ext. intros d _. fold m. ring.
Qed.

Lemma conducted_uniform k T V e l a : (forall n, (n < 8)%nat -> T (nodes_in m e n) = a) -> conducted P k T V e l = 0.
Proof.
  intros H. unfold conducted. rewrite (sumn_ext 3 _ (fun _ => 0)); [rewrite sumn_0; ring|]. intros d _. unfold gradient.
  rewrite (sumn_ext 8 _ (fun l => a * elem_bmat m (h_x P) e l d)) by (intros; rewrite H; auto).
  rewrite sumn_scal. unfold elem_bmat. rewrite bmat_closure. unfold Rdiv. ring.
Qed.

Lemma gradient_linear T V e a g : V = vol_hex_raw (gather m (h_x P) e 0) (gather m (h_x P) e 1) (gather m (h_x P) e 2) -> V <> 0 ->
  (forall l, (l < 8)%nat -> T (nodes_in m e l) = a + sumn 3 (fun d => g d * h_x P (nodes_in m e l) d)) ->
  forall d, (d < 3)%nat -> gradient P T V e d = g d.
Proof.
  intros EV HV H d Hd. unfold gradient. fold m.
  rewrite (sumn_ext 8 _ (fun l => a * elem_bmat m (h_x P) e l d + sumn 3 (fun k => g k * (h_x P (nodes_in m e l) k * elem_bmat m (h_x P) e l d)))).
  - rewrite sumn_plus, sumn_scal, sumn_exchange.
    replace (sumn 8 (fun i => elem_bmat m (h_x P) e i d)) with 0 by (symmetry; apply bmat_closure).
    rewrite (sumn_ext 3 _ (fun k => g k * (if Nat.eqb k d then V else 0))).
    + rewrite (sumn_ext 3 _ (fun k => if Nat.eqb k d then g d * V else 0)).
      * rewrite sumn_delta by auto. field. auto.
      * intros k _. destruct (Nat.eqb_spec k d) as [->|]; ring.
    + intros k Hk. rewrite sumn_scal. f_equal. unfold elem_bmat.
      pose proof (bmat_moment (gather m (h_x P) e 0) (gather m (h_x P) e 1) (gather m (h_x P) e 2) k d Hk Hd) as B.
      rewrite <- EV in B. rewrite <- B. apply sumn_ext. intros i _. f_equal.
      destruct k as [|[|[|k]]]; [reflexivity..|lia].
  - intros l Hl. rewrite H by auto. rewrite Rmult_plus_distr_r. f_equal. rewrite <- sumn_scal_r. apply sumn_ext. intros; ring.
Qed.
End Conduction.

(** ** Temperature update *)

Section Nodes.
Variable P : thermal.
Let m := h_mesh P.
Let N := num_nodes m.

Lemma node_cp_eq n : h_mass P n * node_cp P n = capacity P n.
Proof.
  unfold capacity, node_cp, mean. f_equal. rewrite fold_left_suml.
  rewrite (suml_ext _ (fun e => / INR (length (h_elems P n)) * h_cp P 0 e)) by (intros; unfold Rdiv; ring).
  rewrite (suml_scal _ (h_cp P 0)). unfold Rdiv. change (suml (fun e => h_cp P 0 e)) with (suml (h_cp P 0)). ring.
Qed.

Definition node_ok (n : nat) : bool := cp_in_range P n && (if Req_EM_T (h_mass P n * node_cp P n) 0 then false else true).
Definition node_heat (s : tstate) (n : nat) : R := t_nq s n + suml (t_cq s) (corners_in_node m n).
Definition node_update' (alpha dt : R) (n : nat) (s : tstate) : tstate :=
  set_temp (fupd (t_temp s) n (t_temp0 s n + alpha * dt * node_heat s n / capacity P n)) (set_nq (fupd (t_nq s) n (node_heat s n)) s).

Lemma node_update_eq alpha dt n s : node_update P alpha dt n s = if node_ok n then Some (node_update' alpha dt n s) else None.
Proof.
  unfold node_update, node_ok. cbv zeta. destruct (cp_in_range P n); cbn [andb]; [|reflexivity].
  destruct (Req_EM_T _ 0); [reflexivity|]. unfold node_update', node_heat. rewrite fold_left_suml. fold m. rewrite node_cp_eq.
  cbn [t_nq t_temp t_temp0 set_nq]. rewrite fupd_same. reflexivity.
Qed.

Lemma nodes_fold alpha dt s k :
  let s' := fold_left (fun s n => node_update' alpha dt n s) (seq 0 k) s in
  t_temp0 s' = t_temp0 s /\ t_cq s' = t_cq s /\ t_vol s' = t_vol s /\ t_grad s' = t_grad s /\ t_flux s' = t_flux s /\ t_eroded s' = t_eroded s /\
  (forall n, t_nq s' n = if Nat.ltb n k then node_heat s n else t_nq s n) /\
  (forall n, t_temp s' n = if Nat.ltb n k then t_temp0 s n + alpha * dt * node_heat s n / capacity P n else t_temp s n).
Proof.
  induction k as [|k IH]; cbv zeta; [repeat split|].
  rewrite seq_S, fold_left_app. cbn [fold_left Nat.add]. set (s1 := fold_left _ (seq 0 k) s) in *.
  destruct IH as (A & B & C & D & E & F & G & H).
  assert (Hk : node_heat s1 k = node_heat s k) by (unfold node_heat; rewrite G, B, Nat.ltb_irrefl; reflexivity).
  repeat split; try assumption; intros n; unfold node_update'; cbn [t_nq t_temp set_temp set_nq]; rewrite Hk, ?A;
    unfold fupd; rewrite ?G, ?H; destruct (Nat.eqb_spec n k) as [->|Hn].
  - now rewrite (proj2 (Nat.ltb_lt k (S k)) (Nat.lt_succ_diag_r k)).
  - destruct (Nat.ltb_spec n k), (Nat.ltb_spec n (S k)); try lia; reflexivity.
  - now rewrite (proj2 (Nat.ltb_lt k (S k)) (Nat.lt_succ_diag_r k)).
  - destruct (Nat.ltb_spec n k), (Nat.ltb_spec n (S k)); try lia; reflexivity.
Qed.

Lemma update_temperature_eq alpha dt s : update_temperature P alpha dt s =
  if forallb node_ok (seq 0 N) then Some (fold_left (fun s n => node_update' alpha dt n s) (seq 0 N) s) else None.
Proof. unfold update_temperature, for_up. apply for_each_guard. intros; apply node_update_eq. Qed.

Lemma node_ok_true n : node_ok n = true <->
  (forall e, In e (h_elems P n) -> (0 < num_mats (h_L P) /\ e < num_mat_elems (h_L P) 0)%nat) /\ capacity P n <> 0.
Proof.
  unfold node_ok. rewrite andb_true_iff, node_cp_eq. unfold cp_in_range. rewrite forallb_forall.
  assert (E : (if Req_EM_T (capacity P n) 0 then false else true) = true <-> capacity P n <> 0) by (destruct (Req_EM_T _ _); split; easy).
  rewrite E. split; intros [H1 H2]; (split; [|exact H2]); intros e He; specialize (H1 e He).
  - apply andb_true_iff in H1. destruct H1 as [A B]. apply Nat.ltb_lt in A, B. auto.
  - apply andb_true_iff. split; apply Nat.ltb_lt; tauto.
Qed.

(** ** Boundary fluxes *)

Lemma patch_heat_eq B flux T p nq n : patch_heat P B flux T p nq n =
  nq n + sumn 4 (fun l => if Nat.eqb (tb_nip B p l) n then flux (quarter_area (h_x P) (tb_nip B p)) (T n) else 0).
Proof.
  unfold patch_heat. cbv zeta. set (a := quarter_area _ _).
  assert (G : forall k, fold_left (fun nq l => fupd nq (tb_nip B p l) (nq (tb_nip B p l) + flux a (T (tb_nip B p l)))) (seq 0 k) nq n =
    nq n + sumn k (fun l => if Nat.eqb (tb_nip B p l) n then flux a (T n) else 0)).
  { induction k as [|k IH]; [cbn; ring|]. rewrite seq_S, fold_left_app. cbn [fold_left Nat.add sumn]. unfold fupd at 1.
    rewrite (Nat.eqb_sym n). destruct (Nat.eqb_spec (tb_nip B p k) n) as [E|E]; [rewrite E|]; rewrite IH; ring. }
  apply G.
Qed.

Lemma boundary_flux_eq B k flux s n : t_nq (boundary_flux P B k flux s) n =
  t_nq s n + node_gain B (fun p n => flux (quarter_area (h_x P) (tb_nip B p)) (t_temp s n)) (patches_of B k) n.
Proof.
  unfold boundary_flux. cbn [t_nq set_nq].
  assert (E : fold_left (fun nq set => if kind_eqb (tb_kind B set) k then fold_left (fun nq p => patch_heat P B flux (t_temp s) p nq) (tb_patches B set) nq else nq) (seq 0 (tb_sets B)) (t_nq s)
    = fold_left (fun nq p => patch_heat P B flux (t_temp s) p nq) (patches_of B k) (t_nq s)).
  { unfold patches_of. rewrite fold_left_flat_map. apply fold_left_ext. intros nq set _. destruct (kind_eqb _ _); reflexivity. }
  rewrite E; clear E. unfold node_gain. generalize (t_nq s). induction (patches_of B k) as [|p l IH]; intros nq; [cbn; ring|].
  cbn [fold_left]. rewrite IH, patch_heat_eq, suml_cons. ring.
Qed.

Lemma boundary_flux_same B k flux s : t_temp (boundary_flux P B k flux s) = t_temp s /\ t_temp0 (boundary_flux P B k flux s) = t_temp0 s /\
  t_cq (boundary_flux P B k flux s) = t_cq s /\ t_vol (boundary_flux P B k flux s) = t_vol s.
Proof. repeat split. Qed.
End Nodes.

Lemma patches_insulated B k : k <> NoTemp -> insulated B -> patches_of B k = [].
Proof.
  intros Hk H. unfold patches_of. assert (G : forall l, (forall x, In x l -> (x < tb_sets B)%nat) -> flat_map (fun set => if kind_eqb (tb_kind B set) k then tb_patches B set else []) l = []).
  { induction l as [|x l IH]; intros Hl; [reflexivity|]. cbn [flat_map]. rewrite IH by (intros; apply Hl; right; auto).
    rewrite H by (apply Hl; left; easy). destruct k; try reflexivity. congruence. }
  apply G. intros x Hx. apply in_seq in Hx. lia.
Qed.

(** ** Prescribed temperatures *)


Lemma boundary_temperature_none B s : no_const B -> boundary_temperature B s = s.
Proof.
  intros H. unfold boundary_temperature.
  assert (G : forall l T, (forall x, In x l -> (x < tb_sets B)%nat) -> fold_left (fun T set => if kind_eqb (tb_kind B set) ConstTemp
     then fold_left (fun T n => fupd T n (tb_value B set)) (tb_nodes B set) T else T) l T = T).
  { induction l as [|x l IH]; intros T Hl; [reflexivity|]. cbn [fold_left]. specialize (H x (Hl x (or_introl eq_refl))).
    destruct (tb_kind B x); cbn [kind_eqb]; try (apply IH; intros; apply Hl; right; auto). congruence. }
  rewrite G; [destruct s; reflexivity|]. intros x Hx. apply in_seq in Hx. lia.
Qed.

Lemma const_nodes v l : forall (T : nat -> R) n, fold_left (fun T n => fupd T n v) l T n = if in_dec Nat.eq_dec n l then v else T n.
Proof.
  induction l as [|x l IH]; intros T n; [reflexivity|]. cbn [fold_left]. rewrite IH. unfold fupd.
  destruct (in_dec Nat.eq_dec n l) as [H|H].
  - destruct (in_dec Nat.eq_dec n (x :: l)) as [|H']; [reflexivity|]. exfalso. apply H'. now right.
  - destruct (Nat.eqb_spec n x) as [->|Hne]; destruct (in_dec Nat.eq_dec _ (x :: l)) as [[|]|H']; try reflexivity; try congruence; try tauto.
    exfalso. apply H'. now left.
Qed.

Lemma boundary_temperature_spec B s :
  let s' := boundary_temperature B s in
  (forall n set, (set < tb_sets B)%nat -> tb_kind B set = ConstTemp -> In n (tb_nodes B set) ->
     (forall set', (set < set' < tb_sets B)%nat -> tb_kind B set' = ConstTemp -> ~ In n (tb_nodes B set')) -> t_temp s' n = tb_value B set) /\
  (forall n, (forall set, (set < tb_sets B)%nat -> tb_kind B set = ConstTemp -> ~ In n (tb_nodes B set)) -> t_temp s' n = t_temp s n).
Proof.
  cbv zeta. unfold boundary_temperature. cbn [t_temp set_temp].
  set (F := fun T set => _).
  assert (G : forall k T,
    (forall n set, (set < k)%nat -> tb_kind B set = ConstTemp -> In n (tb_nodes B set) ->
       (forall set', (set < set' < k)%nat -> tb_kind B set' = ConstTemp -> ~ In n (tb_nodes B set')) -> fold_left F (seq 0 k) T n = tb_value B set) /\
    (forall n, (forall set, (set < k)%nat -> tb_kind B set = ConstTemp -> ~ In n (tb_nodes B set)) -> fold_left F (seq 0 k) T n = T n)).
  { induction k as [|k IH]; intros T; [split; [intros; lia|reflexivity]|]. destruct (IH T) as [I1 I2].
    rewrite seq_S, fold_left_app. cbn [fold_left Nat.add]. unfold F at 1 3.
    split.
    - intros n set Hs Hc Hin Hmax. destruct (Nat.eq_dec set k) as [->|Hne].
      + rewrite Hc. cbn [kind_eqb]. rewrite const_nodes. destruct (in_dec _ _ _); [reflexivity|tauto].
      + assert (E : fold_left F (seq 0 k) T n = tb_value B set) by (apply I1; auto; [lia|]; intros; apply Hmax; auto; lia).
        destruct (tb_kind B k) eqn:Ek; cbn [kind_eqb]; auto. rewrite const_nodes.
        destruct (in_dec _ _ _) as [Hk|]; [|exact E]. exfalso. apply (Hmax k); auto; lia.
    - intros n Hn. assert (E : fold_left F (seq 0 k) T n = T n) by (apply I2; intros; apply Hn; auto; lia).
      destruct (tb_kind B k) eqn:Ek; cbn [kind_eqb]; auto. rewrite const_nodes.
      destruct (in_dec _ _ _) as [Hk|]; [|exact E]. exfalso. apply (Hn k); auto; lia. }
  apply G.
Qed.
