(** Nodal fields and the fields of one material. *)
From Coq Require Import Reals String Permutation Lra.
From Verif Require Import BaseArr BaseReal.
From Verif Require Import SghModel SghSpec FieldModel FieldSpec FieldProofs.
Open Scope R_scope.

Lemma writes_at {A} (w : list (write A)) : forall a, in_range a w ->
  exists a', do_writes w a = Some a' /\ nrow a' = nrow a /\ ncol a' = ncol a /\
    (forall r c, (forall v, ~ In (r, c, v) w) -> dat a' r c = dat a r c) /\
    (forall r c v, In (r, c, v) w -> (forall v', In (r, c, v') w -> v' = v) -> dat a' r c = Some v).
Proof.
  induction w as [|[[r c] v] w IH]; intros a H.
  - exists a. repeat split; auto. intros ? ? ? [].
  - unfold do_writes; cbn [for_each]. unfold aset.
    destruct (H r c v (or_introl eq_refl)) as [Hr Hc].
    rewrite (proj2 (Nat.ltb_lt _ _) Hr), (proj2 (Nat.ltb_lt _ _) Hc). cbn [andb obind]. set (a1 := mkArr _ _ _).
    destruct (IH a1) as (a' & E & H1 & H2 & H3 & H4). { intros r' c' v' Hin. apply (H r' c' v'); right; assumption. }
    exists a'. split; [exact E|]. split; [exact H1|]. split; [exact H2|]. split.
    + intros r' c' Hn. rewrite H3 by (intros v' Hv; apply (Hn v'); right; assumption). cbn.
      destruct (Nat.eqb_spec r' r) as [->|]; [|reflexivity]. destruct (Nat.eqb_spec c' c) as [->|]; [|reflexivity]. exfalso; apply (Hn v); left; reflexivity.
    + intros r' c' v' Hin Hu. destruct (in_dec natpair_dec (r', c') (map fst w)) as [Hi|Hi].
      * apply in_map_iff in Hi as [[[r0 c0] v0] [Heq Hin0]]. cbn in Heq. injection Heq as -> ->.
        rewrite <- (Hu v0 (or_intror Hin0)). apply H4; [exact Hin0|]. intros v1 Hv1. rewrite (Hu v0 (or_intror Hin0)). apply Hu. right. exact Hv1.
      * destruct Hin as [Heq|Hin].
        -- injection Heq as <- <- <-. rewrite H3; [cbn; now rewrite !Nat.eqb_refl|]. intros v0 Hv. apply Hi. apply in_map_iff. exists (r, c, v0). auto.
        -- exfalso. apply Hi. apply in_map_iff. exists (r', c', v'). auto.
Qed.

(** *** Fields that are written once *)
Section Columns.
Context {K F : Type} (dec : forall x y : K, {x = y} + {x <> y}).
Variables (ops : F -> list (@op K)) (fs : list F).
Variables (W : bool -> nat) (wr : bool -> (K -> nat) -> F -> list (write R)) (val : bool -> K -> nat -> R) (good : bool -> K -> nat -> Prop).
Variable body : slots K -> F -> arr R * arr R -> option (arr R * arr R).
Definition all := flat_map ops fs.
Definition nrows (b : bool) : nat := length (cols b all).
Definition slot (sl : slots K) (i : K) : nat := match sl_id sl i with Some k => k | None => O end.
Hypothesis Hkeys : NoDup (map (fun o : @op K => snd (fst o)) all).
Hypothesis Hbody : forall sl f s t, In f fs -> (forall b i nm, In (b, i, nm) (ops f) -> sl_id sl i <> None) ->
  body sl f (s, t) = obind (do_writes (wr false (slot sl) f) s) (fun s => obind (do_writes (wr true (slot sl) f) t) (fun t => Some (s, t))).
Hypothesis Hrange : forall b sl f r c v, In f fs -> (forall i nm, In (b, i, nm) (ops f) -> (slot sl i < nrows b)%nat) ->
  In (r, c, v) (wr b (slot sl) f) -> (exists i nm, In (b, i, nm) (ops f) /\ r = slot sl i) /\ (c < W b)%nat.
Hypothesis Hgood : forall b sl f i nm c, In f fs -> In (b, i, nm) (ops f) -> good b i c ->
  (forall i' nm', In (b, i', nm') (ops f) -> slot sl i' = slot sl i -> i' = i) ->
  In (slot sl i, c, val b i c) (wr b (slot sl) f) /\ forall v, In (slot sl i, c, v) (wr b (slot sl) f) -> v = val b i c.

Lemma keys_unique b i nm f b' nm' f' : In f fs -> In (b, i, nm) (ops f) -> In f' fs -> In (b', i, nm') (ops f') -> (b, i, nm) = (b', i, nm').
Proof.
  intros Hf Hi Hf' Hi'. assert (H1 : In (b, i, nm) all) by (apply in_flat_map; exists f; auto). assert (H2 : In (b', i, nm') all) by (apply in_flat_map; exists f'; auto).
  revert H1 H2 Hkeys. generalize all. intros l. clear. induction l as [|x l IH]; [intros []|]. intros [Ha|Ha] [Hb|Hb] Hnd; cbn in Hnd; inversion Hnd; subst.
  - congruence.
  - exfalso. apply H1. cbn. apply in_map_iff. exists (b', i, nm'). auto.
  - exfalso. apply H1. cbn. apply in_map_iff. exists (b, i, nm). auto.
  - apply IH; assumption.
Qed.

Lemma in_cols b i nm : In (i, nm) (cols b all) <-> In (b, i, nm) all.
Proof.
  unfold cols. rewrite in_map_iff. split.
  - intros ([[b' i'] nm'] & Heq & Hin). cbn in Heq. injection Heq as -> ->. apply filter_In in Hin. destruct Hin as [Hin Hb]. apply Bool.eqb_prop in Hb. cbn in Hb. subst. exact Hin.
  - intros Hin. exists (b, i, nm). split; [reflexivity|]. apply filter_In. split; [exact Hin|]. cbn. apply Bool.eqb_reflx.
Qed.
Lemma nodup_cols b : NoDup (map fst (cols b all)).
Proof.
  unfold cols. rewrite map_map. cbn [fst]. revert Hkeys. generalize all. intros l. clear. induction l as [|x l IH]; intros Hnd; [constructor|].
  cbn in Hnd. inversion Hnd; subst. cbn [filter]. destruct (Bool.eqb (fst (fst x)) b); [|apply IH; assumption]. cbn [map]. constructor; [|apply IH; assumption].
  intros Hin. apply H1. apply in_map_iff in Hin. destruct Hin as (y & Hy & Hin). apply filter_In in Hin. apply in_map_iff. exists y. split; [exact Hy|apply Hin].
Qed.

Lemma body_writes sl : (forall f b i nm, In f fs -> In (b, i, nm) (ops f) -> sl_id sl i <> None) -> forall l s t, incl l fs ->
  (exists s' t', do_writes (flat_map (wr false (slot sl)) l) s = Some s' /\ do_writes (flat_map (wr true (slot sl)) l) t = Some t') ->
  for_each l (body sl) (s, t) =
  obind (do_writes (flat_map (wr false (slot sl)) l) s) (fun s => obind (do_writes (flat_map (wr true (slot sl)) l) t) (fun t => Some (s, t))).
Proof.
  intros Hid. induction l as [|f l IH]; intros s t Hl (s' & t' & Es & Et); [reflexivity|]. cbn [flat_map] in Es, Et. unfold do_writes in Es, Et. rewrite for_each_app in Es, Et.
  fold (do_writes (wr false (slot sl) f) s) in Es. fold (do_writes (wr true (slot sl) f) t) in Et.
  cbn [for_each flat_map]. unfold do_writes at 1 2. rewrite !for_each_app. fold (do_writes (wr false (slot sl) f) s). fold (do_writes (wr true (slot sl) f) t).
  assert (Hf : In f fs) by (apply Hl; left; reflexivity). rewrite (Hbody sl f s t Hf) by (intros b i nm Hin; apply (Hid f b i nm Hf Hin)).
  destruct (do_writes (wr false (slot sl) f) s) as [s1|]; [|discriminate]. destruct (do_writes (wr true (slot sl) f) t) as [t1|]; [|discriminate]. cbn [obind] in *.
  apply IH; [intros x Hx; apply Hl; right; exact Hx|]. exists s', t'. auto.
Qed.

Lemma columns_spec : exists sl s t,
  for_each all (do_op dec) (no_slots (nrows false) (nrows true)) = Some sl /\
  for_each fs (body sl) (new_arr (nrows false) (W false), new_arr (nrows true) (W true)) = Some (s, t) /\
  (forall b, nrow (names_of b sl) = nrows b /\ nrow (sel b (s, t)) = nrows b) /\
  (forall b k i nm, nth_error (cols b all) k = Some (i, nm) -> aget (names_of b sl) k 0 = Some nm /\ slot sl i = k /\
     (forall c, (c < W b)%nat -> good b i c -> aget (sel b (s, t)) k c = Some (val b i c)) /\
     (forall c, (forall f v, In f fs -> In (b, i, nm) (ops f) -> ~ In (k, c, v) (wr b (slot sl) f)) -> aget (sel b (s, t)) k c = None)).
Proof.
  destruct (number_spec dec (nrows false) (nrows true) all) as (sl & E & _ & H1 & H2 & H3 & H4 & Hn & Hi & _); [unfold nrows; lia|unfold nrows; lia| |].
  { intros b i nm nm' Ha Hb. apply in_flat_map in Ha, Hb. destruct Ha as (f & Hf & Ha), Hb as (f' & Hf' & Hb).
    pose proof (keys_unique _ _ _ _ _ _ _ Hf Ha Hf' Hb) as Heq. injection Heq as Heq _. destruct b; discriminate. }
  assert (Hslot : forall b k i nm, nth_error (cols b all) k = Some (i, nm) -> sl_id sl i = Some k).
  { intros b k i nm Hk. apply (Hi b). apply last_nodup; [apply nodup_cols|]. rewrite nth_error_map, Hk. reflexivity. }
  assert (Hex : forall f b i nm, In f fs -> In (b, i, nm) (ops f) -> exists k, nth_error (cols b all) k = Some (i, nm)).
  { intros f b i nm Hf Hin. apply In_nth_error. apply in_cols. apply in_flat_map. exists f. auto. }
  assert (Hlt : forall f b i nm, In f fs -> In (b, i, nm) (ops f) -> (slot sl i < nrows b)%nat).
  { intros f b i nm Hf Hin. destruct (Hex f b i nm Hf Hin) as (k & Hk). unfold slot. rewrite (Hslot b k i nm Hk). apply nth_error_Some. congruence. }
  assert (Hr : forall b a, nrow a = nrows b -> ncol a = W b -> in_range a (flat_map (wr b (slot sl)) fs)).
  { intros b a Ha Hb r c v Hin. apply in_flat_map in Hin. destruct Hin as (f & Hf & Hin).
    destruct (Hrange b sl f r c v Hf (fun i nm => Hlt f b i nm Hf) Hin) as ((i & nm & Ho & ->) & Hc). rewrite Ha, Hb. split; [apply (Hlt f b i nm Hf Ho)|exact Hc]. }
  destruct (writes_at (flat_map (wr false (slot sl)) fs) (new_arr (nrows false) (W false)) (Hr false (new_arr (nrows false) (W false)) eq_refl eq_refl)) as (s & Es & Rs & Cs & Os & Vs).
  destruct (writes_at (flat_map (wr true (slot sl)) fs) (new_arr (nrows true) (W true)) (Hr true (new_arr (nrows true) (W true)) eq_refl eq_refl)) as (t & Et & Rt & Ct & Ot & Vt).
  exists sl, s, t. split; [exact E|]. split.
  { rewrite body_writes; [rewrite Es; cbn [obind]; rewrite Et; reflexivity| |apply incl_refl|exists s, t; auto].
    intros f b i nm Hf Hin. destruct (Hex f b i nm Hf Hin) as (k & Hk). rewrite (Hslot b k i nm Hk). discriminate. }
  split. { intros []; cbn [names_of sel fst snd]; auto. }
  intros b k i nm Hk. assert (Hkr : (k < nrows b)%nat) by (apply nth_error_Some; congruence).
  assert (Hsl : slot sl i = k) by (unfold slot; rewrite (Hslot b k i nm Hk); reflexivity).
  split. { unfold aget. destruct b; cbn [names_of] in *; rewrite ?H1, ?H2, ?H3, ?H4, (proj2 (Nat.ltb_lt _ _) Hkr); cbn [andb Nat.ltb Nat.leb]; [apply (Hn true k i nm Hk)|apply (Hn false k i nm Hk)]. }
  split; [exact Hsl|]. assert (Hin : In (b, i, nm) all) by (apply in_cols; eapply nth_error_In; exact Hk). apply in_flat_map in Hin. destruct Hin as (f & Hf & Hin).
  assert (Hinj : forall f' b' i' nm', In f' fs -> In (b', i', nm') (ops f') -> b' = b -> slot sl i' = slot sl i -> i' = i).
  { intros f' b' i' nm' Hf' Hin' -> Hs. destruct (Hex f' b i' nm' Hf' Hin') as (k' & Hk'). unfold slot in Hs. rewrite (Hslot b k i nm Hk), (Hslot b k' i' nm' Hk') in Hs. subst k'. congruence. }
  assert (Hself : forall f' i' nm', In f' fs -> In (b, i', nm') (ops f') -> slot sl i' = k -> In (b, i, nm) (ops f')).
  { intros f' i' nm' Hf' Hin' Hs. assert (i' = i) by (apply (Hinj f' b i' nm' Hf' Hin' eq_refl); congruence). subst i'.
    pose proof (keys_unique _ _ _ _ _ _ _ Hf Hin Hf' Hin') as Heq. injection Heq as ->. exact Hin'. }
  split.
  - intros c Hc Hg. destruct (Hgood b sl f i nm c Hf Hin Hg) as [Ha _]. { intros i' nm' Hin' Hs. exact (Hinj f b i' nm' Hf Hin' eq_refl Hs). }
    rewrite Hsl in Ha.
    assert (Ha2 : In (k, c, val b i c) (flat_map (wr b (slot sl)) fs)) by (apply in_flat_map; exists f; auto).
    assert (Hu : forall v', In (k, c, v') (flat_map (wr b (slot sl)) fs) -> v' = val b i c).
    { intros v' Hv. apply in_flat_map in Hv. destruct Hv as (f' & Hf' & Hv). destruct (Hrange b sl f' k c v' Hf' (fun i nm => Hlt f' b i nm Hf') Hv) as ((i' & nm' & Ho & Hs) & _).
      symmetry in Hs. pose proof (Hself f' i' nm' Hf' Ho Hs) as Hin'. destruct (Hgood b sl f' i nm c Hf' Hin' Hg) as [_ Hb]. { intros i2 nm2 Hin2 Hs2. exact (Hinj f' b i2 nm2 Hf' Hin2 eq_refl Hs2). }
      apply Hb. rewrite Hsl. exact Hv. }
    unfold aget. destruct b; cbn [sel fst snd]; rewrite ?Rs, ?Cs, ?Rt, ?Ct; cbn [nrow ncol new_arr]; rewrite (proj2 (Nat.ltb_lt _ _) Hkr), (proj2 (Nat.ltb_lt _ _) Hc); [apply Vt|apply Vs]; assumption.
  - intros c Hno. assert (Hnone : forall v, ~ In (k, c, v) (flat_map (wr b (slot sl)) fs)).
    { intros v Hv. apply in_flat_map in Hv. destruct Hv as (f' & Hf' & Hv). destruct (Hrange b sl f' k c v Hf' (fun i nm => Hlt f' b i nm Hf') Hv) as ((i' & nm' & Ho & Hs) & _).
      symmetry in Hs. exact (Hno f' v Hf' (Hself f' i' nm' Hf' Ho Hs) Hv). }
    unfold aget. destruct b; cbn [sel fst snd]; [rewrite (Ot k c Hnone)|rewrite (Os k c Hnone)]; cbn [new_arr dat]; destruct (_ && _); reflexivity.
Qed.
End Columns.

(** *** Nodes *)
Lemma fold_add {F} (g : F -> nat) l : forall n, fold_left (fun n f => (n + g f)%nat) l n = (n + fold_right (fun f m => g f + m) 0 l)%nat.
Proof. induction l as [|f l IH]; intros n; cbn; [lia|]. rewrite IH. lia. Qed.
Lemma fold_cols {K F} (ops : F -> list (@op K)) (g : F -> nat) b l : (forall f, g f = length (cols b (ops f))) ->
  fold_left (fun n f => (n + g f)%nat) l 0%nat = length (cols b (flat_map ops l)).
Proof.
  intros H. rewrite fold_add. cbn [plus]. induction l as [|f l IH]; [reflexivity|]. cbn [fold_right flat_map]. rewrite cols_app, app_length, IH, H. reflexivity.
Qed.
Lemma for_each_ops {K F} (dec : forall x y : K, {x = y} + {x <> y}) (ops : F -> list (@op K)) (body : F -> slots K -> option (slots K)) l :
  (forall f s, body f s = for_each (ops f) (do_op dec) s) -> forall s, for_each l body s = for_each (flat_map ops l) (do_op dec) s.
Proof.
  intros H. induction l as [|f l IH]; intros s; [reflexivity|]. cbn [for_each flat_map]. rewrite H, for_each_app. destruct (for_each (ops f) (do_op dec) s); [apply IH|reflexivity].
Qed.
Lemma obind_some {A} (x : option A) : obind x (fun s => Some s) = x.
Proof. destruct x; reflexivity. Qed.
Lemma nodup_app {A} (l l' : list A) : NoDup l -> NoDup l' -> (forall x, In x l -> ~ In x l') -> NoDup (l ++ l').
Proof.
  intros H H' Hd. induction H as [|x l Hx _ IH]; [exact H'|]. cbn. constructor.
  - intros Hin. apply in_app_or in Hin. destruct Hin as [Hin|Hin]; [contradiction|]. apply (Hd x); [left; reflexivity|exact Hin].
  - apply IH. intros y Hy. apply Hd. right. exact Hy.
Qed.
Lemma nodup_flat {A B} (g : A -> list B) l : NoDup l -> (forall x, NoDup (g x)) -> (forall x y b, In b (g x) -> In b (g y) -> x = y) -> NoDup (flat_map g l).
Proof.
  intros Hl Hg Hd. induction l as [|x l IH]; [constructor|]. inversion Hl; subst. cbn. apply nodup_app; [apply Hg|apply IH; assumption|].
  intros b Hb Hin. apply in_flat_map in Hin. destruct Hin as (y & Hy & Hb'). rewrite (Hd x y b Hb Hb') in H1. contradiction.
Qed.
Lemma cols_flat {K F C} (ops : F -> list (@op K)) (show : F -> list C) (g : K * string -> C) b l :
  (forall f, show f = map g (cols b (ops f))) -> flat_map show l = map g (cols b (flat_map ops l)).
Proof.
  intros H. induction l as [|f l IH]; [reflexivity|]. cbn [flat_map]. rewrite cols_app, map_app, IH, H. reflexivity.
Qed.

Section Nodes.
Variables (nn dims : nat) (dt : R) (X : nodev) (fs : list nfield) (sched : nfield -> list nat).
Definition nops (f : nfield) : list (@op nid) :=
  match f with
  | NMass => [(false, IMass, "node_mass"%string)] | NTemp => [(false, ITemp, "node_temp"%string)] | NCoords => [(true, ICoord, "node_coords"%string)]
  | NVel => [(true, IVel, "node_vel"%string); (true, IAccel, "node_accel"%string)] | NGrad => [(true, IGrad, "node_grad_lvlset"%string)] | NForce => []
  end.
Definition nvec (i : nid) : nat -> nat -> R :=
  flat dims (match i with ICoord => n_x X | IVel => n_v X | IAccel => fun n d => (n_v X n d - n_v0 X n d) / dt | IGrad => n_grad X | _ => fun _ _ => 0 end).
Definition nsca (i : nid) : nat -> R := match i with IMass => n_mass X | ITemp => n_temp X | _ => fun _ => 0 end.
Definition nval (b : bool) (i : nid) (c : nat) : R := if b then nvec i (c / 3) (c mod 3) else nsca i c.
Definition nwidth (b : bool) : nat := if b then (nn * 3)%nat else nn.
Definition ngood (b : bool) (i : nid) (c : nat) : Prop := (c < nwidth b)%nat /\ (b = true -> i = ICoord -> dims = 2%nat \/ (c mod 3 < 2)%nat).
Definition nwr (b : bool) (slot : nid -> nat) (f : nfield) : list (write R) :=
  match f, b with
  | NMass, false => map (fun n => (slot IMass, n, n_mass X n)) (sched f)
  | NTemp, false => map (fun n => (slot ITemp, n, n_temp X n)) (sched f)
  | NCoords, true => flat_map (fun n => coord3 dims (slot ICoord) n (n_x X n)) (sched f)
  | NVel, true => flat_map (fun n => vec3 dims (slot IVel) n (n_v X n) ++ vec3 dims (slot IAccel) n (fun d => (n_v X n d - n_v0 X n d) / dt))%list (sched f)
  | NGrad, true => flat_map (fun n => vec3 dims (slot IGrad) n (n_grad X n)) (sched f)
  | _, _ => []
  end.
Hypothesis Hfs : NoDup fs.
Hypothesis Hdims : dims = 2%nat \/ dims = 3%nat.
Hypothesis Hsched : loop_sched nn sched.
Hypothesis Hdt : In NVel fs -> dt <> 0.
Hypothesis Hsmall : In NCoords fs -> dims = 2%nat \/ (num_node_vectors fs <= nn)%nat.

Lemma in_sched f n : In n (sched f) <-> (n < nn)%nat.
Proof. split; [intros H; apply (Permutation_in _ (Hsched f)), in_seq in H; lia|intros H; apply (Permutation_in _ (Permutation_sym (Hsched f))), in_seq; lia]. Qed.

Lemma in_vec3 k n v r c x : In (r, c, x) (vec3 dims k n v) <-> r = k /\ exists d, (d < 3)%nat /\ c = (n * 3 + d)%nat /\ x = flat dims (fun _ => v) n d.
Proof.
  unfold vec3, flat. split.
  - intros [H|[H|[H|[]]]]; injection H as <- <- <-; (split; [reflexivity|]).
    + exists 0%nat. destruct Hdims as [->| ->]; cbn; repeat split; lia.
    + exists 1%nat. destruct Hdims as [->| ->]; cbn; repeat split; lia.
    + exists 2%nat. destruct Hdims as [->| ->]; cbn; repeat split; lia.
  - intros (-> & d & Hd & -> & ->). destruct d as [|[|[|d]]]; [| | |lia]; destruct Hdims as [->| ->]; cbn [Nat.ltb Nat.leb Nat.eqb]; rewrite ?Nat.add_0_r; cbn [In]; auto.
Qed.
Lemma in_coord3 k n v r c x : In (r, c, x) (coord3 dims k n v) ->
  r = k /\ ((exists d, (d < 3)%nat /\ (dims = 2%nat \/ (d < 2)%nat) /\ c = (n * 3 + d)%nat /\ x = flat dims (fun _ => v) n d) \/ (dims = 3%nat /\ c = (k * 3 + 2)%nat /\ x = v 2%nat)).
Proof.
  unfold coord3, flat. intros [H|[H|[H|[]]]].
  - injection H as <- <- <-. split; [reflexivity|left]. exists 0%nat. destruct Hdims as [->| ->]; cbn; repeat split; auto; lia.
  - injection H as <- <- <-. split; [reflexivity|left]. exists 1%nat. destruct Hdims as [->| ->]; cbn; repeat split; auto; lia.
  - destruct Hdims as [->| ->]; cbn in H; injection H as <- <- <-; (split; [reflexivity|]); [left|right; auto]. exists 2%nat. cbn; repeat split; auto; lia.
Qed.
Lemma coord3_in k n v d : (d < 3)%nat -> dims = 2%nat \/ (d < 2)%nat -> In (k, (n * 3 + d)%nat, flat dims (fun _ => v) n d) (coord3 dims k n v).
Proof.
  intros Hd Hg. unfold coord3, flat. destruct d as [|[|[|d]]]; [| | |lia].
  - rewrite Nat.add_0_r. left. destruct Hdims as [->| ->]; reflexivity.
  - right; left. destruct Hdims as [->| ->]; reflexivity.
  - right; right; left. destruct Hg as [->|]; [reflexivity|lia].
Qed.
Lemma div3 n d : (d < 3)%nat -> ((n * 3 + d) / 3 = n /\ (n * 3 + d) mod 3 = d)%nat.
Proof. intros H. split; [rewrite (Nat.add_comm (n * 3)), Nat.div_add, Nat.div_small by lia; lia|rewrite (Nat.add_comm (n * 3)), Nat.mod_add, Nat.mod_small by lia; lia]. Qed.
Lemma split3 c : exists n d, (d < 3)%nat /\ c = (n * 3 + d)%nat.
Proof. exists (c / 3)%nat, (c mod 3)%nat. pose proof (Nat.mod_upper_bound c 3 ltac:(lia)). pose proof (Nat.div_mod c 3 ltac:(lia)). split; lia. Qed.

Lemma node_slot_ops f s : node_slot f s = for_each (nops f) (do_op nid_dec) s.
Proof. destruct f; cbn [node_slot nops for_each do_op fst snd]; rewrite ?obind_some; try reflexivity. destruct (tensor_slot nid_dec IVel "node_vel" s); cbn [obind]; rewrite ?obind_some; reflexivity. Qed.

Lemma nops_keys : NoDup (map (fun o : @op nid => snd (fst o)) (all nops fs)).
Proof.
  unfold all. rewrite flat_map_concat_map, concat_map, map_map, <- flat_map_concat_map. apply nodup_flat; [exact Hfs| |].
  - intros []; cbn; repeat constructor; cbn; intuition discriminate.
  - intros [] []; cbn; try reflexivity; intros b Ha Hb; intuition congruence.
Qed.
Lemma nscalars_len : num_node_scalars fs = nrows nops fs false.
Proof. unfold num_node_scalars, nrows, all. apply fold_cols. intros []; reflexivity. Qed.
Lemma nvectors_len : num_node_vectors fs = nrows nops fs true.
Proof. unfold num_node_vectors, nrows, all. apply fold_cols. intros []; reflexivity. Qed.

Lemma for_each_writes1 (order : list nat) (W : nat -> list (write R)) a : for_each order (fun n v => do_writes (W n) v) a = do_writes (flat_map W order) a.
Proof. unfold do_writes. apply for_each_flat. intros; reflexivity. Qed.
Lemma for_each_writes2 (order : list nat) k (v : nat -> R) a : for_each order (fun n s => aset s k n (v n)) a = do_writes (map (fun n => (k, n, v n)) order) a.
Proof.
  revert a. induction order as [|n l IH]; intros a; [reflexivity|]. cbn [for_each map]. unfold do_writes; cbn [for_each]. destruct (aset a k n (v n)); [apply IH|reflexivity].
Qed.

Lemma put_node_writes sl f s t : In f fs -> (forall b i nm, In (b, i, nm) (nops f) -> sl_id sl i <> None) ->
  put_node dims dt X sl (sched f) f (s, t) =
  obind (do_writes (nwr false (slot sl) f) s) (fun s => obind (do_writes (nwr true (slot sl) f) t) (fun t => Some (s, t))).
Proof.
  intros Hf Hid. unfold slot. destruct f; cbn [put_node nwr fst snd].
  - specialize (Hid true ICoord _ (or_introl eq_refl)). destruct (sl_id sl ICoord) as [k|]; [|congruence]. cbn [obind]. rewrite for_each_writes1. reflexivity.
  - pose proof (Hid true IVel _ (or_introl eq_refl)) as H1. pose proof (Hid true IAccel _ (or_intror (or_introl eq_refl))) as H2.
    destruct (sl_id sl IVel) as [k|]; [|congruence]. destruct (sl_id sl IAccel) as [ka|]; [|congruence]. cbn [obind].
    destruct (Req_EM_T dt 0) as [Hz|_]; [exfalso; exact (Hdt Hf Hz)|]. rewrite for_each_writes1. reflexivity.
  - specialize (Hid false ITemp _ (or_introl eq_refl)). destruct (sl_id sl ITemp) as [k|]; [|congruence]. cbn [obind]. rewrite for_each_writes2. reflexivity.
  - specialize (Hid false IMass _ (or_introl eq_refl)). destruct (sl_id sl IMass) as [k|]; [|congruence]. cbn [obind]. rewrite for_each_writes2. reflexivity.
  - reflexivity.
  - specialize (Hid true IGrad _ (or_introl eq_refl)). destruct (sl_id sl IGrad) as [k|]; [|congruence]. cbn [obind]. rewrite for_each_writes1. reflexivity.
Qed.

Lemma nwr_range b sl f r c v : In f fs -> (forall i nm, In (b, i, nm) (nops f) -> (slot sl i < nrows nops fs b)%nat) ->
  In (r, c, v) (nwr b (slot sl) f) -> (exists i nm, In (b, i, nm) (nops f) /\ r = slot sl i) /\ (c < nwidth b)%nat.
Proof.
  intros Hf Hlt Hin. destruct f, b; cbn [nwr nops nwidth] in *; try contradiction.
  - apply in_flat_map in Hin. destruct Hin as (n & Hn & Hin). apply in_sched in Hn. apply in_coord3 in Hin. destruct Hin as (-> & Hc). split; [do 2 eexists; split; [left; reflexivity|reflexivity]|].
    destruct Hc as [(d & Hd & _ & -> & _)|(H3 & -> & _)]; [lia|]. pose proof (Hlt ICoord _ (or_introl eq_refl)) as Hk. destruct (Hsmall Hf) as [|Hs]; [lia|]. rewrite nvectors_len in Hs. lia.
  - apply in_flat_map in Hin. destruct Hin as (n & Hn & Hin). apply in_sched in Hn. apply in_app_or in Hin. destruct Hin as [Hin|Hin]; apply in_vec3 in Hin; destruct Hin as (-> & d & Hd & -> & _);
      (split; [do 2 eexists; split; [|reflexivity]|lia]); [left; reflexivity|right; left; reflexivity].
  - apply in_map_iff in Hin. destruct Hin as (n & Heq & Hn). apply in_sched in Hn. injection Heq as <- <- _. split; [do 2 eexists; split; [left; reflexivity|reflexivity]|exact Hn].
  - apply in_map_iff in Hin. destruct Hin as (n & Heq & Hn). apply in_sched in Hn. injection Heq as <- <- _. split; [do 2 eexists; split; [left; reflexivity|reflexivity]|exact Hn].
  - apply in_flat_map in Hin. destruct Hin as (n & Hn & Hin). apply in_sched in Hn. apply in_vec3 in Hin. destruct Hin as (-> & d & Hd & -> & _). split; [do 2 eexists; split; [left; reflexivity|reflexivity]|lia].
Qed.

Lemma flat_const g n d : flat dims (fun _ => g n) n d = flat dims g n d.
Proof. reflexivity. Qed.

Lemma nwr_good b sl f i nm c : In f fs -> In (b, i, nm) (nops f) -> ngood b i c ->
  (forall i' nm', In (b, i', nm') (nops f) -> slot sl i' = slot sl i -> i' = i) ->
  In (slot sl i, c, nval b i c) (nwr b (slot sl) f) /\ forall v, In (slot sl i, c, v) (nwr b (slot sl) f) -> v = nval b i c.
Proof.
  intros Hf Hin (Hc & Hg) Hinj. destruct f, b; cbn [nwr nops nwidth] in *; try (exfalso; cbn in Hin; intuition discriminate).
  - destruct Hin as [Heq|[]]. injection Heq as <- _. specialize (Hg eq_refl eq_refl). destruct (split3 c) as (n & d & Hd & ->). unfold nval, nvec. destruct (div3 n d Hd) as [-> Hmod]. rewrite Hmod in *.
    split; [apply in_flat_map; exists n; split; [apply in_sched; lia|apply (coord3_in _ n (n_x X n) d Hd Hg)]|].
    intros v Hv. apply in_flat_map in Hv. destruct Hv as (n' & Hn' & Hv). apply in_coord3 in Hv. destruct Hv as (_ & [(d' & Hd' & _ & Heq & ->)|(H3 & Heq & _)]).
    + assert (n' = n /\ d' = d) as [-> ->] by lia. apply flat_const.
    + lia.
  - destruct (split3 c) as (n & d & Hd & ->). unfold nval. destruct (div3 n d Hd) as [-> ->].
    destruct Hin as [Heq|[Heq|[]]]; injection Heq as <- _; (split; [apply in_flat_map; exists n; (split; [apply in_sched; lia|]); apply in_or_app|]).
    + left. apply in_vec3. split; [reflexivity|]. exists d. auto.
    + intros v Hv. apply in_flat_map in Hv. destruct Hv as (n' & Hn' & Hv). apply in_app_or in Hv. destruct Hv as [Hv|Hv]; apply in_vec3 in Hv; destruct Hv as (Hs & d' & Hd' & Heq & ->).
      * assert (n' = n /\ d' = d) as [-> ->] by lia. reflexivity.
      * symmetry in Hs. exfalso. specialize (Hinj IAccel _ (or_intror (or_introl eq_refl)) Hs). discriminate.
    + right. apply in_vec3. split; [reflexivity|]. exists d. auto.
    + intros v Hv. apply in_flat_map in Hv. destruct Hv as (n' & Hn' & Hv). apply in_app_or in Hv. destruct Hv as [Hv|Hv]; apply in_vec3 in Hv; destruct Hv as (Hs & d' & Hd' & Heq & ->).
      * symmetry in Hs. exfalso. specialize (Hinj IVel _ (or_introl eq_refl) Hs). discriminate.
      * assert (n' = n /\ d' = d) as [-> ->] by lia. reflexivity.
  - destruct Hin as [Heq|[]]. injection Heq as <- _. split; [apply in_map_iff; exists c; split; [reflexivity|apply in_sched; exact Hc]|].
    intros v Hv. apply in_map_iff in Hv. destruct Hv as (n & Heq & _). injection Heq as -> <-. reflexivity.
  - destruct Hin as [Heq|[]]. injection Heq as <- _. split; [apply in_map_iff; exists c; split; [reflexivity|apply in_sched; exact Hc]|].
    intros v Hv. apply in_map_iff in Hv. destruct Hv as (n & Heq & _). injection Heq as -> <-. reflexivity.
  - destruct Hin as [Heq|[]]. injection Heq as <- _. destruct (split3 c) as (n & d & Hd & ->). unfold nval. destruct (div3 n d Hd) as [-> ->].
    split; [apply in_flat_map; exists n; split; [apply in_sched; lia|apply in_vec3; split; [reflexivity|]; exists d; auto]|].
    intros v Hv. apply in_flat_map in Hv. destruct Hv as (n' & Hn' & Hv). apply in_vec3 in Hv. destruct Hv as (_ & d' & Hd' & Heq & ->). assert (n' = n /\ d' = d) as [-> ->] by lia. reflexivity.
Qed.

Lemma node_fields_spec : exists o, node_fields nn dims dt X fs sched = Some o /\
  shows_scalars (nf_names o) (nf_scalars o) nn (flat_map (node_scalar X) fs) /\
  nrow (nf_vnames o) = length (flat_map (node_vector dims dt X) fs) /\ nrow (nf_vectors o) = length (flat_map (node_vector dims dt X) fs) /\
  forall k name v, nth_error (flat_map (node_vector dims dt X) fs) k = Some (name, v) -> aget (nf_vnames o) k 0 = Some name /\
    (forall n d, (n < nn)%nat -> (d < 3)%nat -> name <> "node_coords"%string \/ dims = 2%nat \/ (d < 2)%nat -> aget (nf_vectors o) k (n * 3 + d) = Some (v n d)) /\
    (name = "node_coords"%string -> dims = 3%nat -> forall n, n <> k -> aget (nf_vectors o) k (n * 3 + 2) = None).
Proof.
  destruct (columns_spec nid_dec nops fs nwidth nwr nval ngood (fun sl f => put_node dims dt X sl (sched f) f) nops_keys) as (sl & s & t & E1 & E2 & Hrows & Hk).
  { intros sl f s t. apply put_node_writes. } { apply nwr_range. } { apply nwr_good. }
  exists (mkNfields (sl_names sl) (sl_tnames sl) s t). split.
  { unfold node_fields, node_slots. rewrite (for_each_ops nid_dec nops node_slot fs node_slot_ops). fold (all nops fs). rewrite nscalars_len, nvectors_len, E1. cbn [obind]. cbn [nwidth] in E2. rewrite E2. reflexivity. }
  cbn [nf_names nf_vnames nf_scalars nf_vectors].
  rewrite (cols_flat nops (node_scalar X) (fun p => (snd p, nsca (fst p))) false) by (intros []; reflexivity).
  rewrite (cols_flat nops (node_vector dims dt X) (fun p => (snd p, nvec (fst p))) true) by (intros []; reflexivity).
  unfold shows_scalars. rewrite !map_length. fold (all nops fs). destruct (Hrows false) as [R1 R2]. destruct (Hrows true) as [R3 R4]. cbn [names_of sel fst snd] in R1, R2, R3, R4.
  split. { split; [exact R1|]. split; [exact R2|]. intros k name v Hn. rewrite nth_error_map in Hn. destruct (nth_error (cols false (all nops fs)) k) as [[i nm]|] eqn:En; [|discriminate]. injection Hn as <- <-.
    destruct (Hk false k i nm En) as (Ha & _ & Hv & _). split; [exact Ha|]. intros e He. apply (Hv e); [exact He|]. split; [exact He|discriminate]. }
  split; [exact R3|]. split; [exact R4|]. intros k name v Hn. rewrite nth_error_map in Hn. destruct (nth_error (cols true (all nops fs)) k) as [[i nm]|] eqn:En; [|discriminate]. injection Hn as <- <-.
  destruct (Hk true k i nm En) as (Ha & Hs & Hv & Hno). split; [exact Ha|].
  assert (Hi : In (true, i, nm) (all nops fs)) by (apply in_cols; eapply nth_error_In; exact En). apply in_flat_map in Hi. destruct Hi as (f & Hf & Hi).
  split.
  - intros n d Hn Hd Hok. specialize (Hv (n * 3 + d)%nat). cbn [sel snd nwidth] in Hv. unfold nval in Hv. destruct (div3 n d Hd) as [E3 E4]. rewrite E3, E4 in Hv. apply Hv; [lia|]. split; [cbn; lia|].
    intros _ ->. rewrite E4. destruct Hok as [Hne|Hok]; [|exact Hok]. exfalso. apply Hne. destruct f; cbn in Hi; intuition congruence.
  - cbn [fst snd]. intros -> H3 n Hne. apply Hno. intros f' v Hf' Hi' Hin. destruct f'; cbn [nops] in Hi'; cbn in Hi'; try (exfalso; intuition discriminate). destruct Hi' as [Heq|[]]. injection Heq as <-.
    cbn [nwr] in Hin. rewrite Hs in Hin. apply in_flat_map in Hin. destruct Hin as (n' & _ & Hin). apply in_coord3 in Hin. destruct Hin as (_ & [(d & Hd & Hg & Heq & _)|(_ & Heq & _)]); lia.
Qed.
End Nodes.

(** *** The elements of one material *)
Section Mats.
Variables (nme : nat) (Q : nat -> mpoint) (fs : list mfield) (sched : mfield -> list nat).
Definition mops (f : mfield) : list (@op mid) :=
  match f with
  | Elem Den => [(false, MDen, "mat_den"%string)] | Elem Pres => [(false, MPres, "mat_pres"%string)] | Elem Sie => [(false, MSie, "mat_sie"%string)]
  | Elem Sspd => [(false, MSspd, "mat_sspd"%string)] | Elem Mass => [(false, MMass, "mat_mass"%string)]
  | Volfrac => [(false, MVolfrac, "mat_volfrac"%string); (false, MGeo, "mat_geo_volfrac"%string)] | Eroded => [(false, MEroded, "mat_eroded"%string)]
  | Elem Stress => [(true, MStress, "mat_stress"%string)]
  end.
Definition msca (i : mid) (s : nat) : R :=
  match i with
  | MDen => q_den (Q s) | MPres => q_pres (Q s) | MSie => q_sie (Q s) | MSspd => q_sspd (Q s) | MMass => q_mass (Q s)
  | MVolfrac => q_vf (Q s) | MGeo => q_gvf (Q s) | MEroded => if q_eroded (Q s) then 1 else 0 | MStress => 0
  end.
Definition mval (b : bool) (i : mid) (c : nat) : R := if b then q_stress (Q (c / 9)) (c mod 9 / 3) (c mod 9 mod 3) else msca i c.
Definition mwidth (b : bool) : nat := if b then (nme * 9)%nat else nme.
Definition mwr (b : bool) (slot : mid -> nat) (f : mfield) : list (write R) :=
  match f, b with
  | Elem Stress, true => flat_map (fun s => map (fun ij => (slot MStress, (s * 9 + 3 * fst ij + snd ij)%nat, q_stress (Q s) (fst ij) (snd ij))) nine) (sched f)
  | _, false => flat_map (fun o => map (fun s => (slot (snd (fst o)), s, msca (snd (fst o)) s)) (sched f)) (filter (fun o => negb (fst (fst o))) (mops f))
  | _, _ => []
  end.
Hypothesis Hfs : NoDup fs.
Hypothesis Hsched : loop_sched nme sched.

Lemma in_msched f n : In n (sched f) <-> (n < nme)%nat.
Proof. split; [intros H; apply (Permutation_in _ (Hsched f)), in_seq in H; lia|intros H; apply (Permutation_in _ (Permutation_sym (Hsched f))), in_seq; lia]. Qed.

Lemma split9 c : exists n i j, (i < 3)%nat /\ (j < 3)%nat /\ c = (n * 9 + 3 * i + j)%nat.
Proof.
  exists (c / 9)%nat, (c mod 9 / 3)%nat, (c mod 9 mod 3)%nat. pose proof (Nat.mod_upper_bound c 9 ltac:(lia)). pose proof (Nat.div_mod c 9 ltac:(lia)).
  pose proof (Nat.mod_upper_bound (c mod 9) 3 ltac:(lia)). pose proof (Nat.div_mod (c mod 9) 3 ltac:(lia)). repeat split; lia.
Qed.
Lemma div9 n i j : (i < 3)%nat -> (j < 3)%nat -> ((n * 9 + 3 * i + j) / 9 = n /\ (n * 9 + 3 * i + j) mod 9 / 3 = i /\ (n * 9 + 3 * i + j) mod 9 mod 3 = j)%nat.
Proof.
  intros Hi Hj. replace (n * 9 + 3 * i + j)%nat with (3 * i + j + n * 9)%nat by lia. rewrite Nat.div_add, Nat.mod_add, Nat.div_small, Nat.mod_small by lia.
  replace (3 * i + j)%nat with (j + i * 3)%nat by lia. rewrite Nat.div_add, Nat.mod_add, Nat.div_small, Nat.mod_small by lia. lia.
Qed.

Lemma mat_slot_ops f s : mat_slot f s = for_each (mops f) (do_op mid_dec) s.
Proof.
  destruct f as [f| |]; [destruct f| |]; cbn [mat_slot mops for_each do_op fst snd]; rewrite ?obind_some; try reflexivity.
  destruct (scalar_slot mid_dec MVolfrac "mat_volfrac" s); cbn [obind]; rewrite ?obind_some; reflexivity.
Qed.
Lemma mops_keys : NoDup (map (fun o : @op mid => snd (fst o)) (all mops fs)).
Proof.
  unfold all. rewrite flat_map_concat_map, concat_map, map_map, <- flat_map_concat_map. apply nodup_flat; [exact Hfs| |].
  - intros [[]| |]; cbn; repeat constructor; cbn; intuition discriminate.
  - intros [[]| |] [[]| |]; cbn; try reflexivity; intros b Ha Hb; intuition congruence.
Qed.
Lemma mscalars_len : num_mat_scalars fs = nrows mops fs false.
Proof. unfold num_mat_scalars, nrows, all. apply fold_cols. intros [[]| |]; reflexivity. Qed.
Lemma mtensors_len : num_mat_tensors fs = nrows mops fs true.
Proof. unfold num_mat_tensors, nrows, all. apply fold_cols. intros [[]| |]; reflexivity. Qed.

Lemma put_scalar_writes order k v a : put_scalar order k v a = do_writes (map (fun n => (k, n, v n)) order) a.
Proof. apply for_each_writes2. Qed.
Lemma nine_writes order k (v : nat -> nat -> nat -> R) a :
  for_each order (fun sid t => for_each nine (fun '(i, j) t => aset t k (sid * 9 + 3 * i + j) (v sid i j)) t) a =
  do_writes (flat_map (fun s => map (fun ij => (k, (s * 9 + 3 * fst ij + snd ij)%nat, v s (fst ij) (snd ij))) nine) order) a.
Proof. unfold do_writes. apply for_each_flat. intros s t _. reflexivity. Qed.

Lemma put_mat_writes sl f s t : In f fs -> (forall b i nm, In (b, i, nm) (mops f) -> sl_id sl i <> None) ->
  put_mat Q sl (sched f) f (s, t) =
  obind (do_writes (mwr false (slot sl) f) s) (fun s => obind (do_writes (mwr true (slot sl) f) t) (fun t => Some (s, t))).
Proof.
  intros Hf Hid. unfold slot. destruct f as [[]| |]; cbn [put_mat mwr mops filter fst snd negb flat_map]; rewrite ?app_nil_r.
  - pose proof (Hid false MDen _ (or_introl eq_refl)) as H1. destruct (sl_id sl MDen) as [k|]; [|congruence]. cbn [obind]. rewrite put_scalar_writes. reflexivity.
  - pose proof (Hid false MPres _ (or_introl eq_refl)) as H1. destruct (sl_id sl MPres) as [k|]; [|congruence]. cbn [obind]. rewrite put_scalar_writes. reflexivity.
  - pose proof (Hid true MStress _ (or_introl eq_refl)) as H1. destruct (sl_id sl MStress) as [k|]; [|congruence]. cbn [obind]. rewrite nine_writes. reflexivity.
  - pose proof (Hid false MSie _ (or_introl eq_refl)) as H1. destruct (sl_id sl MSie) as [k|]; [|congruence]. cbn [obind]. rewrite put_scalar_writes. reflexivity.
  - pose proof (Hid false MSspd _ (or_introl eq_refl)) as H1. destruct (sl_id sl MSspd) as [k|]; [|congruence]. cbn [obind]. rewrite put_scalar_writes. reflexivity.
  - pose proof (Hid false MMass _ (or_introl eq_refl)) as H1. destruct (sl_id sl MMass) as [k|]; [|congruence]. cbn [obind]. rewrite put_scalar_writes. reflexivity.
  - pose proof (Hid false MVolfrac _ (or_introl eq_refl)) as H1. pose proof (Hid false MGeo _ (or_intror (or_introl eq_refl))) as H2.
    destruct (sl_id sl MVolfrac) as [k|]; [|congruence]. destruct (sl_id sl MGeo) as [kg|]; [|congruence]. cbn [obind]. rewrite do_writes_app, put_scalar_writes.
    change (msca MVolfrac) with (fun sid => q_vf (Q sid)). cbn [msca].
    destruct (do_writes _ s) as [s1|]; [|reflexivity]. cbn [obind]. rewrite put_scalar_writes. reflexivity.
  - pose proof (Hid false MEroded _ (or_introl eq_refl)) as H1. destruct (sl_id sl MEroded) as [k|]; [|congruence]. cbn [obind]. rewrite put_scalar_writes. reflexivity.
Qed.

Lemma mwr_scalar slot f r c v : In (r, c, v) (mwr false slot f) <-> exists i nm, In (false, i, nm) (mops f) /\ r = slot i /\ (c < nme)%nat /\ v = msca i c.
Proof.
  assert (H : mwr false slot f = flat_map (fun o => map (fun s => (slot (snd (fst o)), s, msca (snd (fst o)) s)) (sched f)) (filter (fun o => negb (fst (fst o))) (mops f))) by (destruct f as [[]| |]; reflexivity).
  rewrite H, in_flat_map. split.
  - intros ([[b i] nm] & Ho & Hin). apply filter_In in Ho. destruct Ho as [Ho Hb]. destruct b; [discriminate|]. apply in_map_iff in Hin. destruct Hin as (s & Heq & Hs). apply in_msched in Hs.
    cbn [fst snd] in Heq. injection Heq as <- <- <-. exists i, nm. auto.
  - intros (i & nm & Ho & -> & Hc & ->). exists (false, i, nm). split; [apply filter_In; auto|]. apply in_map_iff. exists c. split; [reflexivity|]. apply in_msched. exact Hc.
Qed.
Lemma mwr_tensor slot f r c v : In (r, c, v) (mwr true slot f) <-> exists nm, In (true, MStress, nm) (mops f) /\ r = slot MStress /\ (c < nme * 9)%nat /\ v = mval true MStress c.
Proof.
  split.
  - intros Hin. destruct f as [[]| |]; cbn [mwr] in Hin; try contradiction. apply in_flat_map in Hin. destruct Hin as (s & Hs & Hin). apply in_msched in Hs. apply in_map_iff in Hin.
    destruct Hin as ([i j] & Heq & Hij). apply in_nine in Hij. cbn [fst snd] in Heq. injection Heq as <- <- <-. eexists. split; [left; reflexivity|]. split; [reflexivity|].
    unfold mval. change (i + (i + (i + 0)))%nat with (3 * i)%nat. destruct (div9 s i j (proj1 Hij) (proj2 Hij)) as (-> & -> & ->). split; [lia|reflexivity].
  - intros (nm & Ho & -> & Hc & ->). destruct f as [[]| |]; cbn in Ho; try (exfalso; intuition discriminate). cbn [mwr]. destruct (split9 c) as (n & i & j & Hi & Hj & ->).
    apply in_flat_map. exists n. split; [apply in_msched; lia|]. apply in_map_iff. exists (i, j). cbn [fst snd]. unfold mval. destruct (div9 n i j Hi Hj) as (-> & -> & ->). split; [reflexivity|]. apply in_nine. auto.
Qed.

Lemma mops_true f i nm : In (true, i, nm) (mops f) -> i = MStress.
Proof. destruct f as [[]| |]; cbn; intuition congruence. Qed.
Lemma mat_fields_spec : exists o, mat_fields nme Q fs sched = Some o /\
  shows_scalars (mf_names o) (mf_scalars o) nme (flat_map (mat_scalar Q) fs) /\ shows_tensors (mf_tnames o) (mf_tensors o) nme (flat_map (mat_tensor Q) fs).
Proof.
  destruct (columns_spec mid_dec mops fs mwidth mwr mval (fun b _ c => (c < mwidth b)%nat) (fun sl f => put_mat Q sl (sched f) f) mops_keys) as (sl & s & t & E1 & E2 & Hrows & Hk).
  { intros sl f s t. apply put_mat_writes. }
  { intros [] sl f r c v Hf _ Hin; [apply mwr_tensor in Hin; destruct Hin as (nm & Ho & -> & Hc & _)|apply mwr_scalar in Hin; destruct Hin as (i & nm & Ho & -> & Hc & _)]; (split; [eauto|exact Hc]). }
  { intros [] sl f i nm c Hf Ho Hc Hinj.
    - pose proof (mops_true _ _ _ Ho); subst i. split; [apply (proj2 (mwr_tensor _ _ _ _ _)); exists nm; auto|]. intros v Hv. apply mwr_tensor in Hv. destruct Hv as (_ & _ & _ & _ & Hv). exact Hv.
    - split; [apply mwr_scalar; exists i, nm; auto|]. intros v Hv. apply mwr_scalar in Hv. destruct Hv as (i' & nm' & Ho' & Hs & _ & ->). rewrite (Hinj i' nm' Ho' (eq_sym Hs)). reflexivity. }
  exists (mkMfields (sl_names sl) (sl_tnames sl) s t). split.
  { unfold mat_fields, mat_slots. rewrite (for_each_ops mid_dec mops mat_slot fs mat_slot_ops). fold (all mops fs). rewrite mscalars_len, mtensors_len, E1. cbn [obind]. cbn [mwidth] in E2. rewrite E2. reflexivity. }
  cbn [mf_names mf_tnames mf_scalars mf_tensors].
  rewrite (cols_flat mops (mat_scalar Q) (fun p => (snd p, msca (fst p))) false) by (intros [[]| |]; reflexivity).
  rewrite (cols_flat mops (mat_tensor Q) (fun p => (snd p, fun s => q_stress (Q s))) true) by (intros [[]| |]; reflexivity).
  unfold shows_scalars, shows_tensors. rewrite !map_length. fold (all mops fs). destruct (Hrows false) as [R1 R2]. destruct (Hrows true) as [R3 R4]. cbn [names_of sel fst snd] in R1, R2, R3, R4.
  split.
  - split; [exact R1|]. split; [exact R2|]. intros k name v Hn. rewrite nth_error_map in Hn. destruct (nth_error (cols false (all mops fs)) k) as [[i nm]|] eqn:En; [|discriminate]. injection Hn as <- <-.
    destruct (Hk false k i nm En) as (Ha & _ & Hv & _). split; [exact Ha|]. intros e He. apply (Hv e); exact He.
  - split; [exact R3|]. split; [exact R4|]. intros k name v Hn. rewrite nth_error_map in Hn. destruct (nth_error (cols true (all mops fs)) k) as [[i nm]|] eqn:En; [|discriminate]. injection Hn as <- <-.
    destruct (Hk true k i nm En) as (Ha & _ & Hv & _). split; [exact Ha|]. intros e i' j' He Hi Hj. specialize (Hv (e * 9 + 3 * i' + j')%nat). cbn [sel snd mwidth] in Hv. unfold mval in Hv.
    destruct (div9 e i' j' Hi Hj) as (D1 & D2 & D3). rewrite D1, D2, D3 in Hv. apply Hv; lia.
Qed.
End Mats.
