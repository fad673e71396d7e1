(** The loops of the solver under any schedule. *)
From Coq Require Import Reals Lra Permutation.
From Verif Require Import BaseReal BaseArr GeomModel SghModel SghSpec TimeModel TimeProofs FillModel ParModel ParSpec ParProofs.
Local Open Scope R_scope.

Section Foot.
Context {L : Type} (eq_dec : forall x y : L, {x = y} + {x <> y}).

(** ** What a thread may write and read *)
Fixpoint only (W Q : L -> Prop) (p : prog L) : Prop :=
  match p with
  | Done => True
  | Rd x k => Q x /\ forall v, only W Q (k v)
  | Wr x v p => W x /\ only W Q p
  end.

Lemma only_events W Q p : only W Q p -> forall m,
  (forall x v, In (Writes x v) (events eq_dec p m) -> W x) /\ (forall x, In (Reads x) (events eq_dec p m) -> Q x).
Proof.
  induction p as [|x k IH|x v p IH]; cbn [only events]; intros H m.
  - split; intros ? *; intros [].
  - destruct H as [H1 H2]. destruct (IH (m x) (H2 (m x)) m) as [A B]. split.
    + intros y v [E|E]; [discriminate|eauto].
    + intros y [E|E]; [injection E as ->; exact H1|auto].
  - destruct H as [H1 H2]. destruct (IH H2 (store eq_dec m x v)) as [A B]. split.
    + intros y u [E|E]; [injection E as -> ->; exact H1|eauto].
    + intros y [E|E]; [discriminate|auto].
Qed.

Lemma only_loop {A S} W Q (l : list A) (body : A -> S -> (S -> prog L) -> prog L) k :
  (forall a s k', In a l -> (forall s', only W Q (k' s')) -> only W Q (body a s k')) ->
  (forall s, only W Q (k s)) -> forall s, only W Q (loop l body s k).
Proof.
  intros Hb Hk. induction l as [|a l IH]; intros s; cbn [loop]; [apply Hk|]. apply Hb; [now left|]. apply IH. intros; apply Hb; [now right|assumption].
Qed.
Lemma only_each {A} W Q (l : list A) (body : A -> prog L -> prog L) k :
  (forall a k', In a l -> only W Q k' -> only W Q (body a k')) -> only W Q k -> only W Q (each l body k).
Proof. intros Hb Hk. unfold each. apply only_loop; [|intros _; exact Hk]. intros a [] k' Ha H. apply Hb; auto. Qed.

(** iterations whose writes are disjoint from everything the others do *)
Lemma disjoint_race_free (f : nat -> prog L) n W Q m :
  (forall i, (i < n)%nat -> only (W i) (Q i) (f i)) ->
  (forall i j x, (i < n)%nat -> (j < n)%nat -> i <> j -> W i x -> ~ Q j x /\ ~ W j x) ->
  race_free eq_dec (map f (seq 0 n)) m.
Proof.
  intros HO HD i j p q x v Hij Hp Hq Hx. rewrite nth_error_map in Hp, Hq.
  destruct (nth_error (seq 0 n) i) as [i'|] eqn:Ei; [|discriminate]. destruct (nth_error (seq 0 n) j) as [j'|] eqn:Ej; [|discriminate].
  assert (Hi : (i < n)%nat) by (rewrite <- (seq_length n 0); apply nth_error_Some; congruence).
  assert (Hj : (j < n)%nat) by (rewrite <- (seq_length n 0); apply nth_error_Some; congruence).
  apply (nth_error_nth _ _ O) in Ei. rewrite seq_nth in Ei by assumption. apply (nth_error_nth _ _ O) in Ej. rewrite seq_nth in Ej by assumption.
  cbn in Ei, Ej. subst i' j'. injection Hp as <-. injection Hq as <-.
  destruct (only_events _ _ _ (HO i Hi) m) as [Wi _]. destruct (only_events _ _ _ (HO j Hj) m) as [Wj Qj].
  destruct (HD i j x Hi Hj Hij (Wi x v Hx)) as [H1 H2]. split; [intros H; apply H1; auto|]. intros w Hw. exfalso. apply H2. eauto.
Qed.

(** ** Serial runs *)
Lemma solo_loop {A S} (l : list A) (body : A -> S -> (S -> prog L) -> prog L) (fs : A -> S -> (L -> R) -> S) (fm : A -> S -> (L -> R) -> (L -> R)) :
  (forall a s k m, In a l -> solo eq_dec (body a s k) m = solo eq_dec (k (fs a s m)) (fm a s m)) ->
  forall s m k, solo eq_dec (loop l body s k) m =
  let st := fold_left (fun st a => (fs a (fst st) (snd st), fm a (fst st) (snd st))) l (s, m) in solo eq_dec (k (fst st)) (snd st).
Proof.
  intros H. induction l as [|a l IH]; intros s m k; [reflexivity|]. cbn [loop fold_left fst snd]. rewrite H by now left.
  apply IH. intros; apply H; now right.
Qed.
Lemma solo_each {A} (l : list A) (body : A -> prog L -> prog L) (fm : A -> (L -> R) -> (L -> R)) k m :
  (forall a k m, In a l -> solo eq_dec (body a k) m = solo eq_dec k (fm a m)) ->
  solo eq_dec (each l body k) m = solo eq_dec k (fold_left (fun m a => fm a m) l m).
Proof.
  intros H. unfold each. rewrite (solo_loop l _ (fun _ _ _ => tt) (fun a _ m => fm a m)) by (intros; apply H; assumption).
  cbn zeta. f_equal. generalize tt. revert m. induction l as [|a l IH]; intros m u; [reflexivity|]. cbn [fold_left fst snd]. apply IH. intros; apply H; now right.
Qed.

Lemma fold_rel {A B C} (P : A -> B -> Prop) (f : A -> C -> A) (g : B -> C -> B) l :
  (forall a b c, In c l -> P a b -> P (f a c) (g b c)) -> forall a b, P a b -> P (fold_left f l a) (fold_left g l b).
Proof.
  intros H. induction l as [|c l IH]; intros a b Hab; cbn [fold_left]; [exact Hab|]. apply IH; [intros; apply H; [now right|assumption]|]. apply H; [now left|assumption].
Qed.

Lemma serial_map {A} (f : A -> prog L) l m : serial eq_dec (map f l) m = fold_left (fun m a => solo eq_dec (f a) m) l m.
Proof. unfold serial. revert m. induction l as [|a l IH]; intros m; [reflexivity|]. cbn [map fold_left]. apply IH. Qed.

(** any order of whole iterations is a schedule *)
Lemma exec_order (ps : list (prog L)) order : forall m,
  NoDup order -> (forall i, In i order -> (i < length ps)%nat) -> (forall i p, nth_error ps i = Some p -> p <> Done -> In i order) ->
  exec eq_dec ps m (fold_left (fun m i => solo eq_dec (nth i ps Done) m) order m).
Proof.
  revert ps. induction order as [|i order IH]; intros ps m ND HL H; cbn [fold_left].
  - constructor. apply Forall_forall. intros p Hp. apply In_nth_error in Hp as [i Hi].
    destruct p as [|x k|x v p]; [reflexivity|exfalso; apply (H i _ Hi); discriminate..].
  - destruct (nth_error ps i) as [p|] eqn:Hp; [|apply nth_error_None in Hp; specialize (HL i (or_introl eq_refl)); lia].
    destruct (nth_error_split _ _ Hp) as (a & b & -> & La).
    assert (En : nth i (a ++ p :: b) Done = p). { rewrite <- La. rewrite app_nth2, Nat.sub_diag by lia. reflexivity. }
    rewrite En. apply exec_solo.
    inversion ND as [|? ? Hni ND']; subst.
    assert (G : forall j, In j order -> nth j (a ++ p :: b) Done = nth j (a ++ Done :: b) Done).
    { intros j Hj. assert (j <> length a) by (intros ->; contradiction).
      destruct (Nat.lt_ge_cases j (length a)); [now rewrite !app_nth1|]. rewrite !app_nth2 by lia. destruct (j - length a)%nat eqn:E; [lia|reflexivity]. }
    replace (fold_left (fun m0 j => solo eq_dec (nth j (a ++ p :: b) Done) m0) order (solo eq_dec p m))
      with (fold_left (fun m0 j => solo eq_dec (nth j (a ++ Done :: b) Done) m0) order (solo eq_dec p m)).
    + apply IH; [exact ND'| |].
      * intros j Hj. specialize (HL j (or_intror Hj)). rewrite app_length in *. exact HL.
      * intros j q Hq Hd. destruct (Nat.eq_dec j (length a)) as [->|Hj]; [rewrite nth_mid in Hq; congruence|].
        rewrite (nth_mid_other a b Done p j Hj) in Hq. destruct (H j q Hq Hd) as [E|E]; [congruence|exact E].
    + generalize (solo eq_dec p m) as m1. clear - G. induction order as [|j l IH]; intros m1; [reflexivity|]. cbn [fold_left].
      rewrite (G j) by now left. apply IH. intros; apply G; now right.
Qed.

Lemma solo_only W Q p : only W Q p -> forall m x, ~ W x -> solo eq_dec p m x = m x.
Proof.
  induction p as [|y k IH|y v p IH]; cbn [only solo]; intros H m x Hx; [reflexivity|apply IH; [apply H|exact Hx]|].
  destruct H as [H1 H2]. rewrite (IH H2) by exact Hx. apply store_neq. intros ->. contradiction.
Qed.

(** values a thread without reads may write *)
Fixpoint paints (W : L -> R -> Prop) (p : prog L) : Prop :=
  match p with Done => True | Rd _ _ => False | Wr x v p => W x v /\ paints W p end.
Lemma paints_events W p : paints W p -> forall m, (forall x v, In (Writes x v) (events eq_dec p m) -> W x v) /\ (forall x, ~ In (Reads x) (events eq_dec p m)).
Proof.
  induction p as [|x k IH|x v p IH]; cbn [paints events]; intros H m; [split; [intros x v []|intros x []]|destruct H|].
  destruct H as [H1 H2]. destruct (IH H2 (store eq_dec m x v)) as [A B]. split.
  - intros y u [E|E]; [injection E as -> ->; exact H1|auto].
  - intros y [E|E]; [discriminate|now apply (B y)].
Qed.
Lemma paints_each {A} W (l : list A) (body : A -> prog L -> prog L) k :
  (forall a k', In a l -> paints W k' -> paints W (body a k')) -> paints W k -> paints W (each l body k).
Proof.
  intros Hb Hk. unfold each. revert Hb. induction l as [|a l IH]; intros Hb; cbn [loop]; [exact Hk|]. apply Hb; [now left|]. apply IH. intros; apply Hb; [now right|assumption].
Qed.
End Foot.

Ltac st := rewrite ?(store_eq loc_dec); repeat (rewrite (store_neq loc_dec) by (try discriminate; congruence)).

(** ** Masses *)

Lemma corner_mass_only m Y mat sid :
  only (fun x => exists l, (l < 8)%nat /\ x = CMass (corners_in_elem m (elem_in_mat Y mat sid) l))
       (fun x => (exists l, (l < 8)%nat /\ x = CMass (corners_in_elem m (elem_in_mat Y mat sid) l)) \/ x = Mass mat sid)
       (corner_mass_thread m (elem_in_mat Y mat) mat sid).
Proof.
  unfold corner_mass_thread. apply only_each; [|exact I]. intros l k Hl Hk. apply in_seq in Hl. cbn [only]. split; [left; exists l; split; [lia|reflexivity]|].
  intros v. split; [now right|]. intros w. split; [exists l; split; [lia|reflexivity]|exact Hk].
Qed.

Lemma corner_mass_free m Y mat mem : corners_ok 8 m -> layout_ok (num_elems m) Y -> (mat < num_mats Y)%nat -> listed_once Y mat ->
  race_free loc_dec (corner_mass_loop m Y mat) mem.
Proof.
  intros CO LO Hm H1. unfold corner_mass_loop. eapply disjoint_race_free; [intros i _; apply corner_mass_only|].
  intros i j x Hi Hj Hij (l & Hl & ->).
  assert (R : forall s, (s < num_mat_elems Y mat)%nat -> (elem_in_mat Y mat s < num_elems m)%nat).
  { intros s Hs. apply (LO (mat, s)). apply in_flat_map. exists mat. split; [apply in_seq; lia|]. apply in_map_iff. exists s. split; [reflexivity|apply in_seq; lia]. }
  assert (N : forall l', (l' < 8)%nat -> CMass (corners_in_elem m (elem_in_mat Y mat i) l) <> CMass (corners_in_elem m (elem_in_mat Y mat j) l')).
  { intros l' Hl' E. injection E as E. apply (ok_distinct _ _ CO) in E; auto. destruct E as [E _]. apply Hij. now apply H1. }
  split; [intros [(l' & Hl' & E)|E]; [now apply (N l')|discriminate]|intros (l' & Hl' & E); now apply (N l')].
Qed.

Lemma corner_mass_serial m Y mat mem x :
  serial loc_dec (corner_mass_loop m Y mat) mem x =
  match x with
  | CMass c => calc_corner_mass m (num_mat_elems Y mat) (elem_in_mat Y mat) (fun sid => mem (Mass mat sid)) (fun c => mem (CMass c)) c
  | _ => mem x
  end.
Proof.
  unfold corner_mass_loop. rewrite serial_map. unfold calc_corner_mass.
  set (P := fun (m1 : loc -> R) (cm : nat -> R) => forall x, m1 x = match x with CMass c => cm c | _ => mem x end).
  cut (P (fold_left (fun m1 a => solo loc_dec (corner_mass_thread m (elem_in_mat Y mat) mat a) m1) (seq 0 (num_mat_elems Y mat)) mem)
    (fold_left (fun cm sid => fold_left (fun cm l => let c := corners_in_elem m (elem_in_mat Y mat sid) l in fupd cm c (cm c + 1 / 8 * mem (Mass mat sid))) (seq 0 8) cm)
      (seq 0 (num_mat_elems Y mat)) (fun c => mem (CMass c)))); [intros H; exact (H x)|].
  apply fold_rel; [|intros [] ; reflexivity]. intros m1 cm sid _ H. unfold corner_mass_thread.
  rewrite (solo_each loc_dec _ _ (fun l m1 => store loc_dec m1 (CMass (corners_in_elem m (elem_in_mat Y mat sid) l))
     (m1 (CMass (corners_in_elem m (elem_in_mat Y mat sid) l)) + 1 / 8 * m1 (Mass mat sid)))) by reflexivity.
  cbn [solo]. apply fold_rel; [|exact H]. intros m2 cm2 l _ H2 y. cbn zeta.
  destruct (loc_dec y (CMass (corners_in_elem m (elem_in_mat Y mat sid) l))) as [->|Ny].
  - st. unfold fupd. rewrite Nat.eqb_refl, !H2. reflexivity.
  - rewrite (store_neq loc_dec) by assumption. rewrite H2. destruct y; try reflexivity. unfold fupd.
    destruct (Nat.eqb_spec c (corners_in_elem m (elem_in_mat Y mat sid) l)) as [->|]; [congruence|reflexivity].
Qed.

Lemma corner_mass_any m Y mat mem : corners_ok 8 m -> layout_ok (num_elems m) Y -> (mat < num_mats Y)%nat -> listed_once Y mat ->
  always_ends_in loc_dec (corner_mass_loop m Y mat) mem (fun x => match x with
  | CMass c => calc_corner_mass m (num_mat_elems Y mat) (elem_in_mat Y mat) (fun sid => mem (Mass mat sid)) (fun c => mem (CMass c)) c
  | _ => mem x
  end).
Proof.
  intros. eapply always_ext; [intros x; apply corner_mass_serial|]. apply race_free_ends. now apply corner_mass_free.
Qed.

Lemma node_mass_only m n : only (fun x => x = NMass n) (fun x => x = NMass n \/ exists c, x = CMass c) (node_mass_thread m n).
Proof.
  unfold node_mass_thread. apply only_each; [|exact I]. intros c k _ Hk. cbn [only incr]. split; [right; eauto|]. intros w. split; [now left|]. intros y. split; [reflexivity|exact Hk].
Qed.
Lemma node_mass_free m mem : race_free loc_dec (node_mass_loop m) mem.
Proof.
  eapply disjoint_race_free; [intros i _; apply node_mass_only|]. intros i j x _ _ Hij ->.
  split; [intros [E|[c E]]; [injection E as E; congruence|discriminate]|intros E; injection E as E; congruence].
Qed.

Lemma node_mass_solo m n mem x : solo loc_dec (node_mass_thread m n) mem x =
  if loc_dec x (NMass n) then fold_left (fun acc c => acc + mem (CMass c)) (corners_in_node m n) (mem (NMass n)) else mem x.
Proof.
  unfold node_mass_thread. rewrite (solo_each loc_dec _ _ (fun c m1 => store loc_dec m1 (NMass n) (m1 (NMass n) + m1 (CMass c)))) by reflexivity.
  cbn [solo]. generalize (corners_in_node m n) as cs. intros cs.
  set (P := fun (m1 : loc -> R) (a : R) => m1 (NMass n) = a /\ forall y, y <> NMass n -> m1 y = mem y).
  assert (G : P (fold_left (fun m1 c => store loc_dec m1 (NMass n) (m1 (NMass n) + m1 (CMass c))) cs mem) (fold_left (fun acc c => acc + mem (CMass c)) cs (mem (NMass n)))).
  { apply fold_rel; [|split; reflexivity]. intros m1 a c _ [H1 H2]. split; [st; now rewrite H1, H2 by discriminate|].
    intros y Hy. rewrite (store_neq loc_dec) by assumption. auto. }
  destruct G as [G1 G2]. destruct (loc_dec x (NMass n)) as [->|N]; [exact G1|now apply G2].
Qed.

(** writes of a loop over indices to separate entries *)
Lemma serial_separate {L} (eq_dec : forall x y : L, {x = y} + {x <> y}) (f : nat -> prog L) (own : nat -> L -> Prop) n m :
  (forall i m x, (i < n)%nat -> ~ own i x -> solo eq_dec (f i) m x = m x) ->
  (forall i j x, own i x -> own j x -> i = j) ->
  (forall i m1 m2, (i < n)%nat -> (forall x, (forall j, (j < n)%nat -> j <> i -> ~ own j x) -> m1 x = m2 x) -> forall x, own i x -> solo eq_dec (f i) m1 x = solo eq_dec (f i) m2 x) ->
  (forall x i, (i < n)%nat -> own i x -> serial eq_dec (map f (seq 0 n)) m x = solo eq_dec (f i) m x) /\
  (forall x, (forall i, (i < n)%nat -> ~ own i x) -> serial eq_dec (map f (seq 0 n)) m x = m x).
Proof.
  intros H1 H2 H3.
  assert (Out : forall k, (k <= n)%nat -> forall x, (forall i, (i < k)%nat -> ~ own i x) -> serial eq_dec (map f (seq 0 k)) m x = m x).
  { induction k as [|k IH]; intros Hk x Hx; [reflexivity|]. rewrite seq_S, map_app. unfold serial. rewrite fold_left_app. cbn [map fold_left Nat.add].
    rewrite H1; [apply IH; [lia|]; intros; apply Hx; lia|lia|apply Hx; lia]. }
  split; [|apply Out; lia].
  assert (In_ : forall k, (k <= n)%nat -> forall x i, (i < k)%nat -> own i x -> serial eq_dec (map f (seq 0 k)) m x = solo eq_dec (f i) m x).
  { induction k as [|k IH]; intros Hk x i Hi Ho; [lia|]. rewrite seq_S, map_app. unfold serial. rewrite fold_left_app. cbn [map fold_left Nat.add].
    destruct (Nat.eq_dec i k) as [->|Hik].
    - apply H3; [lia| |exact Ho]. intros y Hy. apply Out; [lia|]. intros j Hj. apply Hy; lia.
    - rewrite H1; [apply IH; [lia|lia|exact Ho]|lia|]. intros Hok. apply Hik. eauto. }
  apply In_. lia.
Qed.

Lemma node_mass_any m mem : always_ends_in loc_dec (node_mass_loop m) mem (fun x => match x with
  | NMass n => if Nat.ltb n (num_nodes m) then fold_left (fun acc c => acc + mem (CMass c)) (corners_in_node m n) (mem (NMass n)) else mem x
  | _ => mem x
  end).
Proof.
  eapply always_ext; [|apply race_free_ends, node_mass_free]. intros x.
  destruct (serial_separate loc_dec (node_mass_thread m) (fun n x => x = NMass n) (num_nodes m) mem) as [A B].
  - intros i m1 y _ Hy. rewrite node_mass_solo. destruct (loc_dec y (NMass i)); [contradiction|reflexivity].
  - intros i j y -> E. congruence.
  - intros i m1 m2 _ E y ->. rewrite !node_mass_solo. destruct (loc_dec (NMass i) (NMass i)) as [_|N]; [|congruence].
    rewrite (E (NMass i)) by (intros j _ Hj F; congruence).
    apply fold_rel; [|reflexivity]. intros a b c _ ->. now rewrite (E (CMass c)) by (intros; discriminate).
  - unfold node_mass_loop. destruct x; try (apply B; intros; discriminate).
    destruct (Nat.ltb_spec n (num_nodes m)) as [Hn|Hn].
    + rewrite (A (NMass n) n Hn eq_refl), node_mass_solo. destruct (loc_dec (NMass n) (NMass n)); [reflexivity|congruence].
    + apply B. intros i Hi E. injection E as E. lia.
Qed.

(** ** Forces *)

Lemma force_only m Y M s mat sid :
  only (fun x => (exists l d, (l < 8)%nat /\ x = CForce (corners_in_elem m (elem_in_mat Y mat sid) l) d) \/ exists l d, (l < 8)%nat /\ x = MCForce mat (corner_in_mat sid l) d)
       (fun x => exists l d, (l < 8)%nat /\ x = CForce (corners_in_elem m (elem_in_mat Y mat sid) l) d)
       (force_thread m Y M s mat sid).
Proof.
  unfold force_thread. apply only_each; [|exact I]. intros l k Hl Hk. apply in_seq in Hl. cbn zeta. apply only_each; [|exact Hk]. intros d k' _ Hk'.
  destruct (s_eroded s mat sid); cbn [only incr].
  - split; [left; exists l, d; split; [lia|reflexivity]|]. split; [right; exists l, d; split; [lia|reflexivity]|exact Hk'].
  - split; [right; exists l, d; split; [lia|reflexivity]|]. split; [exists l, d; split; [lia|reflexivity]|]. intros v. split; [left; exists l, d; split; [lia|reflexivity]|exact Hk'].
Qed.

Lemma force_free m Y M s mat mem : corners_ok 8 m -> layout_ok (num_elems m) Y -> (mat < num_mats Y)%nat -> listed_once Y mat ->
  race_free loc_dec (force_loop m Y M s mat) mem.
Proof.
  intros CO LO Hm H1. unfold force_loop. eapply disjoint_race_free; [intros i _; apply force_only|].
  intros i j x Hi Hj Hij Hx.
  assert (R : forall s, (s < num_mat_elems Y mat)%nat -> (elem_in_mat Y mat s < num_elems m)%nat).
  { intros s0 Hs. apply (LO (mat, s0)). apply in_flat_map. exists mat. split; [apply in_seq; lia|]. apply in_map_iff. exists s0. split; [reflexivity|apply in_seq; lia]. }
  assert (N : forall l l', (l < 8)%nat -> (l' < 8)%nat -> corners_in_elem m (elem_in_mat Y mat i) l <> corners_in_elem m (elem_in_mat Y mat j) l').
  { intros l l' Hl Hl' E. apply (ok_distinct _ _ CO) in E; auto. destruct E as [E _]. apply Hij. now apply H1. }
  assert (N2 : forall l l', (l < 8)%nat -> (l' < 8)%nat -> corner_in_mat i l <> corner_in_mat j l').
  { unfold corner_in_mat. intros; lia. }
  destruct Hx as [(l & d & Hl & ->)|(l & d & Hl & ->)].
  - split; [intros (l' & d' & Hl' & E); injection E as E _; now apply (N l l')|].
    intros [(l' & d' & Hl' & E)|(l' & d' & Hl' & E)]; [injection E as E _; now apply (N l l')|discriminate].
  - split; [intros (l' & d' & Hl' & E); discriminate|].
    intros [(l' & d' & Hl' & E)|(l' & d' & Hl' & E)]; [discriminate|injection E as E _; now apply (N2 l l')].
Qed.

Lemma force_serial m Y M s mat mem x :
  serial loc_dec (force_loop m Y M s mat) mem x =
  let f := get_force m Y M s mat (fun c d => mem (CForce c d), fun a c d => mem (MCForce a c d)) in
  match x with CForce c d => fst f c d | MCForce a c d => snd f a c d | _ => mem x end.
Proof.
  unfold force_loop. rewrite serial_map. unfold get_force. cbn zeta.
  set (P := fun (m1 : loc -> R) (f : (nat -> nat -> R) * (nat -> nat -> nat -> R)) =>
    forall x, m1 x = match x with CForce c d => fst f c d | MCForce a c d => snd f a c d | _ => mem x end).
  match goal with |- ?A x = match x with CForce c d => fst ?B c d | _ => _ end => cut (P A B); [intros H; exact (H x)|] end.
  apply fold_rel; [|intros []; reflexivity]. intros m1 f sid _ H. unfold force_thread, elem_force.
  set (w := fun (l : nat) (m1 : loc -> R) (d : nat) =>
     let c := corners_in_elem m (elem_in_mat Y mat sid) l in let mc := corner_in_mat sid l in
     if s_eroded s mat sid then store loc_dec (store loc_dec m1 (CForce c d) 0) (MCForce mat mc d) 0
     else let m2 := store loc_dec m1 (MCForce mat mc d) (mat_corner_value m Y M s mat sid l d) in
          store loc_dec m2 (CForce c d) (m2 (CForce c d) + mat_corner_value m Y M s mat sid l d)).
  rewrite (solo_each loc_dec _ _ (fun l m1 => fold_left (w l) (seq 0 3) m1)).
  2:{ intros l k m2 _. cbn zeta. rewrite (solo_each loc_dec _ _ (fun d m1 => w l m1 d)); [reflexivity|].
      intros d k' m3 _. unfold w. cbn zeta. destruct (s_eroded s mat sid); reflexivity. }
  cbn [solo]. apply fold_rel; [|exact H]. intros m2 f2 l _ H2. apply fold_rel; [|exact H2]. intros m3 [cf mcf] d _ H3 y. unfold w, corner_write. cbn zeta.
  set (c0 := corners_in_elem m (elem_in_mat Y mat sid) l). set (mc := corner_in_mat sid l).
  unfold P in H3. cbn [fst snd] in *.
  assert (V0 : s_eroded s mat sid = true -> mat_corner_value m Y M s mat sid l d = 0) by (unfold mat_corner_value; now intros ->).
  destruct (s_eroded s mat sid).
  - rewrite (V0 eq_refl). destruct (loc_dec y (MCForce mat mc d)) as [->|N1].
    + st. unfold fupd, fupd2. now rewrite !Nat.eqb_refl.
    + rewrite (store_neq loc_dec) by assumption. destruct (loc_dec y (CForce c0 d)) as [->|N2].
      * st. unfold fupd2. now rewrite !Nat.eqb_refl.
      * rewrite (store_neq loc_dec) by assumption. rewrite H3. destruct y; try reflexivity; unfold fupd, fupd2.
        -- destruct (Nat.eqb_spec c c0) as [->|]; [|reflexivity]. destruct (Nat.eqb_spec d0 d) as [->|]; [congruence|reflexivity].
        -- destruct (Nat.eqb_spec mat0 mat) as [->|]; [|reflexivity]. destruct (Nat.eqb_spec mc0 mc) as [->|]; [|reflexivity].
           destruct (Nat.eqb_spec d0 d) as [->|]; [congruence|reflexivity].
  - destruct (loc_dec y (CForce c0 d)) as [->|N2].
    + st. rewrite H3. unfold fupd2. now rewrite !Nat.eqb_refl.
    + rewrite (store_neq loc_dec) by assumption. destruct (loc_dec y (MCForce mat mc d)) as [->|N1].
      * st. unfold fupd, fupd2. now rewrite !Nat.eqb_refl.
      * rewrite (store_neq loc_dec) by assumption. rewrite H3. destruct y; try reflexivity; unfold fupd, fupd2.
        -- destruct (Nat.eqb_spec c c0) as [->|]; [|reflexivity]. destruct (Nat.eqb_spec d0 d) as [->|]; [congruence|reflexivity].
        -- destruct (Nat.eqb_spec mat0 mat) as [->|]; [|reflexivity]. destruct (Nat.eqb_spec mc0 mc) as [->|]; [|reflexivity].
           destruct (Nat.eqb_spec d0 d) as [->|]; [congruence|reflexivity].
Qed.

Lemma force_any m Y M s mat mem : corners_ok 8 m -> layout_ok (num_elems m) Y -> (mat < num_mats Y)%nat -> listed_once Y mat ->
  always_ends_in loc_dec (force_loop m Y M s mat) mem (fun x =>
  let f := get_force m Y M s mat (fun c d => mem (CForce c d), fun a c d => mem (MCForce a c d)) in
  match x with CForce c d => fst f c d | MCForce a c d => snd f a c d | _ => mem x end).
Proof. intros. eapply always_ext; [intros x; apply force_serial|]. apply race_free_ends. now apply force_free. Qed.

(** ** Velocities *)

Definition own_node (n : nat) (x : loc) : Prop := exists d, (d < 3)%nat /\ (x = NForce n d \/ x = Vel n d).

Lemma velocity_only m b alpha dt n :
  only (own_node n) (fun x => match x with NForce k _ => k = n | Vel _ _ => False | _ => True end) (velocity_thread m b alpha dt n).
Proof.
  assert (O : forall d, In d (seq 0 3) -> own_node n (NForce n d)) by (intros d Hd; apply in_seq in Hd; exists d; split; [lia|now left]).
  unfold velocity_thread. apply only_each.
  - intros d k Hd Hk. assert (Hd' : In d (seq 0 3)) by (destruct b; [exact Hd|destruct Hd]). cbn [only incr]. repeat split; auto.
  - apply only_each.
    + intros c k _ Hk. apply only_each; [|exact Hk]. intros d k' Hd Hk'. cbn [only incr]. repeat split; auto.
    + apply only_each; [|exact I]. intros d k Hd Hk. cbn [only]. repeat split; auto. apply in_seq in Hd. exists d. split; [lia|now right].
Qed.

Lemma velocity_free m b alpha dt mem : race_free loc_dec (velocity_loop m b alpha dt) mem.
Proof.
  eapply disjoint_race_free; [intros i _; apply velocity_only|]. intros i j x _ _ Hij (d & Hd & [->| ->]).
  - split; [exact Hij|]. intros (d' & _ & [E|E]); [injection E as E _; congruence|discriminate].
  - split; [auto|]. intros (d' & _ & [E|E]); [discriminate|injection E as E _; congruence].
Qed.

Definition force_total (m : mesh3) (b : bool) (mem : loc -> R) (n d : nat) : R :=
  fold_left (fun acc c => acc + mem (CForce c d)) (corners_in_node m n) (if b then mem (NForce n d) + mem (Contact n d) else mem (NForce n d)).

Lemma velocity_solo m b alpha dt n mem x : solo loc_dec (velocity_thread m b alpha dt n) mem x =
  match x with
  | NForce k d => if Nat.eqb k n && Nat.ltb d 3 then force_total m b mem n d else mem x
  | Vel k d => if Nat.eqb k n && Nat.ltb d 3 then mem (Vel0 n d) + alpha * dt * force_total m b mem n d / mem (NMass n) else mem x
  | _ => mem x
  end.
Proof.
  unfold velocity_thread.
  rewrite (solo_each loc_dec _ _ (fun d m1 => store loc_dec m1 (NForce n d) (m1 (NForce n d) + m1 (Contact n d)))) by reflexivity.
  rewrite (solo_each loc_dec _ _ (fun c m1 => fold_left (fun m1 d => store loc_dec m1 (NForce n d) (m1 (NForce n d) + m1 (CForce c d))) (seq 0 3) m1)).
  2:{ intros c k m1 _. rewrite (solo_each loc_dec _ _ (fun d m1 => store loc_dec m1 (NForce n d) (m1 (NForce n d) + m1 (CForce c d)))) by reflexivity. reflexivity. }
  rewrite (solo_each loc_dec _ _ (fun d m1 => store loc_dec m1 (Vel n d) (m1 (Vel0 n d) + alpha * dt * m1 (NForce n d) / m1 (NMass n)))) by reflexivity.
  cbn [solo].
  set (P := fun (m1 : loc -> R) (a : nat -> R) => forall x, m1 x = match x with NForce k d => if Nat.eqb k n then a d else mem x | _ => mem x end).
  assert (Pst : forall m1 a d v, P m1 a -> P (store loc_dec m1 (NForce n d) v) (fupd a d v)).
  { intros m1 a d v H y. destruct (loc_dec y (NForce n d)) as [->|N].
    - st. unfold fupd. now rewrite !Nat.eqb_refl.
    - rewrite (store_neq loc_dec) by assumption. rewrite H. destruct y; try reflexivity. unfold fupd. destruct (Nat.eqb_spec n0 n) as [->|]; [|reflexivity].
      destruct (Nat.eqb_spec d0 d) as [->|]; [congruence|reflexivity]. }
  set (a0 := fun d => mem (NForce n d)).
  set (l1 := if b then seq 0 3 else []).
  set (a1 := fold_left (fun a d => fupd a d (a d + mem (Contact n d))) l1 a0).
  match goal with |- fold_left _ _ (fold_left _ _ ?A) x = _ => set (m1 := A) end.
  assert (P1 : P m1 a1).
  { apply fold_rel; [|intros []; try reflexivity; destruct (Nat.eqb_spec n0 n) as [->|]; reflexivity].
    intros m3 a d _ H. rewrite (H (NForce n d)), (H (Contact n d)), Nat.eqb_refl. now apply Pst. }
  clearbody m1.
  set (a2 := fold_left (fun a c => fold_left (fun a d => fupd a d (a d + mem (CForce c d))) (seq 0 3) a) (corners_in_node m n) a1).
  match goal with |- fold_left _ _ ?A x = _ => set (m2 := A) end.
  assert (P2 : P m2 a2).
  { apply fold_rel; [|exact P1]. intros m3' a c _ H. apply fold_rel; [|exact H]. intros m3 a3 d _ H3.
    rewrite (H3 (NForce n d)), (H3 (CForce c d)), Nat.eqb_refl. now apply Pst. }
  clearbody m2.
  assert (A2 : forall d, (d < 3)%nat -> a2 d = force_total m b mem n d).
  { intros d Hd. unfold a2, force_total.
    assert (A1 : a1 d = if b then mem (NForce n d) + mem (Contact n d) else mem (NForce n d)).
    { unfold a1, l1, a0. destruct b; [|reflexivity]. destruct d as [|[|[|d]]]; [reflexivity..|lia]. }
    rewrite <- A1. apply (fold_rel (fun (a : nat -> R) r => a d = r)); [|reflexivity]. intros a r c _ <-.
    destruct d as [|[|[|d]]]; [reflexivity..|lia]. }
  assert (A3 : forall d, (3 <= d)%nat -> a2 d = mem (NForce n d)).
  { intros d Hd. unfold a2. transitivity (a1 d).
    - generalize a1. generalize (corners_in_node m n) as cs. clear - Hd. intros cs. induction cs as [|c cs IH]; intros a; [reflexivity|]. cbn [fold_left]. rewrite IH. cbn [seq fold_left]. unfold fupd.
      destruct d as [|[|[|d]]]; [lia..|reflexivity].
    - unfold a1, l1, a0. destruct b; [|reflexivity]. cbn [seq fold_left]. unfold fupd. destruct d as [|[|[|d]]]; [lia..|reflexivity]. }
  set (Pv := fun (m3 : loc -> R) (done : list nat) => forall x, m3 x = match x with Vel k d => if Nat.eqb k n && existsb (Nat.eqb d) done then mem (Vel0 n d) + alpha * dt * a2 d / mem (NMass n) else mem x | _ => m2 x end).
  match goal with |- ?A x = _ => assert (P3 : Pv A (fold_left (fun dn d => d :: dn) (seq 0 3) [])) end.
  { apply fold_rel.
    - intros m3 dn d _ H y. destruct (loc_dec y (Vel n d)) as [->|N].
      + st. cbn [existsb]. rewrite !Nat.eqb_refl. cbn [andb orb]. rewrite !H, !P2, Nat.eqb_refl. reflexivity.
      + rewrite (store_neq loc_dec) by assumption. rewrite H. destruct y; try reflexivity. cbn [existsb].
        destruct (Nat.eqb_spec n0 n) as [->|]; [|reflexivity]. destruct (Nat.eqb_spec d0 d) as [->|]; [congruence|reflexivity].
    - intros y. destruct y; try reflexivity. cbn [existsb]. rewrite andb_false_r. apply P2. }
  etransitivity; [exact (P3 x)|]. destruct x; rewrite ?P2; try reflexivity.
  - destruct (Nat.eqb_spec n0 n) as [->|]; [|reflexivity]. cbn [andb]. destruct (Nat.ltb_spec d 3); [now apply A2|now apply A3].
  - destruct (Nat.eqb_spec n0 n) as [->|]; [|reflexivity]. cbn [andb seq fold_left existsb]. destruct (Nat.ltb_spec d 3) as [Hd|Hd].
    + rewrite <- A2 by assumption. destruct d as [|[|[|d]]]; [reflexivity..|lia].
    + destruct d as [|[|[|d]]]; [lia..|reflexivity].
Qed.

Lemma velocity_any m b alpha dt mem : always_ends_in loc_dec (velocity_loop m b alpha dt) mem (fun x => match x with
  | NForce n d => if Nat.ltb n (num_nodes m) && Nat.ltb d 3 then force_total m b mem n d else mem x
  | Vel n d => if Nat.ltb n (num_nodes m) && Nat.ltb d 3 then mem (Vel0 n d) + alpha * dt * force_total m b mem n d / mem (NMass n) else mem x
  | _ => mem x
  end).
Proof.
  eapply always_ext; [|apply race_free_ends, velocity_free]. intros x.
  destruct (serial_separate loc_dec (velocity_thread m b alpha dt) own_node (num_nodes m) mem) as [A B].
  - intros i m1 y _ Hy. rewrite velocity_solo. destruct y; try reflexivity;
      (destruct (Nat.eqb_spec n i) as [->|]; [|reflexivity]; destruct (Nat.ltb_spec d 3); [|reflexivity]; exfalso; apply Hy; exists d; auto).
  - intros i j y (d & _ & [->| ->]) (d' & _ & [E|E]); congruence.
  - intros i m1 m2 _ E y (d & Hd & Hy).
    assert (F : force_total m b m1 i d = force_total m b m2 i d).
    { unfold force_total. assert (E1 : m1 (NForce i d) = m2 (NForce i d)) by (apply E; intros j _ Hj (d' & _ & [F|F]); congruence).
      assert (E2 : m1 (Contact i d) = m2 (Contact i d)) by (apply E; intros j _ _ (d' & _ & [F|F]); discriminate).
      rewrite E1, E2. apply fold_rel; [|reflexivity]. intros a a' c _ ->. rewrite (E (CForce c d)); [reflexivity|]. intros j _ _ (d' & _ & [F|F]); discriminate. }
    assert (E3 : m1 (Vel0 i d) = m2 (Vel0 i d)) by (apply E; intros j _ _ (d' & _ & [G|G]); discriminate).
    assert (E4 : m1 (NMass i) = m2 (NMass i)) by (apply E; intros j _ _ (d' & _ & [G|G]); discriminate).
    rewrite !velocity_solo. destruct Hy as [->| ->]; rewrite Nat.eqb_refl; apply Nat.ltb_lt in Hd; rewrite Hd; cbn [andb]; [exact F|now rewrite F, E3, E4].
  - unfold velocity_loop. destruct x; try (apply B; intros i _ (d' & _ & [E|E]); discriminate).
    + destruct (Nat.ltb_spec n (num_nodes m)) as [Hn|Hn]; [destruct (Nat.ltb_spec d 3) as [Hd|Hd]|]; cbn [andb].
      * rewrite (A (NForce n d) n Hn) by (exists d; auto). rewrite velocity_solo, Nat.eqb_refl. apply Nat.ltb_lt in Hd. now rewrite Hd.
      * apply B. intros i Hi (d' & Hd' & [E|E]); [injection E as _ E; lia|discriminate].
      * apply B. intros i Hi (d' & Hd' & [E|E]); [injection E as E _; lia|discriminate].
    + destruct (Nat.ltb_spec n (num_nodes m)) as [Hn|Hn]; [destruct (Nat.ltb_spec d 3) as [Hd|Hd]|]; cbn [andb].
      * rewrite (A (Vel n d) n Hn) by (exists d; auto). rewrite velocity_solo, Nat.eqb_refl. apply Nat.ltb_lt in Hd. now rewrite Hd.
      * apply B. intros i Hi (d' & Hd' & [E|E]); [discriminate|injection E as _ E; lia].
      * apply B. intros i Hi (d' & Hd' & [E|E]); [discriminate|injection E as E _; lia].
Qed.

(** ** Energies and positions *)

Definition power (m : mesh3) (Y : layout) (mem : loc -> R) (mat sid : nat) : R :=
  fold_left (fun p l => fold_left (fun p d =>
    p + mem (MCForce mat (corner_in_mat sid l) d) * ((mem (Vel (nodes_in m (elem_in_mat Y mat sid) l) d) + mem (Vel0 (nodes_in m (elem_in_mat Y mat sid) l) d)) * 0.5)) (seq 0 3) p) (seq 0 8) 0.

Lemma fold_snd {A S M} (f : A -> S -> M -> S) (l : list A) : forall s (m : M),
  fold_left (fun st a => (f a (fst st) (snd st), snd st)) l (s, m) = (fold_left (fun s a => f a s m) l s, m).
Proof. induction l as [|a l IH]; intros s m; [reflexivity|]. cbn [fold_left fst snd]. apply IH. Qed.

Lemma energy_solo m Y alpha dt mat sid mem : solo loc_dec (energy_thread m Y alpha dt mat sid) mem =
  store loc_dec mem (Sie mat sid) (mem (Sie0 mat sid) - alpha * dt / (mem (Mass mat sid) + 1e-20) * power m Y mem mat sid).
Proof.
  unfold energy_thread.
  set (g := fun (l : nat) (d : nat) (p : R) (m1 : loc -> R) => p + m1 (MCForce mat (corner_in_mat sid l) d) * ((m1 (Vel (nodes_in m (elem_in_mat Y mat sid) l) d) + m1 (Vel0 (nodes_in m (elem_in_mat Y mat sid) l) d)) * 0.5)).
  rewrite (solo_loop loc_dec _ _ (fun l p m1 => fold_left (fun p d => g l d p m1) (seq 0 3) p) (fun _ _ m1 => m1)).
  - cbn zeta. rewrite (fold_snd (fun l p m1 => fold_left (fun p d => g l d p m1) (seq 0 3) p)). cbn [fst snd solo]. reflexivity.
  - intros l p k m1 _. cbn zeta. rewrite (solo_loop loc_dec _ _ (g l) (fun _ _ m1 => m1)) by reflexivity.
    cbn zeta. rewrite (fold_snd (g l)). reflexivity.
Qed.

Lemma energy_only m Y alpha dt mat sid : only (fun x => x = Sie mat sid) (fun x => match x with Sie _ _ => False | _ => True end) (energy_thread m Y alpha dt mat sid).
Proof.
  unfold energy_thread. apply only_loop; [|intros p; cbn [only]; repeat split; auto]. intros l p k _ Hk. cbn zeta. apply only_loop; [|exact Hk]. intros d p' k' _ Hk'.
  cbn [only]. repeat split; auto.
Qed.

Lemma energy_any m Y alpha dt mat mem : always_ends_in loc_dec (energy_loop m Y alpha dt mat) mem (fun x => match x with
  | Sie a sid => if Nat.eqb a mat && Nat.ltb sid (num_mat_elems Y mat)
      then mem (Sie0 mat sid) - alpha * dt / (mem (Mass mat sid) + 1e-20) * power m Y mem mat sid else mem x
  | _ => mem x
  end).
Proof.
  eapply always_ext; [|apply race_free_ends].
  2:{ eapply disjoint_race_free; [intros i _; apply energy_only|]. intros i j x _ _ Hij ->. split; [auto|]. intros E. injection E as E. congruence. }
  intros x. destruct (serial_separate loc_dec (energy_thread m Y alpha dt mat) (fun sid x => x = Sie mat sid) (num_mat_elems Y mat) mem) as [A B].
  - intros i m1 y _ Hy. rewrite energy_solo. now apply store_neq.
  - intros i j y -> E. congruence.
  - intros i m1 m2 _ E y ->. rewrite !energy_solo, !store_eq.
    rewrite (E (Sie0 mat i)), (E (Mass mat i)) by (intros; discriminate). do 2 f_equal. unfold power.
    apply fold_rel; [|reflexivity]. intros a b l _ ->. apply fold_rel; [|reflexivity]. intros a' b' d _ ->.
    now rewrite (E (MCForce _ _ _)), (E (Vel _ _)), (E (Vel0 _ _)) by (intros; discriminate).
  - unfold energy_loop. destruct x; try (apply B; intros; discriminate).
    destruct (Nat.eqb_spec mat0 mat) as [->|N]; cbn [andb].
    + destruct (Nat.ltb_spec p (num_mat_elems Y mat)) as [Hp|Hp].
      * rewrite (A (Sie mat p) p Hp eq_refl), energy_solo. apply store_eq.
      * apply B. intros i Hi E. injection E as E. lia.
    + apply B. intros i Hi E. injection E as E _. congruence.
Qed.

Definition own_pos (n : nat) (x : loc) : Prop := exists d, (d < 3)%nat /\ x = Pos n d.
Definition moved (alpha dt : R) (mem : loc -> R) (n d : nat) : R := mem (Pos0 n d) + alpha * dt * ((mem (Vel n d) + mem (Vel0 n d)) * 0.5).

Lemma position_only alpha dt n : only (own_pos n) (fun x => match x with Pos _ _ => False | _ => True end) (position_thread alpha dt n).
Proof.
  unfold position_thread. apply only_each; [|exact I]. intros d k Hd Hk. cbn [only]. repeat split; auto. apply in_seq in Hd. exists d. split; [lia|reflexivity].
Qed.

Lemma position_solo alpha dt n mem x : solo loc_dec (position_thread alpha dt n) mem x =
  match x with Pos k d => if Nat.eqb k n && Nat.ltb d 3 then moved alpha dt mem n d else mem x | _ => mem x end.
Proof.
  unfold position_thread. rewrite (solo_each loc_dec _ _ (fun d m1 => store loc_dec m1 (Pos n d) (moved alpha dt m1 n d))) by reflexivity. cbn [solo].
  set (P := fun (m3 : loc -> R) (dn : list nat) => forall x, m3 x = match x with Pos k d => if Nat.eqb k n && existsb (Nat.eqb d) dn then moved alpha dt mem n d else mem x | _ => mem x end).
  match goal with |- ?A x = _ => assert (P3 : P A (fold_left (fun dn d => d :: dn) (seq 0 3) [])) end.
  { apply fold_rel.
    - intros m3 dn d _ H y. destruct (loc_dec y (Pos n d)) as [->|N].
      + st. cbn [existsb]. rewrite !Nat.eqb_refl. cbn [andb orb]. unfold moved. rewrite !H. reflexivity.
      + rewrite (store_neq loc_dec) by assumption. rewrite H. destruct y; try reflexivity. cbn [existsb].
        destruct (Nat.eqb_spec n0 n) as [->|]; [|reflexivity]. destruct (Nat.eqb_spec d0 d) as [->|]; [congruence|reflexivity].
    - intros y. destruct y; try reflexivity. cbn [existsb]. now rewrite andb_false_r. }
  etransitivity; [exact (P3 x)|]. destruct x; try reflexivity. destruct (Nat.eqb_spec n0 n) as [->|]; [|reflexivity]. cbn [andb seq fold_left existsb].
  destruct d as [|[|[|d]]]; reflexivity.
Qed.

Lemma position_any m alpha dt mem : always_ends_in loc_dec (position_loop m alpha dt) mem (fun x => match x with
  | Pos n d => if Nat.ltb n (num_nodes m) && Nat.ltb d 3 then moved alpha dt mem n d else mem x
  | _ => mem x
  end).
Proof.
  eapply always_ext; [|apply race_free_ends].
  2:{ eapply disjoint_race_free; [intros i _; apply position_only|]. intros i j x _ _ Hij (d & Hd & ->). split; [auto|].
      intros (d' & _ & E). injection E as E _. congruence. }
  intros x. destruct (serial_separate loc_dec (position_thread alpha dt) own_pos (num_nodes m) mem) as [A B].
  - intros i m1 y _ Hy. rewrite position_solo. destruct y; try reflexivity.
    destruct (Nat.eqb_spec n i) as [->|]; [|reflexivity]; destruct (Nat.ltb_spec d 3); [|reflexivity]; exfalso; apply Hy; exists d; auto.
  - intros i j y (d & _ & ->) (d' & _ & E). congruence.
  - intros i m1 m2 _ E y (d & Hd & ->). rewrite !position_solo, Nat.eqb_refl. apply Nat.ltb_lt in Hd. rewrite Hd. cbn [andb]. unfold moved.
    now rewrite (E (Pos0 _ _)), (E (Vel _ _)), (E (Vel0 _ _)) by (intros j _ _ (d' & _ & F); discriminate).
  - unfold position_loop. destruct x; try (apply B; intros i _ (d' & _ & E); discriminate).
    destruct (Nat.ltb_spec n (num_nodes m)) as [Hn|Hn]; [destruct (Nat.ltb_spec d 3) as [Hd|Hd]|]; cbn [andb].
    + rewrite (A (Pos n d) n Hn) by (exists d; auto). rewrite position_solo, Nat.eqb_refl. apply Nat.ltb_lt in Hd. now rewrite Hd.
    + apply B. intros i Hi (d' & Hd' & E). injection E as _ E; lia.
    + apply B. intros i Hi (d' & Hd' & E). injection E as E _; lia.
Qed.

(** ** Reductions *)

Lemma min_join_eq a b : min_join a b = match a, b with None, x => x | x, None => x | Some x, Some y => Some (Rmin x y) end.
Proof.
  destruct a as [x|], b as [y|]; cbn; try reflexivity. f_equal. unfold Rmin. destruct (Rlt_dec y x), (Rle_dec x y); lra.
Qed.
Lemma min_join_assoc a b c : min_join a (min_join b c) = min_join (min_join a b) c.
Proof. rewrite !min_join_eq. destruct a, b, c; try reflexivity. now rewrite Rmin_assoc. Qed.
Lemma min_join_comm a b : min_join a b = min_join b a.
Proof. rewrite !min_join_eq. destruct a, b; try reflexivity. now rewrite Rmin_comm. Qed.
Definition omin (f : nat -> R) (l : list nat) : option R := fold_right (fun i s => min_join (Some (f i)) s) None l.
Lemma omin_app f a b : omin f (a ++ b) = min_join (omin f a) (omin f b).
Proof. induction a as [|i a IH]; [now rewrite min_join_eq|]. cbn [omin fold_right app]. fold (omin f (a ++ b)) (omin f a). rewrite IH. apply min_join_assoc. Qed.
Lemma omin_perm f a b : Permutation a b -> omin f a = omin f b.
Proof.
  induction 1 as [|i a b _ IH|i j a|a b c _ IH1 _ IH2]; [reflexivity| |  |congruence].
  - cbn [omin fold_right]. fold (omin f a) (omin f b). now rewrite IH.
  - cbn [omin fold_right]. fold (omin f a). rewrite !min_join_assoc. f_equal. apply min_join_comm.
Qed.
Lemma min_body_join f i s : min_body f i s = min_join s (Some (f i)).
Proof. destruct s as [x|]; reflexivity. Qed.
Lemma fold_omin f l s : fold_left (fun s i => min_body f i s) l s = min_join s (omin f l).
Proof.
  revert s. induction l as [|i l IH]; intros s; [cbn; now destruct s|]. cbn [fold_left omin fold_right]. fold (omin f l). rewrite IH, min_body_join. now rewrite min_join_assoc.
Qed.
Lemma reduce_min_plan_omin f p : reduce_min_plan f p = omin f (iterations p).
Proof.
  unfold reduce_min_plan. induction p as [l|a IHa b IHb]; cbn [reduce iterations].
  - rewrite fold_omin. now rewrite min_join_eq.
  - now rewrite IHa, IHb, omin_app.
Qed.
Lemma reduce_min_omin f l : reduce_min (map f l) = omin f l.
Proof.
  unfold reduce_min. transitivity (fold_left (fun s i => min_body f i s) l None).
  - generalize (@None R). induction l as [|i l IH]; intros o; [reflexivity|]. cbn [map fold_left]. rewrite IH. reflexivity.
  - rewrite fold_omin. now rewrite min_join_eq.
Qed.
Lemma reduce_min_any f p n : covers p n -> reduce_min_plan f p = reduce_min (map f (seq 0 n)).
Proof. intros H. rewrite reduce_min_plan_omin, reduce_min_omin. now apply omin_perm. Qed.

Lemma reduce_sum_any f p n : covers p n -> reduce_sum_plan f p = sumn n f.
Proof.
  intros H. rewrite <- suml_seq, <- (suml_perm f _ _ H). clear H. unfold reduce_sum_plan. induction p as [l|a IHa b IHb]; cbn [reduce iterations].
  - rewrite fold_left_suml. lra.
  - now rewrite IHa, IHb, suml_app.
Qed.

(** ** Set-up of the masses, from any contents of memory *)

Lemma calc_corner_mass_at m n ei w cm cm' c : cm c = cm' c -> calc_corner_mass m n ei w cm c = calc_corner_mass m n ei w cm' c.
Proof.
  intros H. unfold calc_corner_mass. apply (fold_rel (fun a b : nat -> R => a c = b c)); [|exact H]. intros a b sid _ Hab.
  apply (fold_rel (fun a b : nat -> R => a c = b c)); [|exact Hab]. intros a' b' l _ H'. unfold fupd.
  destruct (Nat.eqb_spec c (corners_in_elem m (ei sid) l)) as [<-|]; [now rewrite H'|exact H'].
Qed.

Lemma zero_serial (f : nat -> loc) n mem x : (forall i j, f i = f j -> i = j) ->
  serial loc_dec (map (fun i => Wr (f i) 0 Done) (seq 0 n)) mem x = if existsb (fun i => if loc_dec x (f i) then true else false) (seq 0 n) then 0 else mem x.
Proof.
  intros Inj. rewrite serial_map. cbn [solo]. induction n as [|n IH]; [reflexivity|]. rewrite seq_S, fold_left_app, existsb_app. cbn [fold_left existsb Nat.add].
  destruct (loc_dec x (f n)) as [->|N]; [rewrite orb_true_r; apply store_eq|]. rewrite (store_neq loc_dec) by assumption. rewrite IH. now rewrite !orb_false_r.
Qed.
Lemma zero_free (f : nat -> loc) n mem : race_free loc_dec (map (fun i => Wr (f i) 0 Done) (seq 0 n)) mem.
Proof.
  intros i j p q x v _ Hp Hq Hx. rewrite nth_error_map in Hp, Hq.
  destruct (nth_error (seq 0 n) i); [|discriminate]. destruct (nth_error (seq 0 n) j); [|discriminate]. injection Hp as <-. injection Hq as <-.
  cbn [events In] in *. destruct Hx as [E|[]]. injection E as <- <-. split; [intros [E|[]]; discriminate|]. intros w [E|[]]. congruence.
Qed.

Lemma existsb_zero {A} (f : nat -> loc) n x : (forall i j, f i = f j -> i = j) -> x = f (n) -> forall k (a b : A),
  (if existsb (fun i => if loc_dec x (f i) then true else false) (seq 0 k) then a else b) = if Nat.ltb n k then a else b.
Proof.
  intros Inj -> k a b. induction k as [|k IH]; [reflexivity|]. rewrite seq_S, existsb_app. cbn [existsb Nat.add].
  destruct (loc_dec (f n) (f k)) as [E|N].
  - apply Inj in E as ->. rewrite orb_true_r. destruct (Nat.ltb_spec k (S k)); [reflexivity|lia].
  - rewrite !orb_false_r, IH. destruct (Nat.ltb_spec n k), (Nat.ltb_spec n (S k)); try reflexivity; [lia|]. assert (n = k) as -> by lia. congruence.
Qed.
Lemma existsb_none (f : nat -> loc) x k : (forall i, x <> f i) -> existsb (fun i => if loc_dec x (f i) then true else false) (seq 0 k) = false.
Proof.
  intros H. destruct (existsb _ _) eqn:E; [|reflexivity]. apply existsb_exists in E as (i & _ & E). destruct (loc_dec x (f i)) as [F|]; [now apply H in F|discriminate].
Qed.

Lemma exec_all_app {L} (eq_dec : forall x y : L, {x = y} + {x <> y}) a b m e :
  exec_all eq_dec (a ++ b) m e <-> exists m', exec_all eq_dec a m m' /\ exec_all eq_dec b m' e.
Proof.
  revert m. induction a as [|p a IH]; intros m; cbn [app].
  - split; [intros H; exists m; split; [constructor|exact H]|]. intros (m' & H1 & H2). inversion H1; subst. exact H2.
  - split.
    + intros H. inversion H as [|? ? ? m1 ? H1 H2]; subst. apply IH in H2 as (m' & H3 & H4). exists m'. split; [econstructor; eauto|exact H4].
    + intros (m' & H1 & H2). inversion H1 as [|? ? ? m1 ? H3 H4]; subst. econstructor; [exact H3|]. apply IH. eauto.
Qed.
Lemma exec_all_exists {L} (eq_dec : forall x y : L, {x = y} + {x <> y}) a : forall m, exists e, exec_all eq_dec a m e.
Proof.
  induction a as [|p a IH]; intros m; [exists m; constructor|]. destruct (IH (serial eq_dec p m)) as [e He]. exists e. econstructor; [apply exec_serial|exact He].
Qed.

Definition setup_loops (m : mesh3) (num_corners : nat) (Y : layout) : list (list thread) :=
  zero_nodes m :: zero_corners num_corners :: map (corner_mass_loop m Y) (seq 0 (num_mats Y)) ++ [node_mass_loop m].

Lemma all_corner_masses m Y mats : corners_ok 8 m -> layout_ok (num_elems m) Y -> (forall mat, In mat mats -> (mat < num_mats Y)%nat /\ listed_once Y mat) ->
  forall mem e, exec_all loc_dec (map (corner_mass_loop m Y) mats) mem e ->
  forall x, e x = match x with
    | CMass c => fold_left (fun cm mat => calc_corner_mass m (num_mat_elems Y mat) (elem_in_mat Y mat) (fun sid => mem (Mass mat sid)) cm) mats (fun c => mem (CMass c)) c
    | _ => mem x end.
Proof.
  intros CO LO. induction mats as [|mat mats IH]; intros H mem e He x.
  - inversion He; subst. destruct x; reflexivity.
  - cbn [map] in He. inversion He as [|? ? ? m1 ? H1 H2]; subst. destruct (H mat (or_introl eq_refl)) as [Hm Hl].
    destruct (corner_mass_any m Y mat mem CO LO Hm Hl) as (_ & _ & U). specialize (U m1 H1).
    rewrite (IH (fun k Hk => H k (or_intror Hk)) m1 e H2 x). destruct x; try apply U. cbn [fold_left].
    apply (fold_rel (fun a b : nat -> R => forall c, a c = b c)).
    + intros a b k _ Hab c'. transitivity (calc_corner_mass m (num_mat_elems Y k) (elem_in_mat Y k) (fun sid => m1 (Mass k sid)) b c'); [now apply calc_corner_mass_at|].
      unfold calc_corner_mass. apply (fold_rel (fun a b : nat -> R => a c' = b c')); [|reflexivity]. intros a1 b1 sid _ E1.
      apply (fold_rel (fun a b : nat -> R => a c' = b c')); [|exact E1]. intros a2 b2 l _ E2. cbn zeta. unfold fupd. rewrite (U (Mass k sid)).
      destruct (Nat.eqb_spec c' (corners_in_elem m (elem_in_mat Y k sid) l)) as [<-|]; [now rewrite E2|exact E2].
    + intros c'. apply (U (CMass c')).
Qed.

Lemma setup_any m nc Y mem e : corners_ok 8 m -> layout_ok (num_elems m) Y -> (forall mat, (mat < num_mats Y)%nat -> listed_once Y mat) ->
  (forall n c, (n < num_nodes m)%nat -> In c (corners_in_node m n) -> (c < nc)%nat) ->
  exec_all loc_dec (setup_loops m nc Y) mem e ->
  let mass := fun mat sid => mem (Mass mat sid) in
  (forall c, (c < nc)%nat -> e (CMass c) = setup_corner_mass m Y mass c) /\
  (forall n, (n < num_nodes m)%nat -> e (NMass n) = calc_node_mass m (setup_corner_mass m Y mass) n).
Proof.
  intros CO LO LO1 HC H. cbn zeta. unfold setup_loops in H.
  inversion H as [|? ? ? m1 ? Z1 H1]; subst. inversion H1 as [|? ? ? m2 ? Z2 H2]; subst. apply exec_all_app in H2 as (m3 & H3 & H4).
  inversion H4 as [|? ? ? m4 ? H5 H6]; subst. inversion H6; subst. clear H H1 H4 H6.
  destruct (race_free_ends loc_dec (zero_nodes m) mem (zero_free _ _ _)) as (_ & _ & U1). specialize (U1 m1 Z1).
  destruct (race_free_ends loc_dec (zero_corners nc) m1 (zero_free _ _ _)) as (_ & _ & U2). specialize (U2 m2 Z2).
  assert (I1 : forall i j, NMass i = NMass j -> i = j) by (intros; congruence). assert (I2 : forall i j, CMass i = CMass j -> i = j) by (intros; congruence).
  assert (V : forall x, m2 x = match x with CMass c => if Nat.ltb c nc then 0 else mem x | NMass n => if Nat.ltb n (num_nodes m) then 0 else mem x | _ => mem x end).
  { intros x. rewrite U2. unfold zero_corners. rewrite (zero_serial CMass nc m1 x I2), U1. unfold zero_nodes. rewrite (zero_serial NMass (num_nodes m) mem x I1).
    destruct x; rewrite ?(existsb_none CMass), ?(existsb_none NMass) by (intros; discriminate); try reflexivity.
    - now apply existsb_zero.
    - now apply existsb_zero. }
  assert (U3 := all_corner_masses m Y (seq 0 (num_mats Y)) CO LO (fun k Hk => conj (proj2 (proj1 (in_seq _ _ _) Hk)) (LO1 k (proj2 (proj1 (in_seq _ _ _) Hk)))) m2 m3 H3).
  destruct (node_mass_any m m3) as (_ & _ & U4). specialize (U4 _ H5).
  assert (C : forall c, (c < nc)%nat -> m3 (CMass c) = setup_corner_mass m Y (fun mat sid => mem (Mass mat sid)) c).
  { intros c Hc. rewrite U3. unfold setup_corner_mass.
    apply (fold_rel (fun a b : nat -> R => a c = b c)).
    - intros a b k _ Hab. transitivity (calc_corner_mass m (num_mat_elems Y k) (elem_in_mat Y k) (fun sid => m2 (Mass k sid)) b c); [now apply calc_corner_mass_at|].
      unfold calc_corner_mass. apply (fold_rel (fun a b : nat -> R => a c = b c)); [|reflexivity]. intros a1 b1 sid _ E1.
      apply (fold_rel (fun a b : nat -> R => a c = b c)); [|exact E1]. intros a2 b2 l _ E2. cbn zeta. unfold fupd. rewrite (V (Mass k sid)).
      destruct (Nat.eqb_spec c (corners_in_elem m (elem_in_mat Y k sid) l)) as [<-|]; [now rewrite E2|exact E2].
    - rewrite V. apply Nat.ltb_lt in Hc. now rewrite Hc. }
  split.
  - intros c Hc. rewrite U4. now apply C.
  - intros n Hn. rewrite U4, (U3 (NMass n)), V. assert (Hn' := Hn). apply Nat.ltb_lt in Hn. rewrite Hn. unfold calc_node_mass.
    assert (G : forall cs a, (forall c, In c cs -> (c < nc)%nat) -> fold_left (fun acc c => acc + m3 (CMass c)) cs a =
       fold_left (fun acc c => acc + setup_corner_mass m Y (fun mat sid => mem (Mass mat sid)) c) cs a).
    { induction cs as [|c cs IH]; intros a Hcs; [reflexivity|]. cbn [fold_left]. rewrite (C c) by (apply Hcs; now left). apply IH. intros; apply Hcs; now right. }
    apply G. intros c Hc. now apply (HC n).
Qed.

(** ** Lost updates *)

Definition add_eighth (x w : loc) (r : thread) : thread := Rd x (fun y => Rd w (fun v => Wr x (y + 1 / 8 * v) r)).

Lemma lost_two x w0 w1 r0 r1 mem : x <> w0 -> x <> w1 ->
  (forall m1, solo loc_dec r0 m1 x = m1 x /\ solo loc_dec r0 m1 w1 = m1 w1) -> (forall m1, solo loc_dec r1 m1 x = m1 x /\ solo loc_dec r1 m1 w0 = m1 w0) ->
  (exists f, exec loc_dec [add_eighth x w0 r0; add_eighth x w1 r1] mem f /\ f x = mem x + 1 / 8 * mem w0 + 1 / 8 * mem w1) /\
  (exists f, exec loc_dec [add_eighth x w0 r0; add_eighth x w1 r1] mem f /\ f x = mem x + 1 / 8 * mem w0).
Proof.
  intros N0 N1 H0 H1. split.
  - exists (serial loc_dec [add_eighth x w0 r0; add_eighth x w1 r1] mem). split; [apply exec_serial|]. unfold serial, add_eighth. cbn [fold_left solo].
    rewrite (proj1 (H1 _)), store_eq. rewrite (proj1 (H0 _)), store_eq, (proj2 (H0 _)). now rewrite (store_neq loc_dec) by congruence.
  - exists (solo loc_dec (Rd w0 (fun v => Wr x (mem x + 1 / 8 * v) r0)) (solo loc_dec (add_eighth x w1 r1) mem)). split.
    + eapply exec_step; [apply (step_thread loc_dec [] (add_eighth x w0 r0) [add_eighth x w1 r1] mem (Rd w0 (fun v => Wr x (mem x + 1 / 8 * v) r0)) mem); reflexivity|].
      apply (exec_solo loc_dec [Rd w0 (fun v => Wr x (mem x + 1 / 8 * v) r0)] (add_eighth x w1 r1) []).
      apply (exec_solo loc_dec [] _ [Done]). constructor. repeat constructor.
    + unfold add_eighth. cbn [solo]. rewrite (proj1 (H0 _)), store_eq, (proj2 (H1 _)). now rewrite (store_neq loc_dec) by congruence.
Qed.

Lemma corner_mass_unroll m ei mat sid : corner_mass_thread m ei mat sid =
  add_eighth (CMass (corners_in_elem m (ei sid) 0)) (Mass mat sid) (each (seq 1 7) (fun l k => add_eighth (CMass (corners_in_elem m (ei sid) l)) (Mass mat sid) k) Done).
Proof. reflexivity. Qed.

Lemma corner_mass_two m Y mat : num_mat_elems Y mat = 2%nat ->
  corner_mass_loop m Y mat = [corner_mass_thread m (elem_in_mat Y mat) mat 0; corner_mass_thread m (elem_in_mat Y mat) mat 1].
Proof. intros H. unfold corner_mass_loop. rewrite H. reflexivity. Qed.

Lemma lost_update m Y mat mem e : corners_ok 8 m -> num_mat_elems Y mat = 2%nat -> elem_in_mat Y mat 0 = e -> elem_in_mat Y mat 1 = e -> (e < num_elems m)%nat ->
  let c := corners_in_elem m e 0 in
  (exists f, exec loc_dec (corner_mass_loop m Y mat) mem f /\ f (CMass c) = mem (CMass c) + 1 / 8 * mem (Mass mat 0%nat) + 1 / 8 * mem (Mass mat 1%nat)) /\
  (exists f, exec loc_dec (corner_mass_loop m Y mat) mem f /\ f (CMass c) = mem (CMass c) + 1 / 8 * mem (Mass mat 0%nat)).
Proof.
  intros CO H2 E0 E1 He. cbn zeta. rewrite (corner_mass_two m Y mat H2), !corner_mass_unroll, E0, E1.
  assert (Rest : forall sid m1, (solo loc_dec (each (seq 1 7) (fun l k => add_eighth (CMass (corners_in_elem m e l)) (Mass mat sid) k) Done) m1 (CMass (corners_in_elem m e 0)) = m1 (CMass (corners_in_elem m e 0)))
     /\ (forall p, solo loc_dec (each (seq 1 7) (fun l k => add_eighth (CMass (corners_in_elem m e l)) (Mass mat sid) k) Done) m1 (Mass mat p) = m1 (Mass mat p))).
  { intros sid m1.
    assert (O : only (fun x => exists l, (1 <= l < 8)%nat /\ x = CMass (corners_in_elem m e l)) (fun _ => True) (each (seq 1 7) (fun l k => add_eighth (CMass (corners_in_elem m e l)) (Mass mat sid) k) Done)).
    { apply only_each; [|exact I]. intros l k Hl Hk. apply in_seq in Hl. cbn [only add_eighth]. split; [exact I|]. intros v. split; [exact I|]. intros w. split; [exists l; split; [lia|reflexivity]|exact Hk]. }
    split; [|intros p]; apply (solo_only loc_dec _ _ _ O).
    - intros (l & Hl & E). injection E as E. apply (ok_distinct _ _ CO) in E; [lia|assumption|lia|assumption|lia].
    - intros (l & Hl & E). discriminate. }
  apply lost_two; [discriminate|discriminate| |]; intros m1; (split; [apply Rest|apply (proj2 (Rest _ _))]).
Qed.

(** ** Painting of shared nodes *)

Definition elem_nodes (m : mesh3) (e : nat) : list nat := map (nodes_in m e) (seq 0 8).

Lemma paint_solo m fills value e mem x : solo loc_dec (paint_thread m fills value e) mem x =
  match x with Vel n d => if Nat.ltb d 3 then paint_nodes (elem_nodes m) fills value [e] (fun n d => mem (Vel n d)) n d else mem x | _ => mem x end.
Proof.
  unfold paint_thread, paint_nodes. cbn [fold_left].
  set (wr := fun (n : nat) (u : nat -> R) (m1 : loc -> R) => fold_left (fun m1 d => store loc_dec m1 (Vel n d) (u d)) (seq 0 3) m1).
  rewrite (solo_each loc_dec _ _ (fun f m1 => fold_left (fun m1 l => match value f (nodes_in m e l) with Some u => wr (nodes_in m e l) u m1 | None => m1 end) (seq 0 8) m1)).
  2:{ intros f k m1 _. rewrite (solo_each loc_dec _ _ (fun l m1 => match value f (nodes_in m e l) with Some u => wr (nodes_in m e l) u m1 | None => m1 end)); [reflexivity|].
      intros l k' m2 _. destruct (value f (nodes_in m e l)) as [u|]; [|reflexivity].
      rewrite (solo_each loc_dec _ _ (fun d m1 => store loc_dec m1 (Vel (nodes_in m e l) d) (u d))) by reflexivity. reflexivity. }
  cbn [solo].
  set (P := fun (m1 : loc -> R) (fld : nat -> nat -> R) => forall x, m1 x = match x with Vel n d => if Nat.ltb d 3 then fld n d else mem x | _ => mem x end).
  match goal with |- ?A x = _ => cut (P A (fold_left (fun f fid => fold_left (fun f n => match value fid n with Some v => fun x => if Nat.eqb x n then v else f x | None => f end) (elem_nodes m e) f) (fills e) (fun n d => mem (Vel n d)))) end; [intros H; exact (H x)|].
  apply fold_rel; [|intros []; try reflexivity; now destruct (Nat.ltb d 3)]. intros m1 fld f _ H. unfold elem_nodes.
  assert (Map : forall A B C (g : A -> C -> A) (h : B -> C) l a, fold_left g (map h l) a = fold_left (fun a b => g a (h b)) l a).
  { clear. intros A B C g h l. induction l as [|b l IH]; intros a; [reflexivity|]. cbn [map fold_left]. apply IH. }
  rewrite Map. apply fold_rel; [|exact H]. intros m2 fld2 l _ H2. destruct (value f (nodes_in m e l)) as [u|]; [|exact H2].
  intros y. unfold wr. cbn [seq fold_left]. set (nd := nodes_in m e l).
  destruct (loc_dec y (Vel nd 2)) as [->|N2]; [st; now rewrite Nat.eqb_refl|]. rewrite (store_neq loc_dec) by assumption.
  destruct (loc_dec y (Vel nd 1)) as [->|N1]; [st; now rewrite Nat.eqb_refl|]. rewrite (store_neq loc_dec) by assumption.
  destruct (loc_dec y (Vel nd 0)) as [->|N0]; [st; now rewrite Nat.eqb_refl|]. rewrite (store_neq loc_dec) by assumption.
  rewrite H2. destruct y; try reflexivity. destruct (Nat.eqb_spec n nd) as [->|]; [|reflexivity]. destruct d as [|[|[|d]]]; [congruence..|reflexivity].
Qed.

Lemma paint_nodes_at {V} nie sl (value : nat -> nat -> option (nat -> V)) order f g n d : f n d = g n d ->
  paint_nodes nie sl value order f n d = paint_nodes nie sl value order g n d.
Proof.
  intros H. unfold paint_nodes. apply (fold_rel (fun a b : nat -> nat -> V => a n d = b n d)); [|exact H]. intros a b e _ Hab.
  apply (fold_rel (fun a b : nat -> nat -> V => a n d = b n d)); [|exact Hab]. intros a1 b1 fid _ H1.
  apply (fold_rel (fun a b : nat -> nat -> V => a n d = b n d)); [|exact H1]. intros a2 b2 k _ H2. destruct (value fid k) as [v|]; [|exact H2].
  destruct (Nat.eqb n k); [reflexivity|exact H2].
Qed.

Lemma paint_serial m fills value order mem x :
  fold_left (fun m1 e => solo loc_dec (paint_thread m fills value e) m1) order mem x =
  match x with Vel n d => if Nat.ltb d 3 then paint_nodes (elem_nodes m) fills value order (fun n d => mem (Vel n d)) n d else mem x | _ => mem x end.
Proof.
  revert mem. induction order as [|e order IH]; intros mem; [destruct x; try reflexivity; now destruct (Nat.ltb d 3)|].
  cbn [fold_left]. rewrite IH. destruct x; try apply paint_solo. destruct (Nat.ltb d 3) eqn:Ed; [|rewrite paint_solo; now rewrite Ed].
  unfold paint_nodes at 2. cbn [fold_left]. match goal with |- _ = fold_left ?F order ?A n d => change (fold_left F order A) with (paint_nodes (elem_nodes m) fills value order A) end.
  apply paint_nodes_at. rewrite paint_solo, Ed. reflexivity.
Qed.

Lemma paint_order m fills value order mem : Permutation order (seq 0 (num_elems m)) ->
  exists e, exec loc_dec (paint_loop m fills value) mem e /\
    forall n d, (d < 3)%nat -> e (Vel n d) = paint_nodes (elem_nodes m) fills value order (fun n d => mem (Vel n d)) n d.
Proof.
  intros H. exists (fold_left (fun m1 i => solo loc_dec (nth i (paint_loop m fills value) Done) m1) order mem). split.
  - apply exec_order.
    + eapply Permutation_NoDup; [symmetry; exact H|apply seq_NoDup].
    + intros i Hi. unfold paint_loop. rewrite map_length, seq_length. apply (Permutation_in _ H) in Hi. apply in_seq in Hi. lia.
    + intros i p Hp _. apply (Permutation_in _ (Permutation_sym H)). apply in_seq. split; [lia|].
      assert (i < length (paint_loop m fills value))%nat by (apply nth_error_Some; congruence). unfold paint_loop in *. rewrite map_length, seq_length in *. lia.
  - intros n d Hd. transitivity (fold_left (fun m1 e => solo loc_dec (paint_thread m fills value e) m1) order mem (Vel n d)).
    + assert (B : forall i, In i order -> (i < num_elems m)%nat) by (intros i Hi; apply (Permutation_in _ H) in Hi; apply in_seq in Hi; lia).
      match goal with |- ?A (Vel n d) = ?B (Vel n d) => cut (A = B); [intros ->; reflexivity|] end. clear H. revert mem. induction order as [|i order IH]; intros mem; [reflexivity|]. cbn [fold_left].
      replace (nth i (paint_loop m fills value) Done) with (paint_thread m fills value i).
      * apply IH. intros; apply B; now right.
      * unfold paint_loop. rewrite (nth_indep _ Done (paint_thread m fills value 0)) by (rewrite map_length, seq_length; apply B; now left).
        rewrite map_nth, seq_nth by (apply B; now left). reflexivity.
    + rewrite paint_serial. apply Nat.ltb_lt in Hd. now rewrite Hd.
Qed.

Lemma paint_agree m fills value mem :
  (forall e e' f f' n u u' d, (e < num_elems m)%nat -> (e' < num_elems m)%nat -> e <> e' -> In f (fills e) -> In f' (fills e') ->
     In n (elem_nodes m e) -> In n (elem_nodes m e') -> value f n = Some u -> value f' n = Some u' -> (d < 3)%nat -> u d = u' d) ->
  always_ends_in loc_dec (paint_loop m fills value) mem (fun x => match x with
    | Vel n d => if Nat.ltb d 3 then paint_nodes (elem_nodes m) fills value (seq 0 (num_elems m)) (fun n d => mem (Vel n d)) n d else mem x
    | _ => mem x
    end).
Proof.
  intros H. apply (always_ext loc_dec _ mem (serial loc_dec (paint_loop m fills value) mem)); [intros x; unfold paint_loop; rewrite serial_map; apply paint_serial|].
  apply race_free_ends. set (W := fun e x v => exists f n u d, In f (fills e) /\ In n (elem_nodes m e) /\ value f n = Some u /\ (d < 3)%nat /\ x = Vel n d /\ v = u d).
  assert (PW : forall e, paints (W e) (paint_thread m fills value e)).
  { intros e. unfold paint_thread. apply paints_each; [|exact I]. intros f k Hf Hk. apply paints_each; [|exact Hk]. intros l k' Hl Hk'.
    destruct (value f (nodes_in m e l)) as [u|] eqn:Ev; [|exact Hk']. apply paints_each; [|exact Hk']. intros d k2 Hd Hk2. cbn [paints]. split; [|exact Hk2].
    exists f, (nodes_in m e l), u, d. apply in_seq in Hd. repeat split; auto; [|lia]. unfold elem_nodes. now apply in_map. }
  intros i j p q x v Hij Hp Hq Hx. unfold paint_loop in Hp, Hq. rewrite nth_error_map in Hp, Hq.
  destruct (nth_error (seq 0 (num_elems m)) i) as [i'|] eqn:Ei; [|discriminate]. destruct (nth_error (seq 0 (num_elems m)) j) as [j'|] eqn:Ej; [|discriminate].
  assert (Hi : (i < num_elems m)%nat) by (rewrite <- (seq_length (num_elems m) 0); apply nth_error_Some; congruence).
  assert (Hj : (j < num_elems m)%nat) by (rewrite <- (seq_length (num_elems m) 0); apply nth_error_Some; congruence).
  apply (nth_error_nth _ _ O) in Ei. rewrite seq_nth in Ei by assumption. apply (nth_error_nth _ _ O) in Ej. rewrite seq_nth in Ej by assumption.
  cbn in Ei, Ej. subst i' j'. injection Hp as <-. injection Hq as <-.
  destruct (paints_events loc_dec _ _ (PW i) mem) as [Wi _]. destruct (paints_events loc_dec _ _ (PW j) mem) as [Wj Qj].
  split; [apply Qj|]. intros w Hw. destruct (Wi x v Hx) as (f & n & u & d & H1 & H2 & H3 & H4 & -> & ->).
  destruct (Wj _ w Hw) as (f' & n' & u' & d' & H1' & H2' & H3' & H4' & E & ->). injection E as <- <-.
  symmetry. now apply (H i j f f' n u u' d).
Qed.
