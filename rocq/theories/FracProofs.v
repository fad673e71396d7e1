(** Proofs about the cohesive zones: pairs of nodes and matched faces. *)
From Coq Require Import Reals List Lia Lra Permutation.
From Verif Require Import BaseArr BaseReal FracModel FracSpec.
From Verif Require SghModel.
Import ListNotations.
Open Scope R_scope.

Lemma overlap_spec x tol a b : overlap x tol a b = true <-> coincident x tol a b.
Proof.
  unfold overlap, coincident. rewrite forallb_forall. split.
  - intros H k K. specialize (H k). destruct (Rlt_dec tol (Rabs (x a k - x b k))); [|lra].
    assert (In k [0; 1; 2]%nat) by (cbn; lia). apply H in H0. discriminate.
  - intros H k K. specialize (H k). destruct (Rlt_dec tol (Rabs (x a k - x b k))); [|reflexivity].
    assert ((k < 3)%nat) by (cbn in K; lia). specialize (H H0). lra.
Qed.

Lemma in_index_pairs nb i j : In (i, j) (index_pairs nb) <-> (i < j /\ j < nb)%nat.
Proof.
  unfold index_pairs. rewrite in_flat_map. split.
  - intros [k [K H]]. apply in_seq in K. apply in_map_iff in H. destruct H as [l [E L]]. inversion E; subst. apply in_seq in L. lia.
  - intros H. exists i. split; [apply in_seq; lia|]. apply in_map_iff. exists j. split; [reflexivity|]. apply in_seq. lia.
Qed.

Lemma NoDup_flat_map_fst {B} (f : nat -> list (nat * B)) l : NoDup l -> (forall i, In i l -> NoDup (f i)) ->
  (forall i y, In y (f i) -> fst y = i) -> NoDup (flat_map f l).
Proof.
  intros Hl Hf Hk. induction Hl as [|i l N Hl IH]; [constructor|]. cbn [flat_map].
  assert (D : forall y, In y (f i) -> ~ In y (flat_map f l)).
  { intros y Y Z. apply in_flat_map in Z. destruct Z as [k [K Z]]. apply Hk in Y. apply Hk in Z. congruence. }
  assert (N1 : NoDup (f i)) by (apply Hf; left; reflexivity).
  assert (N2 : NoDup (flat_map f l)) by (apply IH; intros; apply Hf; right; assumption).
  revert D N1. generalize (f i). intros m. induction m as [|y m IHm]; intros D N1; [exact N2|]. cbn [app]. inversion N1; subst.
  constructor.
  - rewrite in_app_iff. intros [A|A]; [contradiction|]. exact (D y (or_introl eq_refl) A).
  - apply IHm; [intros; apply D; right; assumption|assumption].
Qed.

Lemma index_pairs_nodup nb : NoDup (index_pairs nb).
Proof.
  unfold index_pairs. apply NoDup_flat_map_fst.
  - apply seq_NoDup.
  - intros i _. apply FinFun.Injective_map_NoDup; [|apply seq_NoDup]. intros a b E. inversion E. reflexivity.
  - intros i y Y. apply in_map_iff in Y. destruct Y as [j [E _]]. subst. reflexivity.
Qed.

Definition chosen (x : nat -> vec) tol (bdy : nat -> nat) (l : list (nat * nat)) : list (nat * nat) :=
  filter (fun '(i, j) => overlap x tol (bdy i) (bdy j)) l.

Lemma count_chosen x tol bdy l c :
  fold_left (fun c '(i, j) => if overlap x tol (bdy i) (bdy j) then (c + 1)%nat else c) l c = (c + length (chosen x tol bdy l))%nat.
Proof.
  revert c. induction l as [|[i j] l IH]; intros c; [cbn; lia|]. cbn [fold_left chosen filter].
  rewrite IH. fold (chosen x tol bdy l). destruct (overlap x tol (bdy i) (bdy j)); cbn [length]; lia.
Qed.

Lemma fill_spec x tol (bdy : nat -> nat) l : forall (t : arr nat) p,
  (p + length (chosen x tol bdy l) <= nrow t)%nat -> ncol t = 2%nat ->
  exists t', for_each l
    (fun '(i, j) '(t, p) =>
       if overlap x tol (bdy i) (bdy j) then
         obind (aset t p 0 (bdy i)) (fun t => obind (aset t p 1 (bdy j)) (fun t => Some (t, (p + 1)%nat)))
       else Some (t, p)) (t, p) = Some (t', (p + length (chosen x tol bdy l))%nat) /\
    nrow t' = nrow t /\ ncol t' = 2%nat /\
    (forall q c, (q < p)%nat -> dat t' q c = dat t q c) /\
    (forall q, (q < length (chosen x tol bdy l))%nat ->
       dat t' (p + q) 0 = Some (bdy (fst (nth q (chosen x tol bdy l) (O, O)))) /\
       dat t' (p + q) 1 = Some (bdy (snd (nth q (chosen x tol bdy l) (O, O))))).
Proof.
  induction l as [|[i j] l IH]; intros t p Hr Hc.
  - exists t. cbn. rewrite Nat.add_0_r. repeat split; auto; lia.
  - cbn [for_each chosen filter] in *. fold (chosen x tol bdy l) in *.
    destruct (overlap x tol (bdy i) (bdy j)); cbn [length] in *.
    + unfold aset at 1. assert (L : Nat.ltb p (nrow t) = true) by (apply Nat.ltb_lt; lia).
      rewrite L, Hc. cbn [Nat.ltb Nat.leb andb obind]. unfold aset at 1. cbn [nrow ncol dat]. rewrite L, ?Hc. cbn [Nat.ltb Nat.leb andb obind].
      match goal with |- context [for_each l _ (?a, _)] => set (t1 := a) end.
      destruct (IH t1 (p + 1)%nat) as (t' & E & H1 & H2 & H3 & H4); [cbn; lia|reflexivity|].
      exists t'. rewrite E. replace (p + 1 + length (chosen x tol bdy l))%nat with (p + S (length (chosen x tol bdy l)))%nat by lia.
      split; [reflexivity|]. split; [rewrite H1; reflexivity|]. split; [exact H2|]. split.
      * intros q c Q. rewrite H3 by lia. subst t1. cbn [dat]. replace (Nat.eqb q p) with false by (symmetry; apply Nat.eqb_neq; lia). reflexivity.
      * intros q Q. destruct q as [|q].
        -- rewrite Nat.add_0_r. rewrite !H3 by lia. subst t1. cbn [dat nth fst snd]. rewrite Nat.eqb_refl. cbn [Nat.eqb andb]. split; reflexivity.
        -- replace (p + S q)%nat with (p + 1 + q)%nat by lia. cbn [nth]. apply H4. lia.
    + cbn [obind]. apply IH; assumption.
Qed.

Lemma pairs_spec x tol nb bdy : exists t idx,
  overlapping_pairs x tol nb bdy = Some (t, length idx) /\ nrow t = length idx /\ ncol t = 2%nat /\ NoDup idx /\
  (forall i j, In (i, j) idx <-> (i < j /\ j < nb)%nat /\ coincident x tol (bdy i) (bdy j)) /\
  (forall p, (p < length idx)%nat -> aget t p 0 = Some (bdy (fst (nth p idx (O, O)))) /\ aget t p 1 = Some (bdy (snd (nth p idx (O, O))))).
Proof.
  pose (idx := chosen x tol bdy (index_pairs nb)).
  assert (C : count_pairs x tol nb bdy = length idx) by (unfold count_pairs; rewrite count_chosen; reflexivity).
  unfold overlapping_pairs, fill_pairs. rewrite C.
  destruct (fill_spec x tol bdy (index_pairs nb) (new_arr (length idx) 2) O) as (t & E & H1 & H2 & H3 & H4); [unfold idx; cbn; lia|reflexivity|].
  exists t, idx. split; [exact E|]. split; [exact H1|]. split; [exact H2|]. split; [apply NoDup_filter, index_pairs_nodup|]. split.
  - intros i j. unfold idx, chosen. rewrite filter_In, in_index_pairs, overlap_spec. reflexivity.
  - intros p P. unfold aget. rewrite H1, H2. cbn [nrow new_arr]. replace (Nat.ltb p (length idx)) with true by (symmetry; apply Nat.ltb_lt; exact P).
    cbn [Nat.ltb Nat.leb andb]. apply (H4 p P).
Qed.

(** every element of either node of a pair has a slot *)
Lemma elem_count_ge (elems : nat -> list nat) pairs m : (m <= fold_left (fun m '(a, b) => Nat.max (Nat.max m (length (elems a))) (length (elems b))) pairs m)%nat.
Proof. revert m. induction pairs as [|[a b] l IH]; intros m; cbn [fold_left]; [lia|]. specialize (IH (Nat.max (Nat.max m (length (elems a))) (length (elems b)))). lia. Qed.
Lemma elem_count_in elems pairs a b : In (a, b) pairs ->
  (length (elems a) <= elem_count elems pairs /\ length (elems b) <= elem_count elems pairs)%nat.
Proof.
  unfold elem_count. generalize O. induction pairs as [|[c d] l IH]; intros m H; [contradiction|]. destruct H as [H|H]; cbn [fold_left].
  - inversion H; subst. pose proof (elem_count_ge elems l (Nat.max (Nat.max m (length (elems a))) (length (elems b)))). lia.
  - apply IH. exact H.
Qed.

(** ** Matched faces *)
Lemma faces_match_spec x nodes tol eA fA eB fB : faces_match x nodes tol eA fA eB fB = true <-> facing x (nodes eA) (nodes eB) tol fA fB.
Proof.
  unfold faces_match, facing, vminus. destruct (Rle_dec _ tol); [destruct (Rle_dec _ (-1 + tol))|]; split; intros; try discriminate; auto; tauto.
Qed.

Lemma find_corner_spec nodes e g k : find_corner nodes e g = Some k -> (k < 8)%nat /\ nodes e k = g.
Proof.
  unfold find_corner. intros H. apply find_some in H. destruct H as [H1 H2]. apply in_seq in H1. apply Nat.eqb_eq in H2. split; [lia|exact H2].
Qed.
Lemma find_corner_ex nodes e g : (exists k, (k < 8)%nat /\ nodes e k = g) -> exists k, find_corner nodes e g = Some k.
Proof.
  intros [k [K E]]. unfold find_corner. destruct (find _ (seq 0 8)) eqn:F; [eauto|]. exfalso.
  pose proof (find_none _ _ F k) as N. rewrite in_seq in N. cbn beta in N. rewrite E, Nat.eqb_refl in N. specialize (N ltac:(lia)). discriminate.
Qed.

Lemma three_faces_corner nodes k f g : (k < 8)%nat -> nodes k = g -> In f (three_faces k) -> corner_of nodes f g.
Proof.
  intros K E F. do 8 (destruct k as [|k];
    [cbn in F; destruct F as [F|[F|[F|[]]]]; subst f; eexists; eexists; (split; [reflexivity|split; [|exact E]]; cbn; tauto)|]). lia.
Qed.

(** and these are all the faces of the cube with that corner *)
Lemma corner_three_faces k f fc : face_corners f = Some fc -> In k fc -> In f (three_faces k).
Proof.
  intros F K. do 6 (destruct f as [|f]; [inversion F; subst fc; cbn in K; repeat (destruct K as [K|K]; [subst k; cbn; tauto|]); contradiction|]).
  discriminate.
Qed.

Lemma in_candidates elems nodes mx nodeB mB kA fA sB eB fB :
  In (fA, sB, eB, fB) (candidates elems nodes mx nodeB mB kA) <->
  In fA (three_faces kA) /\ (sB < mx)%nat /\ slot_elem elems mx nodeB sB = Some eB /\ mB sB = None /\
  exists kB, find_corner nodes eB nodeB = Some kB /\ In fB (three_faces kB).
Proof.
  unfold candidates. rewrite in_flat_map. split.
  - intros [f [Hf H]]. apply in_flat_map in H. destruct H as [s [Hs H]]. apply in_seq in Hs.
    destruct (slot_elem elems mx nodeB s) as [e|] eqn:SE; [|contradiction]. destruct (mB s) eqn:M; [contradiction|].
    destruct (find_corner nodes e nodeB) as [k|] eqn:FC; [|contradiction]. apply in_map_iff in H. destruct H as [g [E G]]. inversion E; subst.
    split; [exact Hf|]. split; [lia|]. split; [exact SE|]. split; [exact M|]. eauto.
  - intros (Hf & Hs & SE & M & k & FC & G). exists fA. split; [exact Hf|]. apply in_flat_map. exists sB. split; [apply in_seq; lia|].
    rewrite SE, M, FC. apply in_map_iff. exists fB. split; [reflexivity|exact G].
Qed.

Section Matching.
  Variables (x : nat -> vec) (elems : nat -> list nat) (nodes : nat -> nat -> nat) (tol : R) (mx nodeA nodeB : nat).
  Local Notation eA s := (slot_elem elems mx nodeA s).
  Local Notation eB s := (slot_elem elems mx nodeB s).

  (** a match between two slots *)
  Definition matched_ok (m : slots) (sA sB : nat) : Prop :=
    exists a b fA fB, eA sA = Some a /\ eB sB = Some b /\ fst m sA = Some fA /\ snd m sB = Some fB /\
      corner_of (nodes a) fA nodeA /\ corner_of (nodes b) fB nodeB /\ facing x (nodes a) (nodes b) tol fA fB.

  Definition match_inv (m : slots) (done : nat) : Prop :=
    exists P : nat -> option nat,
      (forall s, (exists f, fst m s = Some f) <-> exists s', P s = Some s') /\
      (forall s', (exists f, snd m s' = Some f) <-> exists s, P s = Some s') /\
      (forall s s', P s = Some s' -> (s < done)%nat /\ matched_ok m s s') /\
      (forall s1 s2 s', P s1 = Some s' -> P s2 = Some s' -> s1 = s2).

  Lemma match_slot_inv m d : match_inv m d -> match_inv (match_slot x elems nodes tol mx nodeA nodeB m d) (S d).
  Proof.
    intros (P & H1 & H2 & H3 & H4).
    assert (W : match_inv m (S d)).
    { exists P. split; [exact H1|]. split; [exact H2|]. split; [|exact H4]. intros s s' H. destruct (H3 s s' H) as [L M]. split; [lia|exact M]. }
    unfold match_slot. destruct (eA d) as [a|] eqn:EA; [|exact W]. destruct (fst m d) eqn:MA; [exact W|].
    destruct (find_corner nodes a nodeA) as [kA|] eqn:FC; [|exact W].
    destruct (find _ _) as [[[[fA sB] b] fB]|] eqn:FD; [|exact W].
    apply find_some in FD. destruct FD as [IN FM]. apply in_candidates in IN. destruct IN as (INA & SB & EB & MB & kB & FCB & INB).
    apply faces_match_spec in FM. apply find_corner_spec in FC. apply find_corner_spec in FCB.
    assert (PD : P d = None). { destruct (P d) eqn:PD; [|reflexivity]. destruct (H3 d n PD). lia. }
    assert (PB : forall s, P s <> Some sB).
    { intros s E. destruct (H2 sB) as [_ H]. destruct H as [f F]; [eauto|]. congruence. }
    exists (SghModel.fupd P d (Some sB)). unfold SghModel.fupd. cbn [fst snd]. split; [|split; [|split]].
    - intros s. split.
      + intros [f F]. destruct (Nat.eqb s d) eqn:E; [eauto|]. apply H1. eauto.
      + intros [s' S']. destruct (Nat.eqb s d) eqn:E; [eauto|]. apply H1. eauto.
    - intros s'. split.
      + intros [f F]. destruct (Nat.eqb_spec s' sB) as [->|E].
        * exists d. rewrite Nat.eqb_refl. reflexivity.
        * destruct (proj1 (H2 s')) as [s S]; [eauto|]. exists s. destruct (Nat.eqb_spec s d) as [->|]; [congruence|exact S].
      + intros [s S]. destruct (Nat.eqb_spec s' sB) as [->|E]; [eauto|]. apply (proj2 (H2 s')). destruct (Nat.eqb_spec s d) as [D|]; [congruence|exists s; exact S].
    - intros s s' H. split; [destruct (Nat.eqb_spec s d) as [->|E]; [lia|]; destruct (H3 s s' H); lia|].
      destruct (Nat.eqb_spec s d) as [->|E].
      + inversion H; subst s'. exists a, b, fA, fB. cbn [fst snd]. rewrite !Nat.eqb_refl. repeat split; auto; try apply FM.
        * eapply three_faces_corner; [apply FC|apply FC|exact INA].
        * eapply three_faces_corner; [apply FCB|apply FCB|exact INB].
      + destruct (H3 s s' H) as [_ (a' & b' & f1 & f2 & ? & ? & ? & ? & ? & ? & ?)]. exists a', b', f1, f2. cbn [fst snd].
        destruct (Nat.eqb_spec s d) as [->|_]; [congruence|]. destruct (Nat.eqb_spec s' sB) as [->|_]; [congruence|].
        repeat split; auto; match goal with HF : facing _ _ _ _ _ _ |- _ => apply HF end.
    - intros s1 s2 s' A B. destruct (Nat.eqb_spec s1 d) as [->|]; destruct (Nat.eqb_spec s2 d) as [->|]; auto.
      + inversion A; subst s'. destruct (PB s2 B).
      + inversion B; subst s'. destruct (PB s1 A).
      + eapply H4; eauto.
  Qed.

  Lemma match_fold n : forall d m, match_inv m d ->
    match_inv (fold_left (match_slot x elems nodes tol mx nodeA nodeB) (seq d n) m) (d + n).
  Proof.
    induction n as [|n IH]; intros d m H; cbn [seq fold_left]; [rewrite Nat.add_0_r; exact H|].
    replace (d + S n)%nat with (S d + n)%nat by lia. apply IH, match_slot_inv, H.
  Qed.

  Lemma match_faces_inv : match_inv (match_faces x elems nodes tol mx nodeA nodeB) mx.
  Proof.
    unfold match_faces. change mx with (0 + mx)%nat at 3. apply match_fold.
    exists (fun _ => None). cbn [fst snd]. split; [|split; [|split]].
    - intros s. split; intros [? H]; discriminate H.
    - intros s. split; intros [? H]; discriminate H.
    - intros s s' H. discriminate H.
    - intros s1 s2 s' H. discriminate H.
  Qed.

  (** monotonicity: matches are never undone *)
  Lemma match_slot_mono m d s f : snd m s = Some f -> exists f', snd (match_slot x elems nodes tol mx nodeA nodeB m d) s = Some f'.
  Proof.
    intros H. unfold match_slot. destruct (eA d); [|eauto]. destruct (fst m d); [eauto|]. destruct (find_corner _ _ _); [|eauto].
    destruct (find _ _) as [[[[fA sB] b] fB]|]; [|eauto]. cbn [snd]. unfold SghModel.fupd. destruct (Nat.eqb s sB); eauto.
  Qed.
  Lemma match_slot_mono_none m d s : snd (match_slot x elems nodes tol mx nodeA nodeB m d) s = None -> snd m s = None.
  Proof. intros H. destruct (snd m s) eqn:E; [|reflexivity]. destruct (match_slot_mono m d s n E). congruence. Qed.
  Lemma match_fold_mono l : forall m s, snd (fold_left (match_slot x elems nodes tol mx nodeA nodeB) l m) s = None -> snd m s = None.
  Proof. induction l as [|d l IH]; intros m s H; [exact H|]. cbn [fold_left] in H. apply IH in H. apply match_slot_mono_none in H. exact H. Qed.
  Lemma match_slot_A m d s : fst m s = None -> s <> d -> fst (match_slot x elems nodes tol mx nodeA nodeB m d) s = None.
  Proof.
    intros H D. unfold match_slot. destruct (eA d); [|exact H]. destruct (fst m d); [exact H|]. destruct (find_corner _ _ _); [|exact H].
    destruct (find _ _) as [[[[fA sB] b] fB]|]; [|exact H]. cbn [fst]. unfold SghModel.fupd. destruct (Nat.eqb_spec s d); [contradiction|exact H].
  Qed.
  Lemma match_slot_A_none m d s : fst (match_slot x elems nodes tol mx nodeA nodeB m d) s = None -> fst m s = None.
  Proof.
    intros H. destruct (fst m s) eqn:E; [|reflexivity]. exfalso. revert H. unfold match_slot.
    destruct (eA d); [|congruence]. destruct (fst m d) eqn:MD; [congruence|]. destruct (find_corner _ _ _); [|congruence].
    destruct (find _ _) as [[[[fA sB] b] fB]|]; [|congruence]. cbn [fst]. unfold SghModel.fupd. destruct (Nat.eqb_spec s d); congruence.
  Qed.
  Lemma match_fold_A_none l : forall m s, fst (fold_left (match_slot x elems nodes tol mx nodeA nodeB) l m) s = None -> fst m s = None.
  Proof. induction l as [|d l IH]; intros m s H; [exact H|]. cbn [fold_left] in H. apply IH in H. apply match_slot_A_none in H. exact H. Qed.

  (** an unmatched A slot faces no face of an unmatched B slot *)
  Lemma match_maximal sA sB a b fA fB : let m := match_faces x elems nodes tol mx nodeA nodeB in
    eA sA = Some a -> eB sB = Some b -> fst m sA = None -> snd m sB = None ->
    (exists k, find_corner nodes a nodeA = Some k /\ In fA (three_faces k)) ->
    (exists k, find_corner nodes b nodeB = Some k /\ In fB (three_faces k)) ->
    ~ facing x (nodes a) (nodes b) tol fA fB.
  Proof.
    intros m EA EB MA MB (kA & KA & FA) (kB & KB & FB) FC.
    assert (LA : (sA < mx)%nat). { unfold slot_elem in EA. destruct (Nat.ltb_spec sA mx); [assumption|discriminate]. }
    assert (LB : (sB < mx)%nat). { unfold slot_elem in EB. destruct (Nat.ltb_spec sB mx); [assumption|discriminate]. }
    unfold m, match_faces in MA, MB.
    replace (seq 0 mx) with (seq 0 sA ++ sA :: seq (S sA) (mx - S sA)) in MA, MB.
    2:{ replace (sA :: seq (S sA) (mx - S sA)) with (seq (0 + sA) (S (mx - S sA))) by reflexivity. rewrite <- seq_app. f_equal. lia. }
    rewrite fold_left_app in MA, MB. cbn [fold_left] in MA, MB.
    set (m0 := fold_left _ (seq 0 sA) _) in MA, MB. clearbody m0.
    apply match_fold_A_none in MA. apply match_fold_mono in MB.
    pose proof (match_slot_A_none _ _ _ MA) as MA0. pose proof (match_slot_mono_none _ _ _ MB) as MB0.
    unfold match_slot in MA. rewrite EA, MA0, KA in MA.
    destruct (find _ _) as [[[[f1 s1] b1] f2]|] eqn:FD.
    - cbn [fst] in MA. unfold SghModel.fupd in MA. rewrite Nat.eqb_refl in MA. discriminate.
    - pose proof (find_none _ _ FD (fA, sB, b, fB)) as N. cbn beta iota in N.
      rewrite (proj2 (faces_match_spec _ _ _ _ _ _ _) FC) in N.
      assert (true = false); [|discriminate]. apply N. apply in_candidates. repeat split; eauto.
  Qed.
End Matching.
