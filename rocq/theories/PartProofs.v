From Verif Require Import BaseArr.
From Verif Require Import PartModel PartSpec.
From Coq Require Import Permutation.
Set Implicit Arguments.

Definition rank (t : nat -> bool) (n : nat) : nat := length (filter t (seq 0 n)).
Lemma rank_S t n : rank t (S n) = rank t n + (if t n then 1 else 0).
Proof. unfold rank. rewrite seq_S, filter_app, app_length. cbn. destruct (t n); reflexivity. Qed.
Lemma rank_mono t a b : a <= b -> rank t a <= rank t b.
Proof. induction 1; [lia|]. rewrite rank_S. lia. Qed.
Lemma rank_lt t a b : t a = true -> a < b -> rank t a < rank t b.
Proof. intros Ha H. assert (rank t (S a) <= rank t b) by (apply rank_mono; lia). rewrite rank_S, Ha in H0. lia. Qed.
Lemma rank_le t n : rank t n <= n.
Proof. induction n; [cbn; lia|]. rewrite rank_S. destruct (t n); lia. Qed.
Lemma rank_onto t n k : k < rank t n -> exists y, y < n /\ t y = true /\ rank t y = k.
Proof.
  induction n; [cbn; lia|]. rewrite rank_S. intros H. destruct (t n) eqn:E.
  - destruct (Nat.eq_dec k (rank t n)) as [->|]; [exists n; auto|]. destruct IHn as (y & ? & ? & ?); [lia|]. exists y; auto.
  - destruct IHn as (y & ? & ? & ?); [lia|]. exists y; auto.
Qed.

Section Part.
  Context {A : Type} (nnodes ne nn dims : nat) (nodes : nat -> nat -> nat) (x : nat -> nat -> A) (elems : list nat).
  Hypothesis Hrange : forall e l, e < ne -> l < nn -> nodes e l < nnodes.
  Hypothesis Helems : forall e, In e elems -> e < ne.

  Lemma part_node_ok sid l : sid < length elems -> l < nn ->
    part_node nnodes ne nn nodes elems sid l = Some (corner_node nodes elems sid l).
  Proof.
    intros H1 H2. unfold part_node, corner_node. rewrite (nth_error_nth' elems 0 H1). cbn [obind].
    assert (He : nth sid elems 0 < ne) by (apply Helems, nth_In, H1).
    rewrite (proj2 (Nat.ltb_lt _ _) He), (proj2 (Nat.ltb_lt _ _) H2). cbn [andb].
    rewrite (proj2 (Nat.ltb_lt _ _) (Hrange He H2)). reflexivity.
  Qed.
  Lemma in_part_corners n m p : In p (part_corners n m) <-> fst p < n /\ snd p < m.
  Proof.
    unfold part_corners. rewrite in_flat_map. destruct p as [a b]; cbn [fst snd]. split.
    - intros (s & Hs & H). apply in_map_iff in H. destruct H as (l & E & Hl). apply in_seq in Hs, Hl. inversion E; lia.
    - intros [H1 H2]. exists a. split; [apply in_seq; lia|]. apply in_map_iff. exists b. split; [reflexivity|apply in_seq; lia].
  Qed.

  Lemma tag_some order : (forall p, In p order -> fst p < length elems /\ snd p < nn) ->
    exists c, tag_nodes nnodes ne nn nodes elems order = Some c /\
      forall n, 0 < c n <-> exists p, In p order /\ corner_node nodes elems (fst p) (snd p) = n.
  Proof.
    unfold tag_nodes. intros H.
    assert (G : forall order c0, (forall p, In p order -> fst p < length elems /\ snd p < nn) -> exists c,
       for_each order (fun '(sid, l) counter => obind (part_node nnodes ne nn nodes elems sid l) (fun n => Some (fun x => if Nat.eqb x n then S (counter x) else counter x))) c0 = Some c
       /\ forall n, 0 < c n <-> 0 < c0 n \/ exists p, In p order /\ corner_node nodes elems (fst p) (snd p) = n).
    { clear order H. intros order. induction order as [|[sid l] r IH]; intros c0 H.
      - exists c0. split; [reflexivity|]. intros n. split; [auto|intros [?|(p & [] & _)]; assumption].
      - cbn [for_each]. destruct (H (sid, l) (or_introl eq_refl)) as [H1 H2]. cbn [fst snd] in H1, H2.
        rewrite (part_node_ok H1 H2). cbn [obind].
        destruct (IH (fun y => if Nat.eqb y (corner_node nodes elems sid l) then S (c0 y) else c0 y)) as (c & E & P).
        { intros p Hp. apply H. right; exact Hp. }
        exists c. split; [exact E|]. intros n. rewrite P. split.
        + intros [Hc|(p & Hp & Hn)].
          * destruct (Nat.eqb_spec n (corner_node nodes elems sid l)) as [E1|E1]; [right; exists (sid, l); split; [left; reflexivity|symmetry; exact E1]|left; exact Hc].
          * right. exists p. split; [right; exact Hp|exact Hn].
        + intros [Hc|(p & [<-|Hp] & Hn)].
          * left. destruct (Nat.eqb n _); lia.
          * left. cbn [fst snd] in Hn. subst n. rewrite Nat.eqb_refl. lia.
          * right. exists p. auto. }
    destruct (G order (fun _ => 0) H) as (c & E & P). exists c. split; [exact E|]. intros n. rewrite P. split; [intros [?|?]; [lia|assumption]|auto].
  Qed.

  Hypothesis Hdims : dims = 2 \/ dims = 3.
  Variable c : nat -> nat.
  Let t n := Nat.ltb 0 (c n).

  Definition num_inv (n : nat) (s : arr A * (nat -> option nat) * nat) : Prop :=
    let '(cs, acc, k) := s in
    k = rank t n /\ nrow cs = nnodes /\ ncol cs = dims /\
    (forall y, acc y = if Nat.ltb y n && t y then Some (rank t y) else None) /\
    (forall y d, y < n -> t y = true -> d < dims -> dat cs (rank t y) d = Some (x y d)).

  Lemma writes_of k n d : d < dims -> In (k, d, x n d) (coord_writes dims x k n).
  Proof.
    intros Hd. unfold coord_writes. destruct Hdims as [E|E]; rewrite E in *; cbn [Nat.eqb].
    - destruct d as [|[|]]; [left; reflexivity|right; left; reflexivity|lia].
    - destruct d as [|[|[|]]]; [left; reflexivity|right; left; reflexivity|right; right; left; reflexivity|lia].
  Qed.
  Lemma writes_inv k n r d v : In (r, d, v) (coord_writes dims x k n) -> r = k /\ d < dims /\ v = x n d.
  Proof.
    unfold coord_writes. intros H. destruct Hdims as [E|E]; rewrite E in *; cbn [Nat.eqb] in H; cbn in H;
      repeat (destruct H as [H|H]; [inversion H; subst; repeat split; try lia|]); destruct H.
  Qed.

  Lemma number_steps n : n <= nnodes -> exists s,
    for_each (seq 0 n) (fun n '(coords, access, k) =>
      if Nat.ltb 0 (c n) then
        obind (do_writes (coord_writes dims x k n) coords) (fun coords =>
        Some (coords, fun y => if Nat.eqb y n then Some k else access y, S k))
      else Some (coords, access, k)) (new_arr nnodes dims, fun _ => None, O) = Some s /\ num_inv n s.
  Proof.
    induction n; intros Hn.
    - eexists. split; [reflexivity|]. unfold num_inv. repeat split; try reflexivity. intros; lia.
    - destruct IHn as ([[cs acc] k] & E & Hk & Hr & Hc & Hacc & Hdat); [lia|].
      rewrite seq_S, for_each_app, E. cbn [obind for_each Nat.add].
      fold (t n). destruct (t n) eqn:Et.
      + destruct (do_writes_some (a := cs) (w := coord_writes dims x k n)) as (cs' & E' & R' & C' & Hold & Hnew).
        { intros r d v Hin. apply writes_inv in Hin. destruct Hin as (-> & Hd & _). rewrite Hr, Hc. split; [|exact Hd].
          rewrite Hk. pose proof (rank_le t n). lia. }
        rewrite E'. cbn [obind]. eexists. split; [reflexivity|]. unfold num_inv.
        split; [rewrite rank_S, Et; lia|]. split; [congruence|]. split; [congruence|]. split.
        * intros y. destruct (Nat.eqb_spec y n) as [->|Hne].
          { rewrite Et, (proj2 (Nat.ltb_lt n (S n))) by lia. cbn. congruence. }
          rewrite Hacc. destruct (Nat.ltb_spec y n), (Nat.ltb_spec y (S n)); try reflexivity; lia.
        * intros y d Hy Hty Hd. destruct (Nat.eq_dec y n) as [->|Hne].
          { rewrite <- Hk. apply Hnew; [|apply writes_of, Hd]. intros r d' v v' H1 H2. apply writes_inv in H1, H2. destruct H1 as (_ & _ & ->), H2 as (_ & _ & ->). reflexivity. }
          rewrite Hold. { apply Hdat; [lia|exact Hty|exact Hd]. }
          intros v Hin. apply writes_inv in Hin. destruct Hin as (Hkk & _). pose proof (@rank_lt t y n Hty). lia.
      + eexists. split; [reflexivity|]. unfold num_inv. split; [rewrite rank_S, Et; lia|]. split; [exact Hr|]. split; [exact Hc|]. split.
        * intros y. rewrite Hacc. destruct (Nat.ltb_spec y n), (Nat.ltb_spec y (S n)); try reflexivity; try lia.
          assert (y = n) by lia. subst y. rewrite Et. reflexivity.
        * intros y d Hy Hty Hd. apply Hdat; [|exact Hty|exact Hd]. assert (y <> n) by congruence. lia.
  Qed.

  Lemma connect_some acc order :
    (forall p, In p order -> fst p < length elems /\ snd p < nn) ->
    (forall sid l, sid < length elems -> l < nn -> acc (corner_node nodes elems sid l) = Some (rank t (corner_node nodes elems sid l))) ->
    exists conn, connect nnodes ne nn nodes elems acc order = Some conn /\ nrow conn = length elems /\ ncol conn = nn /\
      forall p, In p order -> dat conn (fst p) (snd p) = Some (rank t (corner_node nodes elems (fst p) (snd p))).
  Proof.
    intros Ho Ha. unfold connect.
    rewrite (for_each_ext _ _ (fun p conn => do_writes [(fst p, snd p, rank t (corner_node nodes elems (fst p) (snd p)))] conn)).
    2:{ intros [sid l] s Hin. destruct (Ho _ Hin) as [H1 H2]. cbn [fst snd] in *. rewrite (part_node_ok H1 H2). cbn [obind].
        rewrite (Ha _ _ H1 H2). cbn [obind]. unfold do_writes. cbn [for_each]. destruct (aset s sid l _); reflexivity. }
    rewrite (for_each_writes _ _ (fun p => [(fst p, snd p, rank t (corner_node nodes elems (fst p) (snd p)))])) by reflexivity.
    set (w := flat_map _ order).
    assert (Hw : forall r cc v, In (r, cc, v) w <-> In (r, cc) order /\ v = rank t (corner_node nodes elems r cc)).
    { intros r cc v. unfold w. rewrite in_flat_map. split.
      - intros ([a b] & Hin & [E|[]]). cbn [fst snd] in E. inversion E; subst. auto.
      - intros [Hin ->]. exists (r, cc). split; [exact Hin|left; reflexivity]. }
    destruct (do_writes_some (a := new_arr (length elems) nn) (w := w)) as (conn & E & R & C & _ & Hnew).
    { intros r cc v Hin. apply Hw in Hin. apply (Ho (r, cc)), Hin. }
    exists conn. split; [exact E|]. split; [exact R|]. split; [exact C|]. intros [r cc] Hin. apply Hnew.
    - intros r' c' v v' H1 H2. apply Hw in H1, H2. destruct H1 as [_ ->], H2 as [_ ->]. reflexivity.
    - apply Hw. auto.
  Qed.
End Part.

Section Build.
  Context {A : Type} (nnodes ne nn dims : nat) (nodes : nat -> nat -> nat) (x : nat -> nat -> A) (elems : list nat).
  Hypothesis Hrange : forall e l, e < ne -> l < nn -> nodes e l < nnodes.
  Hypothesis Helems : forall e, In e elems -> e < ne.
  Hypothesis Hdims : dims = 2 \/ dims = 3.

  Definition tagged (n : nat) : bool := existsb (fun p => Nat.eqb (corner_node nodes elems (fst p) (snd p)) n) (part_corners (length elems) nn).
  Lemma rank_ext t t' n : (forall i, t i = t' i) -> rank t n = rank t' n.
  Proof. intros H. unfold rank. f_equal. apply filter_ext. exact H. Qed.
  Lemma tagged_corner sid l : sid < length elems -> l < nn -> tagged (corner_node nodes elems sid l) = true.
  Proof. intros H1 H2. apply existsb_exists. exists (sid, l). split; [apply in_part_corners; auto|apply Nat.eqb_refl]. Qed.

  (** the explicit result *)
  Lemma build_explicit order1 order2 :
    Permutation order1 (part_corners (length elems) nn) -> Permutation order2 (part_corners (length elems) nn) ->
    exists p, build_part nnodes ne nn dims nodes x elems order1 order2 = Some p /\
      p_num p = rank tagged nnodes /\ nrow (p_conn p) = length elems /\ ncol (p_conn p) = nn /\
      nrow (p_coords p) = nnodes /\ ncol (p_coords p) = dims /\
      (forall sid l, sid < length elems -> l < nn -> dat (p_conn p) sid l = Some (rank tagged (corner_node nodes elems sid l))) /\
      (forall y d, y < nnodes -> tagged y = true -> d < dims -> dat (p_coords p) (rank tagged y) d = Some (x y d)).
  Proof.
    intros P1 P2. unfold build_part.
    assert (O1 : forall p, In p order1 -> fst p < length elems /\ snd p < nn) by (intros p H; apply in_part_corners, (Permutation_in _ P1 H)).
    assert (O2 : forall p, In p order2 -> fst p < length elems /\ snd p < nn) by (intros p H; apply in_part_corners, (Permutation_in _ P2 H)).
    destruct (@tag_some nnodes ne nn nodes elems Hrange Helems order1 O1) as (c & Ec & Hc). rewrite Ec. cbn [obind].
    assert (Ht : forall i, Nat.ltb 0 (c i) = tagged i).
    { intros i. unfold tagged. apply eq_true_iff_eq. rewrite Nat.ltb_lt, Hc, existsb_exists. split; intros (p & Hp & E); exists p.
      - split; [exact (Permutation_in _ P1 Hp)|apply Nat.eqb_eq, E].
      - split; [exact (Permutation_in _ (Permutation_sym P1) Hp)|apply Nat.eqb_eq, E]. }
    destruct (number_steps x Hdims c (le_n nnodes)) as ([[cs acc] k] & En & Hk & Hr & Hcc & Hacc & Hdat).
    unfold number_nodes, for_up. rewrite En. cbn [obind].
    destruct (@connect_some nnodes ne nn nodes elems Hrange Helems c acc order2 O2) as (conn & Ecn & R & C & Hconn).
    { intros sid l H1 H2. rewrite Hacc.
      assert (Hb : Nat.ltb (corner_node nodes elems sid l) nnodes = true).
      { apply Nat.ltb_lt. apply Hrange; [apply Helems, nth_In, H1|exact H2]. }
      rewrite Hb, Ht, tagged_corner by assumption. reflexivity. }
    rewrite Ecn. cbn [obind]. eexists. split; [reflexivity|]. cbn [p_num p_conn p_coords].
    rewrite (rank_ext _ _ nnodes Ht) in Hk.
    split; [exact Hk|]. split; [exact R|]. split; [exact C|]. split; [exact Hr|]. split; [exact Hcc|]. split.
    - intros sid l H1 H2. rewrite <- (rank_ext _ _ _ Ht). apply (Hconn (sid, l)), (Permutation_in _ (Permutation_sym P2)). apply in_part_corners; auto.
    - intros y d Hy Hty Hd. rewrite <- (rank_ext _ _ _ Ht). apply Hdat; [exact Hy|rewrite Ht; exact Hty|exact Hd].
  Qed.

  Theorem build_faithful order1 order2 :
    Permutation order1 (part_corners (length elems) nn) -> Permutation order2 (part_corners (length elems) nn) ->
    exists p, build_part nnodes ne nn dims nodes x elems order1 order2 = Some p /\ faithful nn dims nodes x elems p.
  Proof.
    intros P1 P2. destruct (build_explicit P1 P2) as (p & E & Hn & R & C & R' & C' & Hconn & Hdat). exists p. split; [exact E|].
    assert (G : forall sid l, sid < length elems -> l < nn -> aget (p_conn p) sid l = Some (rank tagged (corner_node nodes elems sid l))).
    { intros sid l H1 H2. unfold aget. rewrite R, C, (proj2 (Nat.ltb_lt _ _) H1), (proj2 (Nat.ltb_lt _ _) H2). apply Hconn; assumption. }
    assert (Bd : forall sid l, sid < length elems -> l < nn -> corner_node nodes elems sid l < nnodes).
    { intros sid l H1 H2. apply Hrange; [apply Helems, nth_In, H1|exact H2]. }
    constructor.
    - auto.
    - intros sid l H1 H2. exists (rank tagged (corner_node nodes elems sid l)). split; [apply G; assumption|].
      assert (K : rank tagged (corner_node nodes elems sid l) < rank tagged nnodes) by (apply rank_lt; [apply tagged_corner; assumption|apply Bd; assumption]).
      split; [lia|]. intros d Hd. unfold aget. rewrite R', C'.
      rewrite (proj2 (Nat.ltb_lt _ nnodes)), (proj2 (Nat.ltb_lt _ _) Hd) by (pose proof (rank_le tagged nnodes); lia).
      apply Hdat; [apply Bd; assumption|apply tagged_corner; assumption|exact Hd].
    - intros k Hk. rewrite Hn in Hk. destruct (rank_onto _ _ Hk) as (y & Hy & Hty & <-).
      apply existsb_exists in Hty. destruct Hty as ([sid l] & Hin & Ey). apply in_part_corners in Hin. cbn [fst snd] in *. apply Nat.eqb_eq in Ey. subst y.
      exists sid, l. split; [tauto|]. split; [tauto|]. apply G; tauto.
    - intros sid l sid' l' k k' H1 H2 H1' H2' E1 E2. rewrite G in E1, E2 by assumption. injection E1 as <-. injection E2 as <-. split.
      + intros H. apply Nat.nle_gt. intros Hle. pose proof (rank_mono tagged Hle). lia.
      + intros H. apply rank_lt; [apply tagged_corner; assumption|exact H].
  Qed.

  Theorem build_schedule order1 order2 order1' order2' :
    Permutation order1 (part_corners (length elems) nn) -> Permutation order2 (part_corners (length elems) nn) ->
    Permutation order1' (part_corners (length elems) nn) -> Permutation order2' (part_corners (length elems) nn) ->
    exists p q, build_part nnodes ne nn dims nodes x elems order1 order2 = Some p /\
      build_part nnodes ne nn dims nodes x elems order1' order2' = Some q /\ same_part dims p q.
  Proof.
    intros P1 P2 P1' P2'.
    destruct (build_explicit P1 P2) as (p & E & Hn & R & C & R' & C' & Hconn & Hdat).
    destruct (build_explicit P1' P2') as (q & E2 & Hn2 & R2 & C2 & R2' & C2' & Hconn2 & Hdat2).
    exists p, q. split; [exact E|]. split; [exact E2|]. split; [congruence|]. split.
    - intros r c. unfold aget. rewrite R, C, R2, C2. destruct (Nat.ltb_spec r (length elems)); [|reflexivity].
      destruct (Nat.ltb_spec c nn); [|reflexivity]. cbn [andb]. rewrite Hconn, Hconn2 by assumption. reflexivity.
    - intros k d Hk Hd. unfold aget. rewrite R', C', R2', C2'. destruct (Nat.ltb k nnodes); [|reflexivity]. destruct (Nat.ltb d dims); [|reflexivity]. cbn [andb].
      rewrite Hn in Hk. destruct (rank_onto _ _ Hk) as (y & Hy & Hty & <-). rewrite Hdat, Hdat2 by assumption. reflexivity.
  Qed.

  (** the exported nodes are exactly the nodes of the material *)
  Theorem build_nodes order1 order2 p :
    Permutation order1 (part_corners (length elems) nn) -> Permutation order2 (part_corners (length elems) nn) ->
    build_part nnodes ne nn dims nodes x elems order1 order2 = Some p ->
    exists l, NoDup l /\ length l = p_num p /\ (forall n, In n l <-> on_part nn nodes elems n) /\
      forall k d, k < p_num p -> d < dims -> aget (p_coords p) k d = Some (x (nth k l 0) d).
  Proof.
    intros P1 P2 E. destruct (build_explicit P1 P2) as (p' & E' & Hn & R & C & R' & C' & Hconn & Hdat).
    rewrite E in E'. injection E' as <-.
    exists (filter tagged (seq 0 nnodes)). split; [apply NoDup_filter, seq_NoDup|]. split; [symmetry; exact Hn|]. split.
    - intros n. rewrite filter_In, in_seq. unfold tagged. rewrite existsb_exists. unfold on_part, corner_node. split.
      + intros (_ & [sid l] & Hin & En). apply in_part_corners in Hin. cbn [fst snd] in *. apply Nat.eqb_eq in En. exists (nth sid elems 0), l.
        split; [apply nth_In; tauto|]. split; [tauto|exact En].
      + intros (e & l & He & Hl & <-). split; [split; [lia|apply Hrange; [apply Helems, He|exact Hl]]|].
        destruct (In_nth _ _ 0 He) as (sid & Hs & Es). exists (sid, l). split; [apply in_part_corners; auto|]. cbn [fst snd]. rewrite Es. apply Nat.eqb_refl.
    - intros k d Hk Hd. rewrite Hn in Hk. destruct (rank_onto _ _ Hk) as (y & Hy & Hty & <-).
      assert (En : nth (rank tagged y) (filter tagged (seq 0 nnodes)) 0 = y).
      { replace nnodes with (y + S (nnodes - y - 1)) by lia. rewrite seq_app, filter_app, app_nth2; unfold rank; [|lia].
        rewrite Nat.sub_diag. cbn [seq filter Nat.add]. rewrite Hty. reflexivity. }
      rewrite En. unfold aget. rewrite R', C'.
      rewrite (proj2 (Nat.ltb_lt _ nnodes)), (proj2 (Nat.ltb_lt _ _) Hd) by (pose proof (rank_le tagged nnodes); lia). cbn [andb]. apply Hdat; assumption.
  Qed.
End Build.
