(** Proofs about the contact search: buckets, counting sort, lookup. *)
From Coq Require Import Reals List Lia Lra ZArith Permutation.
From Verif Require Import BaseArr BaseReal FracModel ContModel.
Import ListNotations.
Local Open Scope nat_scope.

(** ** Counting sort *)
Section CountSort.
  Variables (nb B : nat) (key : nat -> nat).
  Hypothesis key_lt : forall i, i < nb -> key i < B.
  Definition bin (b n : nat) : list nat := filter (fun i => Nat.eqb (key i) b) (seq 0 n).
  Definition start (b : nat) : nat := length (filter (fun i => Nat.ltb (key i) b) (seq 0 nb)).

  Lemma start_S b : start (S b) = start b + length (bin b nb).
  Proof.
    unfold start, bin. induction (seq 0 nb) as [|i l IH]; [reflexivity|]. cbn [filter].
    destruct (Nat.ltb_spec (key i) (S b)), (Nat.ltb_spec (key i) b), (Nat.eqb_spec (key i) b); cbn [length]; try lia.
  Qed.
  Lemma start_0 : start 0 = 0.
  Proof. unfold start. induction (seq 0 nb) as [|i l IH]; [reflexivity|]. cbn [filter]. destruct (Nat.ltb_spec (key i) 0); [lia|exact IH]. Qed.
  Lemma start_mono b b' : b <= b' -> start b <= start b'.
  Proof. induction 1; [lia|]. rewrite start_S. lia. Qed.
  Lemma filter_length_le {A} (f : A -> bool) l : length (filter f l) <= length l.
  Proof. induction l as [|a l IH]; [reflexivity|]. cbn. destruct (f a); cbn; lia. Qed.
  Lemma start_le b : start b <= nb.
  Proof. unfold start. rewrite <- (seq_length nb 0) at 2. apply filter_length_le. Qed.
  Lemma bin_S b n : bin b (S n) = bin b n ++ (if Nat.eqb (key n) b then [n] else []).
  Proof. unfold bin. rewrite seq_S, filter_app. cbn. now destruct (Nat.eqb (key n) b). Qed.
  Lemma bin_mono b n m : n <= m -> length (bin b n) <= length (bin b m).
  Proof. induction 1; [lia|]. rewrite bin_S, app_length. lia. Qed.
  Lemma bin_in b n i : In i (bin b n) <-> i < n /\ key i = b.
  Proof. unfold bin. rewrite filter_In, in_seq, Nat.eqb_eq. split; intros [? ?]; split; auto; lia. Qed.
  Lemma bin_nth_stable b n m t d : n <= m -> t < length (bin b n) -> nth t (bin b m) d = nth t (bin b n) d.
  Proof.
    induction 1 as [|m H IH]; intros Ht; [reflexivity|]. rewrite bin_S, app_nth1, IH; auto.
    eapply Nat.lt_le_trans; [exact Ht|]. now apply bin_mono.
  Qed.
  Lemma slot_lt b t : t < length (bin b nb) -> start b + t < nb.
  Proof. intros H. pose proof (start_S b). pose proof (start_le (S b)). lia. Qed.
  Lemma slot_inj b b' t t' : t < length (bin b nb) -> t' < length (bin b' nb) -> start b + t = start b' + t' -> b = b' /\ t = t'.
  Proof.
    intros H H' E. pose proof (start_S b). pose proof (start_S b').
    destruct (Nat.lt_trichotomy b b') as [L|[->|L]]; [|lia|].
    - pose proof (start_mono (S b) b' L). lia.
    - pose proof (start_mono (S b') b L). lia.
  Qed.

  (** one-column arrays *)
  Lemma zeros_get n i : i < n -> aget (zeros n) i 0 = Some 0.
  Proof. intros H. unfold aget, zeros. cbn [nrow ncol dat]. now rewrite (proj2 (Nat.ltb_lt _ _) H). Qed.
  Definition holds1 (a : arr nat) (n : nat) : Prop := nrow a = n /\ ncol a = 1.
  Lemma set1 (a : arr nat) n i v : holds1 a n -> i < n -> exists a', aset a i 0 v = Some a' /\ holds1 a' n /\
    forall j, aget a' j 0 = if Nat.eqb j i then Some v else aget a j 0.
  Proof.
    intros [H1 H2] Hi. unfold aset. rewrite H1, H2, (proj2 (Nat.ltb_lt _ _) Hi). change (0 <? 1) with true. cbn [andb].
    eexists. split; [reflexivity|]. split; [split; reflexivity|]. intros j. unfold aget. cbn [nrow ncol dat]. rewrite H1, H2.
    change (0 <? 1) with true. change (0 =? 0) with true. rewrite !andb_true_r. destruct (Nat.eqb_spec j i) as [->|]; [|reflexivity].
    now rewrite (proj2 (Nat.ltb_lt _ _) Hi).
  Qed.
  Lemma zeros_holds n : holds1 (zeros n) n. Proof. split; reflexivity. Qed.

  (** counting *)
  Lemma count_spec l : (forall i, In i l -> i < nb) ->
    exists a, for_each l (fun i a => obind (Some (key i)) (fun b => obind (aget a b 0) (fun c => aset a b 0 (c + 1)))) (zeros B) = Some a /\
      holds1 a B /\ forall b, b < B -> aget a b 0 = Some (length (filter (fun i => Nat.eqb (key i) b) l)).
  Proof.
    induction l as [|i l IH] using rev_ind; intros Hl.
    - exists (zeros B). split; [reflexivity|]. split; [apply zeros_holds|]. intros b Hb. now apply zeros_get.
    - destruct IH as (a & E & Ha & Hg). { intros j Hj. apply Hl, in_or_app. now left. }
      rewrite for_each_app, E. cbn [obind for_each].
      assert (Hk : key i < B) by (apply key_lt, Hl, in_or_app; right; now left).
      rewrite (Hg _ Hk). cbn [obind].
      destruct (set1 a B (key i) (length (filter (fun i0 => Nat.eqb (key i0) (key i)) l) + 1) Ha Hk) as (a' & -> & Ha' & Hg').
      cbn [obind]. exists a'. split; [reflexivity|]. split; [exact Ha'|]. intros b Hb. rewrite Hg', filter_app, app_length. cbn [filter].
      destruct (Nat.eqb_spec b (key i)) as [->|Hne].
      + now rewrite Nat.eqb_refl.
      + destruct (Nat.eqb_spec (key i) b); [congruence|]. cbn [length]. rewrite Nat.add_0_r. now apply Hg.
  Qed.

  Lemma count_perm l : Permutation l (seq 0 nb) ->
    exists a, for_each l (fun i a => obind (Some (key i)) (fun b => obind (aget a b 0) (fun c => aset a b 0 (c + 1)))) (zeros B) = Some a /\
      holds1 a B /\ forall b, b < B -> aget a b 0 = Some (length (bin b nb)).
  Proof.
    intros Hp. destruct (count_spec l) as (a & E & Ha & Hg).
    { intros i Hi. eapply Permutation_in in Hi; [|exact Hp]. apply in_seq in Hi. lia. }
    exists a. split; [exact E|]. split; [exact Ha|]. intros b Hb. rewrite (Hg b Hb). f_equal. unfold bin.
    clear - Hp. apply Permutation_length. induction Hp; cbn [filter]; auto.
    - destruct (Nat.eqb (key x) b); auto.
    - destruct (Nat.eqb (key x) b), (Nat.eqb (key y) b); auto. apply perm_swap.
    - etransitivity; eassumption.
  Qed.

  (** pointers *)
  Lemma pointers_spec cnt : holds1 cnt B -> (forall b, b < B -> aget cnt b 0 = Some (length (bin b nb))) ->
    exists a, for_up 1 (B - 1) (fun i a => obind (aget a (i - 1) 0) (fun p => obind (aget cnt (i - 1) 0) (fun c => aset a i 0 (p + c)))) (zeros B)
        = Some a /\ holds1 a B /\ forall b, b < B -> aget a b 0 = Some (start b).
  Proof.
    intros Hc Hg. unfold for_up.
    assert (G : forall n, n <= B - 1 -> exists a,
      for_each (seq 1 n) (fun i a => obind (aget a (i - 1) 0) (fun p => obind (aget cnt (i - 1) 0) (fun c => aset a i 0 (p + c)))) (zeros B)
        = Some a /\ holds1 a B /\ forall b, b <= n -> b < B -> aget a b 0 = Some (start b)).
    { induction n as [|n IH]; intros Hn.
      - exists (zeros B). split; [reflexivity|]. split; [apply zeros_holds|]. intros b Hb Hb'. replace b with 0 by lia. rewrite start_0. apply zeros_get. lia.
      - destruct IH as (a & E & Ha & IHg); [lia|]. rewrite seq_S, for_each_app, E. cbn [obind for_each].
        replace (1 + n - 1) with n by lia. rewrite (IHg n), (Hg n) by lia. cbn [obind].
        destruct (set1 a B (1 + n) (start n + length (bin n nb)) Ha) as (a' & -> & Ha' & Hg'); [lia|]. cbn [obind].
        exists a'. split; [reflexivity|]. split; [exact Ha'|]. intros b Hb Hb'. rewrite Hg'. destruct (Nat.eqb_spec b (1 + n)) as [->|].
        + now rewrite <- start_S.
        + apply IHg; lia. }
    destruct (G (B - 1)) as (a & E & Ha & Hb); [lia|]. exists a. split; [exact E|]. split; [exact Ha|]. intros b Hlt. apply Hb; lia.
  Qed.

  (** placement *)
  Lemma place_spec ptr : (forall b, b < B -> aget ptr b 0 = Some (start b)) ->
    exists nbx lid, for_up 0 nb (fun i '(nbx, lid) => obind (Some (key i)) (fun b => obind (aget nbx b 0) (fun c => obind (aget ptr b 0) (fun p =>
         obind (aset lid (c + p) 0 i) (fun lid => obind (aset nbx b 0 (c + 1)) (fun nbx => Some (nbx, lid)))))))
      (zeros B, zeros nb) = Some (nbx, lid) /\ holds1 nbx B /\ holds1 lid nb /\
      (forall b, b < B -> aget nbx b 0 = Some (length (bin b nb))) /\
      (forall b t, b < B -> t < length (bin b nb) -> aget lid (start b + t) 0 = Some (nth t (bin b nb) 0)).
  Proof.
    intros Hp. unfold for_up.
    assert (G : forall n, n <= nb -> exists nbx lid, for_each (seq 0 n) (fun i '(nbx, lid) => obind (Some (key i)) (fun b => obind (aget nbx b 0) (fun c => obind (aget ptr b 0) (fun p =>
         obind (aset lid (c + p) 0 i) (fun lid => obind (aset nbx b 0 (c + 1)) (fun nbx => Some (nbx, lid)))))))
      (zeros B, zeros nb) = Some (nbx, lid) /\ holds1 nbx B /\ holds1 lid nb /\
      (forall b, b < B -> aget nbx b 0 = Some (length (bin b n))) /\
      (forall b t, b < B -> t < length (bin b n) -> aget lid (start b + t) 0 = Some (nth t (bin b n) 0))).
    { induction n as [|n IH]; intros Hn.
      - exists (zeros B), (zeros nb). split; [reflexivity|]. split; [apply zeros_holds|]. split; [apply zeros_holds|]. split.
        + intros b Hb. now apply zeros_get.
        + intros b t _ Ht. cbn in Ht. lia.
      - destruct IH as (nbx & lid & E & Hx & Hl & Hc & Hn'); [lia|]. rewrite seq_S, for_each_app, E. cbn [obind for_each plus].
        assert (Hk : key n < B) by (apply key_lt; lia).
        rewrite (Hc _ Hk), (Hp _ Hk). cbn [obind].
        assert (Hlt : length (bin (key n) n) < length (bin (key n) nb)).
        { pose proof (bin_mono (key n) (S n) nb ltac:(lia)) as M. rewrite bin_S, Nat.eqb_refl, app_length in M. cbn in M. lia. }
        pose proof (slot_lt _ _ Hlt) as Hslot.
        destruct (set1 lid nb (length (bin (key n) n) + start (key n)) n Hl) as (lid' & -> & Hl' & Hg'); [lia|]. cbn [obind].
        destruct (set1 nbx B (key n) (length (bin (key n) n) + 1) Hx Hk) as (nbx' & -> & Hx' & Hgx). cbn [obind].
        exists nbx', lid'. split; [reflexivity|]. split; [exact Hx'|]. split; [exact Hl'|]. split.
        + intros b Hb. rewrite Hgx, bin_S, app_length. destruct (Nat.eqb_spec b (key n)) as [->|].
          * now rewrite Nat.eqb_refl.
          * destruct (Nat.eqb_spec (key n) b); [congruence|]. cbn. rewrite Nat.add_0_r. now apply Hc.
        + intros b t Hb Ht. rewrite Hg'.
          assert (Hm : t < length (bin b nb)). { eapply Nat.lt_le_trans; [exact Ht|]. apply bin_mono. lia. }
          rewrite bin_S in Ht |- *. rewrite app_length in Ht.
          destruct (Nat.eqb_spec (start b + t) (length (bin (key n) n) + start (key n))) as [Eq|Ne].
          * destruct (slot_inj b (key n) t (length (bin (key n) n)) Hm Hlt) as [-> ->]; [lia|].
            rewrite Nat.eqb_refl, app_nth2, Nat.sub_diag by lia. reflexivity.
          * destruct (Nat.eqb_spec (key n) b) as [<-|].
            -- cbn in Ht. assert (t < length (bin (key n) n)) by lia. rewrite app_nth1 by lia. now apply Hn'.
            -- cbn in Ht. rewrite app_nil_r. apply Hn'; auto. lia. }
    apply G. lia.
  Qed.

  (** every position is the position of some bucket *)
  Lemma slot_surj j : j < nb -> exists b t, b < B /\ t < length (bin b nb) /\ j = start b + t.
  Proof.
    intros Hj. assert (HB : start B = nb).
    { unfold start. rewrite <- (seq_length nb 0) at 2. assert (F : forall i, In i (seq 0 nb) -> key i < B) by (intros i Hi; apply in_seq in Hi; apply key_lt; lia).
      revert F. induction (seq 0 nb) as [|i l IH]; intros F; [reflexivity|]. cbn [filter].
      rewrite (proj2 (Nat.ltb_lt _ _) (F i (or_introl eq_refl))). cbn. f_equal. apply IH. intros; apply F; now right. }
    assert (G : forall b, j < start b -> exists b' t, b' < b /\ t < length (bin b' nb) /\ j = start b' + t).
    { induction b as [|b IH]; intros H; [rewrite start_0 in H; lia|]. destruct (Nat.lt_ge_cases j (start b)) as [L|L].
      - destruct (IH L) as (b' & t & ? & ? & ?). exists b', t. repeat split; auto.
      - rewrite start_S in H. exists b, (j - start b). repeat split; lia. }
    destruct (G B) as (b & t & ? & ? & ?); [lia|]. exists b, t. auto.
  Qed.
  Lemma bin_nodup b n : NoDup (bin b n).
  Proof. unfold bin. apply NoDup_filter, seq_NoDup. Qed.
End CountSort.

(** ** The grid *)
Local Open Scope R_scope.
From Verif Require Import ContSpec MeshIndexProofs.

Lemma int_part_mono a b : a <= b -> (Int_part a <= Int_part b)%Z.
Proof.
  intros H. destruct (base_Int_part a) as [A1 A2], (base_Int_part b) as [B1 B2].
  apply Z.lt_succ_r. apply lt_IZR. rewrite succ_IZR. lra.
Qed.
Lemma int_part_nonneg a : 0 <= a -> (0 <= Int_part a)%Z.
Proof. intros H. destruct (base_Int_part a). apply Z.lt_succ_r. apply lt_IZR. rewrite succ_IZR. lra. Qed.
Lemma int_part_unique a z : IZR z <= a < IZR z + 1 -> Int_part a = z.
Proof.
  intros [H1 H2]. destruct (base_Int_part a) as [A1 A2].
  assert (z < Z.succ (Int_part a))%Z by (apply lt_IZR; rewrite succ_IZR; lra).
  assert (Int_part a < Z.succ z)%Z by (apply lt_IZR; rewrite succ_IZR; lra). lia.
Qed.

Lemma maxn_le n f i : (i < n)%nat -> f i <= maxn n f.
Proof.
  induction n as [|n IH]; intros H; [lia|]. cbn [maxn]. unfold fmax. destruct (Nat.eq_dec i n) as [->|]; [apply Rmax_r|].
  eapply Rle_trans; [apply IH; lia|apply Rmax_l].
Qed.
Lemma minn_le n f i : (i < n)%nat -> minn n f <= f i.
Proof.
  induction n as [|n IH]; intros H; [lia|]. cbn [minn]. unfold fmin. destruct (Nat.eq_dec i n) as [->|]; [apply Rmin_r|].
  eapply Rle_trans; [apply Rmin_l|apply IH; lia].
Qed.

Definition idx (g : grid) (d : nat) (v : R) : nat := Z.to_nat (Int_part ((v - g_lo g d) / g_size g)).
Definition cell_idx (g : grid) (p : vec) : nat -> nat := fun d => idx g d (p d).
Definition key_of (g : grid) (p : vec) : nat := bucket_id g (idx g 0 (p 0%nat)) (idx g 1 (p 1%nat)) (idx g 2 (p 2%nat)).

Lemma idx_cell g d v : 0 < g_size g -> g_lo g d <= v -> g_lo g d + INR (idx g d v) * g_size g <= v < g_lo g d + (INR (idx g d v) + 1) * g_size g.
Proof.
  intros Hs Hv. unfold idx. set (r := (v - g_lo g d) / g_size g).
  assert (Hr : 0 <= r) by (apply Rmult_le_pos; [lra|apply Rlt_le, Rinv_0_lt_compat, Hs]).
  assert (Er : v = g_lo g d + r * g_size g) by (unfold r; field; lra).
  pose proof (int_part_nonneg r Hr) as Hz. rewrite INR_IZR_INZ, Z2Nat.id by exact Hz.
  destruct (base_Int_part r) as [A1 A2]. clearbody r. rewrite Er.
  split; [apply Rplus_le_compat_l, Rmult_le_compat_r; lra|apply Rplus_lt_compat_l, Rmult_lt_compat_r; lra].
Qed.
Lemma idx_unique g d v c : 0 < g_size g -> g_lo g d + INR c * g_size g <= v < g_lo g d + (INR c + 1) * g_size g -> idx g d v = c.
Proof.
  intros Hs [H1 H2]. unfold idx. set (r := (v - g_lo g d) / g_size g).
  assert (Er : v = g_lo g d + r * g_size g) by (unfold r; field; lra). clearbody r.
  assert (INR c <= r). { apply Rmult_le_reg_r with (g_size g); lra. }
  assert (r < INR c + 1). { apply Rmult_lt_reg_r with (g_size g); lra. }
  rewrite (int_part_unique r (Z.of_nat c)); [apply Nat2Z.id|]. rewrite <- INR_IZR_INZ. lra.
Qed.
Lemma idx_mono g d v w : 0 < g_size g -> v <= w -> (idx g d v <= idx g d w)%nat.
Proof.
  intros Hs H. unfold idx. assert (M : (Int_part ((v - g_lo g d) / g_size g) <= Int_part ((w - g_lo g d) / g_size g))%Z); [|lia].
  apply int_part_mono. apply Rmult_le_compat_r; [apply Rlt_le, Rinv_0_lt_compat, Hs|lra].
Qed.

Section Grid.
  Variables (x : nat -> vec) (nb : nat) (bdy : nat -> nat).
  Let g := make_grid x nb bdy.
  Hypothesis size_pos : 0 < g_size g.

  Lemma lo_le i d : (i < nb)%nat -> g_lo g d <= x (bdy i) d.
  Proof. intros H. apply (minn_le nb (fun i => x (bdy i) d) i H). Qed.
  Lemma hi_ge i d : (i < nb)%nat -> x (bdy i) d <= g_hi g d.
  Proof. intros H. apply (maxn_le nb (fun i => x (bdy i) d) i H). Qed.
  Lemma g_n_eq d : g_n g d = (idx g d (g_hi g d) + 1)%nat.
  Proof. reflexivity. Qed.
  Lemma idx_lt i d : (i < nb)%nat -> (idx g d (x (bdy i) d) < g_n g d)%nat.
  Proof. intros H. rewrite g_n_eq. pose proof (idx_mono g d _ _ size_pos (hi_ge i d H)). lia. Qed.
  Lemma floor_idx i d : (i < nb)%nat -> floor_size ((x (bdy i) d - g_lo g d) / g_size g) = Some (idx g d (x (bdy i) d)).
  Proof.
    intros H. pose proof (lo_le i d H) as L. unfold floor_size.
    destruct (Rlt_dec ((x (bdy i) d - g_lo g d) / g_size g) 0) as [K|_]; [exfalso|reflexivity].
    assert (0 <= (x (bdy i) d - g_lo g d) / g_size g); [|lra]. apply Rmult_le_pos; [lra|]. apply Rlt_le, Rinv_0_lt_compat, size_pos.
  Qed.
  Lemma bucket_of_key i : (i < nb)%nat -> bucket_of g (x (bdy i)) = Some (key_of g (x (bdy i))).
  Proof.
    intros H. unfold bucket_of. rewrite (floor_idx i 0 H). cbn [obind]. rewrite (floor_idx i 1 H). cbn [obind].
    rewrite (floor_idx i 2 H). reflexivity.
  Qed.
  Lemma bucket_id_lt i j k : (i < g_n g 0)%nat -> (j < g_n g 1)%nat -> (k < g_n g 2)%nat -> (bucket_id g i j k < num_buckets g)%nat.
  Proof.
    unfold bucket_id, num_buckets. generalize (g_n g 0), (g_n g 1), (g_n g 2). intros a b c Hi Hj Hk.
    assert ((j * a + i < a * b))%nat. { assert (j * a + a <= b * a)%nat by (rewrite <- (Nat.mul_1_l a) at 2; rewrite <- Nat.mul_add_distr_r; apply Nat.mul_le_mono_r; lia). lia. }
    assert (k * (a * b) + a * b <= c * (a * b))%nat by (rewrite <- (Nat.mul_1_l (a * b)) at 2; rewrite <- Nat.mul_add_distr_r; apply Nat.mul_le_mono_r; lia).
    rewrite <- Nat.mul_assoc. lia.
  Qed.
  Lemma mul_add_inj a q r q' r' : (r < a)%nat -> (r' < a)%nat -> (q * a + r = q' * a + r')%nat -> q = q' /\ r = r'.
  Proof.
    intros H H' E. assert (q = q').
    { destruct (Nat.lt_trichotomy q q') as [L|[L|L]]; [exfalso|exact L|exfalso].
      - assert (q * a + a <= q' * a)%nat; [|lia]. rewrite <- (Nat.mul_1_l a) at 2. rewrite <- Nat.mul_add_distr_r. apply Nat.mul_le_mono_r. lia.
      - assert (q' * a + a <= q * a)%nat; [|lia]. rewrite <- (Nat.mul_1_l a) at 2. rewrite <- Nat.mul_add_distr_r. apply Nat.mul_le_mono_r. lia. }
    subst. split; [reflexivity|lia].
  Qed.
  Lemma bucket_id_inj i j k i' j' k' : (i < g_n g 0)%nat -> (j < g_n g 1)%nat -> (i' < g_n g 0)%nat -> (j' < g_n g 1)%nat ->
    bucket_id g i j k = bucket_id g i' j' k' -> i = i' /\ j = j' /\ k = k'.
  Proof.
    unfold bucket_id. generalize (g_n g 0), (g_n g 1). intros a b Hi Hj Hi' Hj' E.
    replace (k * a * b + j * a + i)%nat with ((k * b + j) * a + i)%nat in E by ring.
    replace (k' * a * b + j' * a + i')%nat with ((k' * b + j') * a + i')%nat in E by ring.
    apply mul_add_inj in E as [E ->]; auto. apply mul_add_inj in E as [-> ->]; auto.
  Qed.
  Lemma key_lt i : (i < nb)%nat -> (key_of g (x (bdy i)) < num_buckets g)%nat.
  Proof. intros H. apply bucket_id_lt; now apply idx_lt. Qed.

  Let key := fun i => key_of g (x (bdy i)).

  (** the sorted arrays hold the bins *)
  Definition sorted_ok (s : sorted) : Prop :=
    (forall b, (b < num_buckets g)%nat -> aget (nbox s) b 0 = Some (length (bin key b nb)) /\ aget (npoint s) b 0 = Some (start nb key b)) /\
    (forall b t, (b < num_buckets g)%nat -> (t < length (bin key b nb))%nat ->
       aget (nsort s) (start nb key b + t) 0 = Some (bdy (nth t (bin key b nb) O))) /\
    nrow (nsort s) = nb.

  Lemma sort_ok order : Permutation order (seq 0 nb) -> exists s, sort_nodes x nb bdy g order = Some s /\ sorted_ok s.
  Proof.
    intros Hp. unfold sort_nodes.
    destruct (count_perm nb (num_buckets g) key key_lt order Hp) as (cnt & E1 & Hc & Hcg).
    assert (E1' : count_nodes x bdy g order = Some cnt).
    { rewrite <- E1. unfold count_nodes. apply for_each_ext. intros i a Hi. rewrite bucket_of_key; [reflexivity|].
      eapply Permutation_in in Hi; [|exact Hp]. apply in_seq in Hi. lia. }
    rewrite E1'. cbn [obind].
    destruct (pointers_spec nb (num_buckets g) key cnt Hc Hcg) as (ptr & E2 & Hpt & Hpg).
    unfold place_pointers. rewrite E2. cbn [obind].
    destruct (place_spec nb (num_buckets g) key key_lt ptr Hpg) as (nbx & lid & E3 & Hx & Hl & Hxg & Hlg).
    assert (E3' : place_nodes x nb bdy g ptr = Some (nbx, lid)).
    { rewrite <- E3. unfold place_nodes, for_up. apply for_each_ext. intros i [a b] Hi. apply in_seq in Hi. rewrite bucket_of_key; [reflexivity|lia]. }
    rewrite E3'. cbn [obind].
    assert (G : forall n, (n <= nb)%nat -> exists a, for_each (seq 0 n) (fun i a => obind (aget lid i 0) (fun l => aset a i 0 (bdy l))) (zeros nb) = Some a /\
      holds1 a nb /\ forall j l, (j < n)%nat -> aget lid j 0 = Some l -> aget a j 0 = Some (bdy l)).
    { induction n as [|n IH]; intros Hn.
      - exists (zeros nb). split; [reflexivity|]. split; [apply zeros_holds|]. intros; lia.
      - destruct IH as (a & E & Ha & Hg); [lia|]. rewrite seq_S, for_each_app, E. cbn [obind for_each plus].
        destruct (slot_surj nb (num_buckets g) key key_lt n ltac:(lia)) as (b & t & Hb & Ht & ->).
        rewrite (Hlg b t Hb Ht). cbn [obind].
        destruct (set1 a nb (start nb key b + t)%nat (bdy (nth t (bin key b nb) O)) Ha) as (a' & -> & Ha' & Hg'); [lia|]. cbn [obind].
        exists a'. split; [reflexivity|]. split; [exact Ha'|]. intros j l Hj El. rewrite Hg'.
        destruct (Nat.eqb_spec j (start nb key b + t)) as [->|].
        + rewrite (Hlg b t Hb Ht) in El. now injection El as <-.
        + apply Hg; [lia|exact El]. }
    destruct (G nb) as (ns & E4 & Hns & Hg); [lia|]. unfold to_global, for_up. rewrite E4. cbn [obind].
    eexists. split; [reflexivity|]. split; [|split].
    - cbn [nbox npoint]. intros b Hb. split; [now apply Hxg|now apply Hpg].
    - cbn [nsort]. intros b t Hb Ht. apply Hg; [|now apply Hlg]. now apply slot_lt.
    - exact (proj1 Hns).
  Qed.

  (** ** Looking a box up *)
  Lemma clamp_idx d v : clamp_index g d v = Nat.min (g_n g d - 1) (idx g d v).
  Proof. unfold clamp_index, idx. rewrite g_n_eq. lia. Qed.
  Lemma in_range a b c : In c (range a b) <-> (a <= c <= b)%nat.
  Proof. unfold range. rewrite in_seq. lia. Qed.
  Lemma clamp_lt d v : (clamp_index g d v < g_n g d)%nat.
  Proof. rewrite clamp_idx, g_n_eq. lia. Qed.
  Lemma in_cells lo hi b : In b (cells g lo hi) <-> exists i j k, b = bucket_id g i j k /\
     (clamp_index g 0 (lo 0%nat) <= i <= clamp_index g 0 (hi 0%nat))%nat /\ (clamp_index g 1 (lo 1%nat) <= j <= clamp_index g 1 (hi 1%nat))%nat /\
     (clamp_index g 2 (lo 2%nat) <= k <= clamp_index g 2 (hi 2%nat))%nat.
  Proof.
    unfold cells. rewrite in_flat_map. split.
    - intros (i & Hi & H). apply in_flat_map in H as (j & Hj & H). apply in_map_iff in H as (k & <- & Hk).
      apply in_range in Hi, Hj, Hk. exists i, j, k. auto.
    - intros (i & j & k & -> & Hi & Hj & Hk). exists i. split; [now apply in_range|]. apply in_flat_map. exists j. split; [now apply in_range|].
      apply in_map_iff. exists k. split; [reflexivity|now apply in_range].
  Qed.
  Lemma range_nodup a b : NoDup (range a b). Proof. apply seq_NoDup. Qed.
  Lemma cells_nodup lo hi : NoDup (cells g lo hi).
  Proof.
    pose proof (clamp_lt 0 (hi 0%nat)) as L0. pose proof (clamp_lt 1 (hi 1%nat)) as L1.
    unfold cells. apply NoDup_flat_map; [apply range_nodup| |].
    - intros i Hi. apply in_range in Hi. apply NoDup_flat_map; [apply range_nodup| |].
      + intros j Hj. apply in_range in Hj. apply NoDup_map_in; [apply range_nodup|]. intros k k' _ _ E.
        apply bucket_id_inj in E as (_ & _ & ->); auto; lia.
      + intros j j' b Hj Hj' Hb Hb'. apply in_range in Hj, Hj'. apply in_map_iff in Hb as (k & <- & _), Hb' as (k' & E & _).
        apply bucket_id_inj in E as (_ & -> & _); auto; lia.
    - intros i i' b Hi Hi' Hb Hb'. apply in_range in Hi, Hi'. apply in_flat_map in Hb as (j & Hj & Hb), Hb' as (j' & Hj' & Hb').
      apply in_range in Hj, Hj'. apply in_map_iff in Hb as (k & <- & _), Hb' as (k' & E & _).
      apply bucket_id_inj in E as (-> & _ & _); auto; lia.
  Qed.
  Lemma cells_lt lo hi b : In b (cells g lo hi) -> (b < num_buckets g)%nat.
  Proof.
    intros H. apply in_cells in H as (i & j & k & -> & Hi & Hj & Hk).
    pose proof (clamp_lt 0 (hi 0%nat)). pose proof (clamp_lt 1 (hi 1%nat)). pose proof (clamp_lt 2 (hi 2%nat)). apply bucket_id_lt; lia.
  Qed.
  Lemma flat_map_len {A B} (f : A -> list B) c l : (forall a, In a l -> length (f a) = c) -> length (flat_map f l) = (length l * c)%nat.
  Proof. induction l as [|a l IH]; intros H; [reflexivity|]. cbn [flat_map length]. rewrite app_length, (H a (or_introl eq_refl)), IH; [reflexivity|]. intros; apply H; now right. Qed.
  Definition span (d : nat) (lo hi : vec) : nat := (clamp_index g d (hi d) + 1 - clamp_index g d (lo d))%nat.
  Lemma cells_length lo hi : length (cells g lo hi) = (span 0 lo hi * (span 1 lo hi * span 2 lo hi))%nat.
  Proof.
    unfold cells. rewrite (flat_map_len _ (span 1 lo hi * span 2 lo hi)).
    - unfold range. now rewrite seq_length.
    - intros i _. rewrite (flat_map_len _ (span 2 lo hi)).
      + unfold range. now rewrite seq_length.
      + intros j _. rewrite map_length. unfold range. now rewrite seq_length.
  Qed.

  (** writing the list of buckets *)
  Lemma write_cells_ok room l : (length l <= room)%nat -> exists a, write_cells room l = Some (a, length l) /\
    nrow a = room /\ ncol a = 1%nat /\ forall t, (t < length l)%nat -> aget a t 0 = Some (nth t l O).
  Proof.
    unfold write_cells. induction l as [|b l IH] using rev_ind; intros H.
    - exists (new_arr room 1). split; [reflexivity|]. split; [reflexivity|]. split; [reflexivity|]. cbn. intros; lia.
    - rewrite app_length in H. cbn in H. destruct IH as (a & E & Hr & Hc & Hg); [lia|]. rewrite for_each_app, E. cbn [obind for_each].
      destruct (set1 a room (length l) b (conj Hr Hc)) as (a' & -> & [Hr' Hc'] & Hg'); [lia|]. cbn [obind].
      exists a'. rewrite app_length. split; [reflexivity|]. split; [exact Hr'|]. split; [exact Hc'|]. intros t Ht. rewrite Hg'. cbn in Ht.
      destruct (Nat.eqb_spec t (length l)) as [->|].
      + now rewrite app_nth2, Nat.sub_diag by lia.
      + rewrite app_nth1 by lia. apply Hg. lia.
  Qed.
  Lemma write_cells_overrun room l : (room < length l)%nat -> write_cells room l = None.
  Proof.
    intros H. unfold write_cells. assert (L : l = firstn room l ++ nth room l O :: skipn (S room) l).
    { rewrite <- (firstn_skipn room l) at 1. f_equal. revert l H. induction room as [|r IH]; intros [|a l] H; cbn in H; try lia; [reflexivity|].
      cbn [skipn nth]. rewrite <- IH by lia. reflexivity. }
    rewrite L, for_each_app. destruct (write_cells_ok room (firstn room l)) as (a & E & Hr & Hc & _). { rewrite firstn_length. lia. }
    unfold write_cells in E. rewrite E. cbn [obind for_each]. rewrite firstn_length, Nat.min_l by lia.
    unfold aset. rewrite Hr, Nat.ltb_irrefl. reflexivity.
  Qed.

  Lemma for_each_total {A St} (l : list A) (body : A -> St -> option St) (f : A -> St -> St) st :
    (forall a st, In a l -> body a st = Some (f a st)) -> for_each l body st = Some (fold_left (fun st a => f a st) l st).
  Proof.
    revert st. induction l as [|a l IH]; intros st H; [reflexivity|]. cbn [for_each fold_left].
    rewrite (H a st (or_introl eq_refl)). cbn [obind]. apply IH. intros; apply H; now right.
  Qed.
  Lemma fold_flat_map {A B St} (f : B -> St -> St) (h : A -> list B) l st :
    fold_left (fun st a => fold_left (fun st b => f b st) (h a) st) l st = fold_left (fun st b => f b st) (flat_map h l) st.
  Proof. revert st. induction l as [|a l IH]; intros st; [reflexivity|]. cbn [fold_left flat_map]. now rewrite fold_left_app, IH. Qed.
  Lemma fold_nth_seq {B St} (f : B -> St -> St) (l : list B) d st :
    fold_left (fun st t => f (nth t l d) st) (seq 0 (length l)) st = fold_left (fun st b => f b st) l st.
  Proof.
    revert st. induction l as [|b l IH] using rev_ind; intros st; [reflexivity|]. rewrite app_length. cbn [length]. rewrite Nat.add_1_r, seq_S, !fold_left_app.
    cbn [fold_left plus]. rewrite app_nth2, Nat.sub_diag by lia. cbn [nth]. f_equal. rewrite <- IH.
    assert (G : forall n st, (n <= length l)%nat -> fold_left (fun st t => f (nth t (l ++ [b]) d) st) (seq 0 n) st = fold_left (fun st t => f (nth t l d) st) (seq 0 n) st).
    { induction n as [|n IHn]; intros st' Hn; [reflexivity|]. rewrite seq_S, !fold_left_app. cbn [fold_left plus]. rewrite IHn, app_nth1 by lia. reflexivity. }
    now apply G.
  Qed.

  (** numbers of the boundary nodes met *)
  Definition met (lo hi : vec) : list nat := flat_map (fun b => bin key b nb) (cells g lo hi).

  Lemma over_nodes_spec {St} room s lo hi (body : nat -> St -> St) st : sorted_ok s -> (length (cells g lo hi) <= room)%nat ->
    over_nodes room g s lo hi body st = Some (fold_left (fun st i => body (bdy i) st) (met lo hi) st).
  Proof.
    intros (Hb & Hs & _) Hr. unfold over_nodes. destruct (write_cells_ok room (cells g lo hi) Hr) as (a & -> & _ & _ & Hg). cbn [obind].
    unfold for_up. rewrite (for_each_total _ _ (fun lid st => fold_left (fun st i => body (bdy i) st) (bin key (nth lid (cells g lo hi) O) nb) st)).
    - f_equal. unfold met. rewrite <- fold_flat_map. exact (fold_nth_seq (fun b st => fold_left (fun st i => body (bdy i) st) (bin key b nb) st) (cells g lo hi) O st).
    - intros lid st' Hl. apply in_seq in Hl. rewrite Hg by lia. cbn [obind]. set (b := nth lid (cells g lo hi) O).
      assert (Hlt : (b < num_buckets g)%nat) by (apply (cells_lt lo hi), nth_In; lia).
      destruct (Hb b Hlt) as [-> ->]. cbn [obind].
      rewrite (for_each_total _ _ (fun i st => body (bdy (nth i (bin key b nb) O)) st)).
      + f_equal. apply (fold_nth_seq (fun i st => body (bdy i) st)).
      + intros i st'' Hi. apply in_seq in Hi. rewrite (Hs b i Hlt) by lia. reflexivity.
  Qed.

  Lemma over_nodes_overrun {St} room s lo hi (body : nat -> St -> St) st : (room < length (cells g lo hi))%nat ->
    over_nodes room g s lo hi body st = None.
  Proof. intros H. unfold over_nodes. now rewrite write_cells_overrun. Qed.

  Lemma met_nodup lo hi : NoDup (met lo hi).
  Proof.
    unfold met. apply NoDup_flat_map; [apply cells_nodup|intros; apply bin_nodup|].
    intros b b' i _ _ H H'. apply bin_in in H as [_ <-], H' as [_ <-]. reflexivity.
  Qed.
  Lemma met_lt lo hi i : In i (met lo hi) -> (i < nb)%nat.
  Proof. unfold met. rewrite in_flat_map. intros (b & _ & H). apply bin_in in H. apply H. Qed.
  Lemma met_complete lo hi i : (i < nb)%nat -> in_box lo hi (x (bdy i)) -> In i (met lo hi).
  Proof.
    intros Hi Hb. unfold met. apply in_flat_map. exists (key i). split; [|apply bin_in; auto].
    apply in_cells. exists (idx g 0 (x (bdy i) 0%nat)), (idx g 1 (x (bdy i) 1%nat)), (idx g 2 (x (bdy i) 2%nat)). split; [reflexivity|].
    assert (G : forall d, (d < 3)%nat -> (clamp_index g d (lo d) <= idx g d (x (bdy i) d) <= clamp_index g d (hi d))%nat).
    { intros d Hd. destruct (Hb d Hd) as [H1 H2]. rewrite !clamp_idx. pose proof (idx_lt i d Hi).
      pose proof (idx_mono g d _ _ size_pos H1). pose proof (idx_mono g d _ _ size_pos H2). lia. }
    repeat split; apply G; lia.
  Qed.
End Grid.
