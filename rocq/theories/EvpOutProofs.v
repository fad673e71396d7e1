(* Lemmas about the files of the spectral solver. *)
From Coq Require Import Reals List Arith Lia Bool ZArith String Lra.
From Verif Require Import BaseReal EvpModel EvpOutModel EvpOutSpec.
Import ListNotations.
Local Open Scope nat_scope.

(* ---------- lists of equal pieces ---------- *)

Lemma flat_map_length_const : forall {A B} (f : A -> list B) n l, (forall x, length (f x) = n) -> length (flat_map f l) = n * length l.
Proof. intros A B f n l H. induction l; cbn [flat_map length]; [lia | rewrite app_length, IHl, H; lia]. Qed.
Lemma flat_map_nth : forall {A B} (f : A -> list B) n l i j x, (forall x, length (f x) = n) -> nth_error l i = Some x -> j < n ->
  nth_error (flat_map f l) (n * i + j) = nth_error (f x) j.
Proof.
  intros A B f n l i j x H. revert i. induction l as [|a l IH]; intros [|i]; cbn [nth_error flat_map]; intros Hi Hj; try discriminate.
  - injection Hi as <-. rewrite nth_error_app1 by (rewrite H; lia). f_equal. lia.
  - rewrite nth_error_app2 by (rewrite H; lia). rewrite H. replace (n * S i + j - n) with (n * i + j) by lia. now apply IH.
Qed.
Lemma flat_map_slice : forall {A B} (f : A -> list B) n l i x, (forall x, length (f x) = n) -> nth_error l i = Some x ->
  firstn n (skipn (n * i) (flat_map f l)) = f x.
Proof.
  intros A B f n l i x H. revert i. induction l as [|a l IH]; intros [|i]; cbn [nth_error flat_map]; intros Hi; try discriminate.
  - injection Hi as <-. replace (n * 0) with 0 by lia. cbn [skipn]. rewrite firstn_app, H. replace (n - n) with 0 by lia.
    cbn [firstn]. rewrite app_nil_r. rewrite <- (H a). apply firstn_all.
  - rewrite skipn_app, H. rewrite skipn_all2 by (rewrite H; lia). cbn [app]. replace (n * S i - n) with (n * i) by lia. now apply IH.
Qed.
Lemma nth_error_seq : forall n s i, i < n -> nth_error (seq s n) i = Some (s + i).
Proof. induction n; intros s [|i] H; try lia; cbn [seq nth_error]; [f_equal; lia |]. rewrite IHn by lia. f_equal. lia. Qed.
Lemma map_as_flat : forall {A B} (f : A -> B) l, map f l = flat_map (fun x => [f x]) l.
Proof. intros. induction l; cbn [map flat_map app]; [reflexivity | now rewrite IHl]. Qed.

(* ---------- the order of the voxels ---------- *)

Lemma row_length : forall n1 n2 (kz : nat), length (flat_map (fun ky => map (fun kx => (kx, ky, kz)) (seq 1 n1)) (seq 1 n2)) = n1 * n2.
Proof. intros. rewrite (flat_map_length_const _ n1); [now rewrite seq_length |]. intros. now rewrite map_length, seq_length. Qed.
Lemma voxels_length : forall n1 n2 n3, length (voxels n1 n2 n3) = n1 * n2 * n3.
Proof. intros. unfold voxels. rewrite (flat_map_length_const _ (n1 * n2)); [now rewrite seq_length |]. intros. apply row_length. Qed.
Lemma voxels_nth : forall n1 n2 n3 k, in_grid n1 n2 n3 k -> nth_error (voxels n1 n2 n3) (number n1 n2 k) = Some k.
Proof.
  intros n1 n2 n3 [[x y] z] (Hx & Hy & Hz). unfold voxels, number.
  assert (Ez : nth_error (seq 1 n3) (z - 1) = Some z) by (rewrite nth_error_seq by lia; f_equal; lia).
  assert (Ey : nth_error (seq 1 n2) (y - 1) = Some y) by (rewrite nth_error_seq by lia; f_equal; lia).
  assert (Ex : nth_error (seq 1 n1) (x - 1) = Some x) by (rewrite nth_error_seq by lia; f_equal; lia).
  assert (Hp : x - 1 + n1 * (y - 1) < n1 * n2).
  { assert (n1 * (y - 1) + n1 <= n1 * n2) by (replace (n1 * (y - 1) + n1) with (n1 * y) by (destruct y; [lia | cbn; nia]); apply Nat.mul_le_mono_l; lia). lia. }
  replace (x - 1 + n1 * (y - 1 + n2 * (z - 1))) with (n1 * n2 * (z - 1) + (x - 1 + n1 * (y - 1))) by ring.
  rewrite (flat_map_nth _ (n1 * n2) _ _ _ z); [| intros; apply row_length | exact Ez | exact Hp].
  replace (x - 1 + n1 * (y - 1)) with (n1 * (y - 1) + (x - 1)) by lia.
  rewrite (flat_map_nth _ n1 _ _ _ y); [| intros; now rewrite map_length, seq_length | exact Ey | lia].
  now rewrite nth_error_map, Ex.
Qed.
Lemma in_voxels : forall n1 n2 n3 k, In k (voxels n1 n2 n3) <-> in_grid n1 n2 n3 k.
Proof.
  intros n1 n2 n3 [[x y] z]. unfold voxels, in_grid. rewrite in_flat_map. split.
  - intros (z' & Hz & H). apply in_flat_map in H. destruct H as (y' & Hy & H). apply in_map_iff in H. destruct H as (x' & E & Hx).
    injection E as -> -> ->. apply in_seq in Hx, Hy, Hz. lia.
  - intros H. exists z. split; [apply in_seq; lia |]. apply in_flat_map. exists y. split; [apply in_seq; lia |].
    apply in_map_iff. exists x. split; [reflexivity | apply in_seq; lia].
Qed.
Lemma number_lt : forall n1 n2 n3 k, in_grid n1 n2 n3 k -> number n1 n2 k < n1 * n2 * n3.
Proof. intros. rewrite <- voxels_length. apply nth_error_Some. rewrite (voxels_nth _ _ _ _ H). discriminate. Qed.
Lemma number_inj : forall n1 n2 n3 k k', in_grid n1 n2 n3 k -> in_grid n1 n2 n3 k' -> number n1 n2 k = number n1 n2 k' -> k = k'.
Proof. intros n1 n2 n3 k k' H H' E. apply voxels_nth in H, H'. congruence. Qed.
Lemma number_onto : forall n1 n2 n3 i, i < n1 * n2 * n3 -> exists k, in_grid n1 n2 n3 k /\ number n1 n2 k = i.
Proof.
  intros n1 n2 n3 i H.
  assert (n1 <> 0) by (intros ->; lia). assert (n2 <> 0) by (intros ->; lia). assert (n3 <> 0) by (intros ->; lia).
  exists (1 + i mod n1, 1 + (i / n1) mod n2, 1 + i / n1 / n2).
  pose proof (Nat.div_mod i n1 H0) as E1. pose proof (Nat.div_mod (i / n1) n2 H1) as E2.
  pose proof (Nat.mod_upper_bound i n1 H0). pose proof (Nat.mod_upper_bound (i / n1) n2 H1).
  split.
  - unfold in_grid. assert (i / n1 / n2 < n3) by (rewrite Nat.div_div by assumption; apply Nat.div_lt_upper_bound; lia). lia.
  - unfold number. replace (1 + i mod n1 - 1) with (i mod n1) by lia. replace (1 + (i / n1) mod n2 - 1) with ((i / n1) mod n2) by lia.
    replace (1 + i / n1 / n2 - 1) with (i / n1 / n2) by lia. lia.
Qed.
Lemma nth_number : forall n1 n2 n3 i k, nth_error (voxels n1 n2 n3) i = Some k -> i = number n1 n2 k.
Proof.
  intros n1 n2 n3 i k E.
  assert (Hi : i < n1 * n2 * n3) by (rewrite <- voxels_length; apply nth_error_Some; congruence).
  destruct (number_onto _ _ _ _ Hi) as (k' & H & <-). rewrite (voxels_nth _ _ _ _ H) in E. now injection E as ->.
Qed.
Lemma voxels_nodup : forall n1 n2 n3, NoDup (voxels n1 n2 n3).
Proof.
  intros. apply NoDup_nth_error. intros i j Hi E.
  destruct (nth_error (voxels n1 n2 n3) i) as [k|] eqn:Ei; [| apply nth_error_None in Ei; lia].
  rewrite (nth_number _ _ _ _ _ Ei). symmetry. apply (nth_number _ _ n3). congruence.
Qed.

(* ---------- point numbers ---------- *)

Lemma voxel_eqb_eq : forall a b, voxel_eqb a b = true <-> a = b.
Proof.
  intros [[a1 a2] a3] [[b1 b2] b3]. unfold voxel_eqb. rewrite !andb_true_iff, !Nat.eqb_eq. split.
  - intros [[-> ->] ->]. reflexivity.
  - intros E. injection E as -> -> ->. auto.
Qed.
Lemma find_numbered : forall l s i k, NoDup l -> nth_error l i = Some k ->
  find (fun e => voxel_eqb (fst e) k) (combine l (seq s (length l))) = Some (k, s + i).
Proof.
  induction l as [|a l IH]; intros s [|i] k Hn E; cbn [nth_error] in E; try discriminate; cbn [length seq combine find fst].
  - injection E as ->. replace (voxel_eqb k k) with true by (symmetry; now apply voxel_eqb_eq). f_equal. f_equal. lia.
  - inversion Hn as [|? ? Ha Hl]; subst. destruct (voxel_eqb a k) eqn:Eq.
    + apply voxel_eqb_eq in Eq. subst. exfalso. apply Ha. now apply nth_error_In in E.
    + rewrite (IH (S s) i k Hl E). f_equal. f_equal. lia.
Qed.
Lemma pid_spec : forall n1 n2 n3 k, in_grid (n1 + 1) (n2 + 1) (n3 + 1) k -> pid n1 n2 n3 k = Z.of_nat (number (n1 + 1) (n2 + 1) k).
Proof.
  intros n1 n2 n3 k H. unfold pid, pid_table, points. rewrite (find_numbered _ 0 _ _ (voxels_nodup _ _ _) (voxels_nth _ _ _ _ H)). reflexivity.
Qed.

(* ---------- reading blocks ---------- *)

Lemma bytes_app : forall a b, bytes (a ++ b) = bytes a + bytes b.
Proof. intros. unfold bytes. now rewrite map_app, list_sum_app. Qed.
Lemma width_pos : forall i, 0 < width i.
Proof. intros []; cbn; lia. Qed.
Lemma skip_bytes_app : forall a b o, skip_bytes (a ++ b) (bytes a + o) = skip_bytes b o.
Proof.
  induction a as [|i a IH]; intros b o; [reflexivity |].
  change (bytes (i :: a)) with (width i + bytes a). pose proof (width_pos i).
  cbn [app skip_bytes]. destruct (width i + bytes a + o) eqn:E; [lia |]. rewrite <- E.
  replace (width i <=? width i + bytes a + o) with true by (symmetry; apply Nat.leb_le; lia).
  replace (width i + bytes a + o - width i) with (bytes a + o) by lia. apply IH.
Qed.
Lemma take_bytes_app : forall a b, take_bytes (a ++ b) (bytes a) = Some a.
Proof.
  induction a as [|i a IH]; intros b; [destruct b; reflexivity |].
  change (bytes (i :: a)) with (width i + bytes a). pose proof (width_pos i).
  cbn [app take_bytes]. destruct (width i + bytes a) eqn:E; [lia |]. rewrite <- E.
  replace (width i <=? width i + bytes a) with true by (symmetry; apply Nat.leb_le; lia).
  replace (width i + bytes a - width i) with (bytes a) by lia. now rewrite IH.
Qed.
Definition stream (l : list (nat * list item)) : list item := flat_map (fun b => U64 (fst b) :: snd b) l.
(* What stands at the offset of entry i of a header that fits the blocks. *)
Lemma read_offsets : forall l h pre i a o b,
  Forall (fun b => fst b = bytes (snd b)) l -> map snd h = map fst l ->
  nth_error (offsets (bytes pre) h) i = Some (a, o) -> nth_error l i = Some b ->
  read_block (pre ++ stream l) o = Some (snd b).
Proof.
  induction l as [|[n d] l IH]; intros h pre i a o b Hf Hm Ho Hb; [destruct i; discriminate |].
  destruct h as [|[a' n'] h]; [discriminate |]. cbn [map fst snd] in Hm. injection Hm as -> Hm.
  inversion Hf as [|? ? Hd Hl]; subst. cbn [fst snd] in Hd. subst n.
  destruct i as [|i]; cbn [offsets nth_error] in Ho, Hb.
  - injection Ho as _ <-. injection Hb as <-. cbn [snd]. unfold read_block.
    replace (bytes pre) with (bytes pre + 0) by lia. rewrite skip_bytes_app. cbn [stream flat_map fst snd app skip_bytes]. apply take_bytes_app.
  - specialize (IH h (pre ++ U64 (bytes d) :: d) i a o b Hl Hm). rewrite bytes_app in IH.
    replace (bytes (U64 (bytes d) :: d)) with (bytes d + 8) in IH by (change (bytes (U64 (bytes d) :: d)) with (8 + bytes d); lia).
    specialize (IH Ho Hb). rewrite <- app_assoc in IH. exact IH.
Qed.
Lemma bytes_flat_map : forall {A} (f : A -> list item) n l, (forall x, bytes (f x) = n) -> bytes (flat_map f l) = n * length l.
Proof. intros A f n l H. induction l; cbn [flat_map length]; [unfold bytes; cbn; lia | rewrite bytes_app, IHl, H; lia]. Qed.
Lemma bytes_map : forall {A} (f : A -> item) n l, (forall x, width (f x) = n) -> bytes (map f l) = n * length l.
Proof. intros. rewrite map_as_flat. apply bytes_flat_map. intros x. unfold bytes. cbn [map list_sum fold_right]. rewrite H. lia. Qed.

Lemma blocks_fit : forall n1 n2 n3 m, Forall (fun b => fst b = bytes (snd b)) (blocks n1 n2 n3 m).
Proof.
  intros. unfold blocks. cbn zeta.
  repeat (apply Forall_cons; [cbn [fst snd] |]); [.. | apply Forall_nil].
  all: try (rewrite (bytes_map _ 4) by reflexivity; rewrite ?seq_length, ?voxels_length; lia).
  all: try (rewrite (bytes_map _ 8) by reflexivity; rewrite ?seq_length, ?voxels_length; lia).
  all: try (rewrite (bytes_flat_map _ 48) by reflexivity; rewrite ?voxels_length; lia).
  - reflexivity.
  - rewrite (bytes_flat_map _ 24) by reflexivity. unfold points. rewrite voxels_length. lia.
  - rewrite (bytes_flat_map _ 32) by (intros [[x y] z]; reflexivity). rewrite voxels_length. lia.
  - rewrite (bytes_flat_map _ 3) by reflexivity. rewrite voxels_length. lia.
Qed.
Lemma header_blocks : forall n1 n2 n3 m, map snd (header n1 n2 n3) = map fst (blocks n1 n2 n3 m).
Proof. reflexivity. Qed.
Lemma offsets_nth : forall h s i a o, nth_error (offsets s h) i = Some (a, o) -> exists n, nth_error h i = Some (a, n).
Proof.
  induction h as [|[a' n'] h IH]; intros s [|i] a o E; cbn [offsets nth_error] in *; try discriminate.
  - injection E as -> _. eauto.
  - eapply IH. exact E.
Qed.
Lemma offsets_has : forall h s i a n, nth_error h i = Some (a, n) -> exists o, nth_error (offsets s h) i = Some (a, o).
Proof.
  induction h as [|[a' n'] h IH]; intros s [|i] a n E; cbn [offsets nth_error] in *; try discriminate.
  - injection E as -> _. eauto.
  - eapply IH. exact E.
Qed.
(* An array stands under its name. *)
Lemma read_named : forall n1 n2 n3 m i name t c n b,
  nth_error (header n1 n2 n3) i = Some ((name, t, c), n) ->
  nth_error (blocks n1 n2 n3 m) i = Some b ->
  exists o, In ((name, t, c), o) (v_arrays (write_vtu n1 n2 n3 m)) /\ nth_error (v_arrays (write_vtu n1 n2 n3 m)) i = Some ((name, t, c), o) /\
    read_block (v_data (write_vtu n1 n2 n3 m)) o = Some (snd b).
Proof.
  intros n1 n2 n3 m i name t c n b Hh Hb. destruct (offsets_has _ 0 _ _ _ Hh) as (o & Ho). exists o. split; [| split].
  - eapply nth_error_In. exact Ho.
  - exact Ho.
  - cbn [v_data write_vtu]. unfold appended. change (flat_map _ (blocks n1 n2 n3 m)) with ([] ++ stream (blocks n1 n2 n3 m)).
    eapply read_offsets; [apply blocks_fit | apply header_blocks | exact Ho | exact Hb].
Qed.
