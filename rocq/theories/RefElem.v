(** The arrays of the reference element after [init]. *)
From Coq Require Import Reals List Arith Lia Lra Permutation.
From Verif Require Import BaseArr BaseReal RefSpec RefTables RefModel RefLag RefQuad RefLoop.
Import ListNotations.
Open Scope R_scope.

(** * Loops with a counter *)
Lemma counter_table {A X} (l : list X) (g : X -> A) (d : X)
    (body : X -> arr A * nat -> option (arr A * nat)) a :
  nrow a = length l -> ncol a = 1%nat ->
  (forall x a c, In x l -> body x (a, c) = obind (aset a c 0 (g x)) (fun a => Some (a, S c))) ->
  exists a', for_each l body (a, 0%nat) = Some (a', length l) /\
    table a' (length l) 1 (fun r _ => g (nth r l d)).
Proof.
  intros Hr Hc B.
  rewrite (@for_each_writes_cnt A X l body (fun x c => [(c, 0%nat, g x)]) 1 a 0).
  2:{ intros x a0 c Hx. rewrite B by exact Hx. unfold do_writes. cbn [for_each].
      destruct (aset a0 c 0 (g x)); cbn [obind option_map]; [|reflexivity]. do 2 f_equal. lia. }
  set (w := concat _).
  assert (Hw : forall r c v, In (r, c, v) w <-> (r < length l)%nat /\ c = 0%nat /\ v = g (nth r l d)).
  { intros r c v. unfold w. rewrite in_concat. split.
    - intros (s & Hs & Hin). apply in_map_iff in Hs as ([i x] & <- & Hi). destruct Hin as [E|[]].
      injection E as <- <- <-. rewrite Nat.mul_1_r. cbn [plus].
      assert (Hn : nth_error l i = Some x /\ (i < length l)%nat).
      { clear -Hi. replace i with (i - 0)%nat at 1 by lia.
        assert (K : forall l k, In (i, x) (combine (seq k (length l)) l) -> (k <= i < k + length l)%nat /\ nth_error l (i - k) = Some x).
        { clear. induction l as [|y l IH]; intros k H; [destruct H|]. cbn [length seq combine] in H.
          destruct H as [E|H].
          - injection E as -> ->. rewrite Nat.sub_diag. cbn [length]. split; [lia|reflexivity].
          - apply IH in H as [H1 H2]. cbn [length]. split; [lia|].
            replace (i - k)%nat with (S (i - S k)) by lia. exact H2. }
        apply K in Hi as [H1 H2]. split; [exact H2|lia]. }
      destruct Hn as [Hn Hl]. split; [exact Hl|]. split; [reflexivity|].
      rewrite (nth_error_nth l i d Hn). reflexivity.
    - intros (Hl & -> & ->). exists [(r, 0%nat, g (nth r l d))]. split; [|left; reflexivity].
      apply in_map_iff. exists (r, nth r l d). split; [rewrite Nat.mul_1_r; reflexivity|].
      assert (K : forall l k, (r < length l)%nat -> In ((k + r)%nat, nth r l d) (combine (seq k (length l)) l)).
      { clear. induction r as [|r IH]; intros [|y l] k H; cbn [length] in H; try lia; cbn [length seq combine nth].
        - left. f_equal. lia.
        - right. replace (k + S r)%nat with (S k + r)%nat by lia. apply IH. lia. }
      apply (K l 0%nat Hl). }
  destruct (writes_table w a (fun r _ => g (nth r l d))) as (a' & E & T).
  - intros r c v Hin. apply Hw in Hin as (H1 & -> & ->). rewrite Hr, Hc. split; [lia|]. split; [lia|reflexivity].
  - intros r c H1 H2. exists (g (nth r l d)). apply Hw. rewrite Hr in H1. rewrite Hc in H2. split; [exact H1|]. split; [lia|reflexivity].
  - exists a'. rewrite E. cbn [option_map]. rewrite Hr, Hc in T. split; [|exact T].
    do 2 f_equal. lia.
Qed.

Lemma evens_odd m : evens (2 * m + 1) = map (fun i => 2 * i)%nat (seq 0 (m + 1)).
Proof.
  unfold evens. induction m as [|m IH]; [reflexivity|].
  replace (2 * S m + 1)%nat with ((2 * m + 1) + 2)%nat by lia.
  rewrite seq_app, filter_app, IH. replace (S m + 1)%nat with ((m + 1) + 1)%nat by lia.
  rewrite (seq_app (m + 1) 1), map_app. f_equal.
  cbn [plus seq filter map]. replace (Nat.even (2 * m + 1)) with false.
  - replace (Nat.even (S (2 * m + 1))) with true; [f_equal; lia|].
    symmetry. apply Nat.even_spec. exists (m + 1)%nat. lia.
  - symmetry. rewrite Nat.even_add, Nat.even_mul. reflexivity.
Qed.

Lemma nth_flat_map {A B} (f : A -> list B) (l : list A) m i j da db :
  (forall a, In a l -> length (f a) = m) -> (i < m)%nat -> (j < length l)%nat ->
  nth (i + j * m) (flat_map f l) db = nth i (f (nth j l da)) db.
Proof.
  revert j. induction l as [|a l IH]; intros j H Hi Hj; [cbn in Hj; lia|]. cbn [flat_map].
  destruct j as [|j].
  - rewrite app_nth1 by (rewrite H by (left; reflexivity); lia). rewrite Nat.mul_0_l, Nat.add_0_r. reflexivity.
  - rewrite app_nth2 by (rewrite H by (left; reflexivity); lia). rewrite (H a) by (left; reflexivity).
    replace (i + S j * m - m)%nat with (i + j * m)%nat by lia. cbn [nth].
    apply IH; [intros b Hb; apply H; right; exact Hb|exact Hi|cbn in Hj; lia].
Qed.

Lemma length_flat_map_const {A B} (f : A -> list B) (l : list A) m :
  (forall a, In a l -> length (f a) = m) -> length (flat_map f l) = (length l * m)%nat.
Proof.
  induction l as [|a l IH]; intros H; [reflexivity|]. cbn [flat_map length]. rewrite app_length, IH.
  - rewrite H by (left; reflexivity). lia.
  - intros b Hb; apply H; right; exact Hb.
Qed.

Lemma length_plane (l : list nat) (k : nat) : length (flat_map (fun j => map (fun i => (i, j, k)) l) l) = (length l * length l)%nat.
Proof. apply length_flat_map_const. intros; apply map_length. Qed.

Lemma length_cells_over l : length (cells_over l) = (length l * length l * length l)%nat.
Proof.
  unfold cells_over. rewrite (length_flat_map_const _ l (length l * length l)); [lia|].
  intros k _. apply length_plane.
Qed.

Lemma nth_cells_over l r : (r < length l * length l * length l)%nat ->
  nth r (cells_over l) (0, 0, 0)%nat
  = (nth (ix (length l) r) l 0, nth (iy (length l) r) l 0, nth (iz (length l) r) l 0)%nat.
Proof.
  intros H. destruct (rid_onto _ _ H) as (i & j & k & (Hi & Hj & Hk) & <-).
  destruct (rid_ix _ i j k Hi Hj Hk) as (-> & -> & ->). unfold rid, cells_over.
  replace (i + j * length l + k * length l * length l)%nat
    with ((i + j * length l) + k * (length l * length l))%nat by lia.
  rewrite (nth_flat_map _ l (length l * length l) (i + j * length l) k 0%nat);
    [|intros; apply length_plane|nia|exact Hk].
  rewrite (nth_flat_map _ l (length l) i j 0%nat); [|intros; apply map_length|exact Hi|exact Hj].
  rewrite (nth_indep _ _ ((fun i => (i, nth j l 0%nat, nth k l 0%nat)) 0%nat)) by (rewrite map_length; exact Hi).
  exact (map_nth (fun i => (i, nth j l 0%nat, nth k l 0%nat)) l 0%nat i).
Qed.

Lemma take_evens_table m from f to : table from (2 * m + 1) 1 (fun i _ => f i) ->
  nrow to = (m + 1)%nat -> ncol to = 1%nat ->
  exists a, take_evens (2 * m + 1) from to = Some a /\ table a (m + 1) 1 (fun i _ => f (2 * i)%nat).
Proof.
  intros T Hr Hc. unfold take_evens. rewrite evens_odd.
  destruct (counter_table (map (fun i => 2 * i)%nat (seq 0 (m + 1))) f 0%nat
    (fun i (st : arr R * nat) => let '(a, c) := st in
       obind (aget from i 0) (fun v => obind (aset a c 0 v) (fun a => Some (a, S c)))) to) as (a & E & Ta).
  - rewrite map_length, seq_length. exact Hr.
  - exact Hc.
  - intros i a c Hi. apply in_map_iff in Hi as (j & <- & Hj). apply in_seq in Hj.
    rewrite (table_get _ _ _ _ (2 * j) 0 T) by lia. reflexivity.
  - rewrite E. cbn [obind fst]. exists a. split; [reflexivity|].
    rewrite map_length, seq_length in Ta. revert Ta. apply table_ext. intros i j Hi _.
    rewrite (nth_indep _ 0%nat ((fun i => 2 * i)%nat 0%nat)) by (rewrite map_length, seq_length; exact Hi).
    rewrite (map_nth (fun i => 2 * i)%nat), seq_nth by exact Hi. reflexivity.
Qed.

Lemma number_points_table n l a : nrow a = (length l * length l * length l)%nat -> ncol a = 1%nat ->
  exists a', number_points n l a = Some a' /\
    table a' (length l * length l * length l) 1
      (fun r _ => rid n (nth (ix (length l) r) l 0%nat) (nth (iy (length l) r) l 0%nat) (nth (iz (length l) r) l 0%nat)).
Proof.
  intros Hr Hc. unfold number_points.
  destruct (counter_table (cells_over l) (fun '(i, j, k) => rid n i j k) (0, 0, 0)%nat
    (fun '(i, j, k) (st : arr nat * nat) => let '(a, c) := st in
       obind (aset a c 0 (rid n i j k)) (fun a => Some (a, S c))) a) as (a' & E & T).
  - rewrite length_cells_over. exact Hr.
  - exact Hc.
  - intros [[i j] k] a0 c _. reflexivity.
  - rewrite E. cbn [obind fst]. exists a'. split; [reflexivity|].
    rewrite length_cells_over in T. revert T. apply table_ext. intros r c H _.
    rewrite nth_cells_over by exact H. reflexivity.
Qed.

Lemma evens_nth m i : (i < m + 1)%nat -> nth i (evens (2 * m + 1)) 0%nat = (2 * i)%nat.
Proof.
  intros Hi. rewrite evens_odd.
  rewrite (nth_indep _ 0%nat ((fun i => 2 * i)%nat 0%nat)) by (rewrite map_length, seq_length; exact Hi).
  rewrite (map_nth (fun i => 2 * i)%nat), seq_nth by exact Hi. reflexivity.
Qed.

Lemma number_evens m a : nrow a = ((m + 1) * (m + 1) * (m + 1))%nat -> ncol a = 1%nat ->
  exists a', number_points (2 * m + 1) (evens (2 * m + 1)) a = Some a' /\
    table a' ((m + 1) * (m + 1) * (m + 1)) 1
      (fun r _ => rid (2 * m + 1) (2 * ix (m + 1) r) (2 * iy (m + 1) r) (2 * iz (m + 1) r)).
Proof.
  intros Hr Hc.
  assert (L : length (evens (2 * m + 1)) = (m + 1)%nat) by (rewrite evens_odd, map_length, seq_length; reflexivity).
  destruct (number_points_table (2 * m + 1) (evens (2 * m + 1)) a) as (a' & E & T).
  - rewrite L. exact Hr.
  - exact Hc.
  - exists a'. split; [exact E|]. rewrite L in T. revert T. apply table_ext. intros r c H _.
    destruct (rid_onto _ _ H) as (i & j & k & (Hi & Hj & Hk) & <-).
    destruct (rid_ix _ i j k Hi Hj Hk) as (-> & -> & ->). rewrite !evens_nth by assumption. reflexivity.
Qed.

(** * Lengths of the tables *)
Lemma legendre_lengths n : (forall l, legendre_nodes n = Some l -> length l = n) /\
  (forall l, legendre_weights n = Some l -> length l = n).
Proof.
  destruct (Nat.eq_dec n 0) as [->|N0]; [split; intros l H; discriminate H|].
  destruct (le_lt_dec n 19) as [Hn|Hn].
  - destruct (legendre_sound n ltac:(lia)) as (xs & ws & -> & -> & L1 & L2 & _).
    split; intros l E; injection E as <-; assumption.
  - do 20 (destruct n as [|n]; [lia|]). split; intros l H; discriminate H.
Qed.

Lemma lobatto_small n : (1 <= n <= 6)%nat -> exists xs ws, lobatto_nodes n = Some xs /\ lobatto_weights n = Some ws /\
  sound 0 (2 * n - 2) n xs ws.
Proof.
  intros Hn.
  destruct n as [|[|[|[|[|[|[|n]]]]]]]; try lia; do 2 eexists; (split; [reflexivity|]); (split; [reflexivity|]).
  - destruct exact_1 as (? & ? & H & ?). split; [assumption|]. split; [assumption|]. split; [intros d Hd; lia|assumption].
  - exact exact_2.
  - exact exact_3.
  - exact exact_4.
  - exact exact_5.
  - exact exact_6.
Qed.

Definition lobatto_error (n : nat) : R := if (n <=? 6)%nat then 0 else / IZR (lobatto_inverse n).

Lemma lobatto_sound n : (1 <= n <= 20)%nat -> exists xs ws, lobatto_nodes n = Some xs /\ lobatto_weights n = Some ws /\
  sound (lobatto_error n) (2 * n - 2) n xs ws.
Proof.
  intros Hn. unfold lobatto_error. destruct (Nat.leb_spec n 6) as [H|H].
  - apply lobatto_small. lia.
  - apply lobatto_table_sound. lia.
Qed.

Lemma lobatto_lengths n : (forall l, lobatto_nodes n = Some l -> length l = n) /\
  (forall l, lobatto_weights n = Some l -> length l = n).
Proof.
  destruct (Nat.eq_dec n 0) as [->|N0]; [split; intros l H; discriminate H|].
  destruct (le_lt_dec n 20) as [Hn|Hn].
  - destruct (lobatto_sound n ltac:(lia)) as (xs & ws & -> & -> & L1 & L2 & _).
    split; intros l E; injection E as <-; assumption.
  - do 21 (destruct n as [|n]; [lia|]). split; intros l H; discriminate H.
Qed.

(** The i-th entry of a table, 0 where the source has no branch. *)
Definition entry (t : nat -> option (list R)) (n i : nat) : R :=
  match t n with Some l => nth i l 0 | None => 0 end.

Lemma store_entry t n : (forall l, t n = Some l -> length l = n) ->
  exists a, store t n (zeros n 1) = Some a /\ table a n 1 (fun i _ => entry t n i).
Proof.
  intros L. unfold entry. destruct (t n) as [l|] eqn:E.
  - apply store_table; [exact E|apply L; reflexivity].
  - exists (zeros n 1). unfold store. rewrite E. split; [reflexivity|apply table_zeros].
Qed.

(** * After init *)
Definition grid (n : nat) (f : nat -> R) (r d : nat) : R :=
  match d with O => f (ix n r) | S O => f (iy n r) | _ => f (iz n r) end.

Record filled (p : nat) (e : ref_elem) : Prop := mkFilled {
  F_lob : table (lob_points_1D e) (2 * p + 1) 1 (fun i _ => entry lobatto_nodes (2 * p + 1) i);
  F_dual : table (dual_lob_points_1D e) (2 * p - 1) 1 (fun i _ => entry lobatto_nodes (2 * p - 1) i);
  F_lobw : table (lob_weights_1D e) (2 * p + 1) 1 (fun i _ => entry lobatto_weights (2 * p + 1) i);
  F_leg : table (leg_nodes_1D e) (2 * p) 1 (fun i _ => entry legendre_nodes (2 * p) i);
  F_legw : table (leg_weights_1D e) (2 * p) 1 (fun i _ => entry legendre_weights (2 * p) i);
  F_lobp : table (lobotto_point_positions e) ((2 * p + 1) * (2 * p + 1) * (2 * p + 1)) 3
             (grid (2 * p + 1) (entry lobatto_nodes (2 * p + 1)));
  F_lobpw : table (lobotto_point_weights e) ((2 * p + 1) * (2 * p + 1) * (2 * p + 1)) 1
             (fun r _ => entry lobatto_weights (2 * p + 1) (ix (2 * p + 1) r) *
                         entry lobatto_weights (2 * p + 1) (iy (2 * p + 1) r) *
                         entry lobatto_weights (2 * p + 1) (iz (2 * p + 1) r));
  F_map : table (dof_lobatto_map e) ((p + 1) * (p + 1) * (p + 1)) 1
             (fun r _ => rid (2 * p + 1) (2 * ix (p + 1) r) (2 * iy (p + 1) r) (2 * iz (p + 1) r));
  F_dualmap : table (dual_dof_lobatto_map e) (p * p * p) 1
             (fun r _ => rid (2 * p - 1) (2 * ix p r) (2 * iy p r) (2 * iz p r));
  F_gp : table (gauss_point_positions e) (2 * p * (2 * p) * (2 * p)) 3 (grid (2 * p) (entry legendre_nodes (2 * p)));
  F_gpw : table (gauss_point_weights e) (2 * p * (2 * p) * (2 * p)) 1
             (fun r _ => entry legendre_weights (2 * p) (ix (2 * p) r) * entry legendre_weights (2 * p) (iy (2 * p) r) *
                         entry legendre_weights (2 * p) (iz (2 * p) r));
  F_pos1 : table (dof_positions_1d e) (p + 1) 1 (fun i _ => entry lobatto_nodes (2 * p + 1) (2 * i));
  F_dgpos1 : table (dg_dof_positions_1d e) p 1 (fun i _ => entry lobatto_nodes (2 * p - 1) (2 * i));
  F_pos : table (dof_positions e) ((p + 1) * (p + 1) * (p + 1)) 3
            (grid (p + 1) (fun i => entry lobatto_nodes (2 * p + 1) (2 * i)));
  F_dgpos : table (dg_dof_positions e) (p * p * p) 3 (fun _ _ => 0);
  F_lobb : table (lobotto_point_basis e) ((2 * p + 1) * (2 * p + 1) * (2 * p + 1)) ((p + 1) * (p + 1) * (p + 1))
             (fun q => phi (p + 1) (fun i => entry lobatto_nodes (2 * p + 1) (2 * i))
                (at_row (grid (2 * p + 1) (entry lobatto_nodes (2 * p + 1))) q));
  F_gb : table (gauss_point_basis e) (2 * p * (2 * p) * (2 * p)) ((p + 1) * (p + 1) * (p + 1))
             (fun q => phi (p + 1) (fun i => entry lobatto_nodes (2 * p + 1) (2 * i))
                (at_row (grid (2 * p) (entry legendre_nodes (2 * p))) q));
  F_gdb : table (gauss_point_dg_basis e) (2 * p * (2 * p) * (2 * p)) (p * p * p)
             (fun q => phi p (fun i => entry lobatto_nodes (2 * p - 1) (2 * i))
                (at_row (grid (2 * p) (entry legendre_nodes (2 * p))) q));
  F_lobdb : table (lobotto_point_dg_basis e) ((2 * p + 1) * (2 * p + 1) * (2 * p + 1)) (p * p * p)
             (fun q => phi p (fun i => entry lobatto_nodes (2 * p - 1) (2 * i))
                (at_row (grid (2 * p + 1) (entry lobatto_nodes (2 * p + 1))) q));
  F_lobg : table (lobotto_point_grad_basis e) ((2 * p + 1) * (2 * p + 1) * (2 * p + 1)) ((p + 1) * (p + 1) * (p + 1) * 3)
             (fun q md => dphi (p + 1) (fun i => entry lobatto_nodes (2 * p + 1) (2 * i))
                (at_row (grid (2 * p + 1) (entry lobatto_nodes (2 * p + 1))) q) (md / 3) (md mod 3));
  F_gg : table (gauss_point_grad_basis e) (2 * p * (2 * p) * (2 * p)) ((p + 1) * (p + 1) * (p + 1) * 3)
             (fun q md => dphi (p + 1) (fun i => entry lobatto_nodes (2 * p + 1) (2 * i))
                (at_row (grid (2 * p) (entry legendre_nodes (2 * p))) q) (md / 3) (md mod 3)) }.

Lemma init_filled sch p : (1 <= p)%nat -> (forall l c, In c (sch l) <-> In c l) ->
  exists e, init sch p = Some e /\ filled p e.
Proof.
  intros Hp HS.
  assert (N1 : num_lobatto_1d p = (2 * p + 1)%nat) by (unfold num_lobatto_1d; destruct (Nat.eqb_spec p 0); lia).
  assert (N2 : num_dual_lobatto_1d p = (2 * p - 1)%nat) by (unfold num_dual_lobatto_1d; destruct (Nat.eqb_spec p 0); lia).
  assert (N3 : num_gauss_1d p = (2 * p)%nat) by (unfold num_gauss_1d; destruct (Nat.eqb_spec p 0); lia).
  assert (N4 : num_dofs_1d p = (p + 1)%nat) by (unfold num_dofs_1d; destruct (Nat.eqb_spec p 0); lia).
  assert (N5 : num_dg_dofs_1d p = p) by (unfold num_dg_dofs_1d; destruct (Nat.eqb_spec p 0); lia).
  unfold init. rewrite N1, N2, N3, N4, N5.
  destruct (store_entry lobatto_nodes (2 * p + 1) (proj1 (lobatto_lengths _))) as (lob & -> & Tlob).
  destruct (store_entry lobatto_nodes (2 * p - 1) (proj1 (lobatto_lengths _))) as (dual & -> & Tdual).
  destruct (store_entry lobatto_weights (2 * p + 1) (proj2 (lobatto_lengths _))) as (lobw & -> & Tlobw).
  destruct (store_entry legendre_nodes (2 * p) (proj1 (legendre_lengths _))) as (leg & -> & Tleg).
  destruct (store_entry legendre_weights (2 * p) (proj2 (legendre_lengths _))) as (legw & -> & Tlegw).
  cbn [obind].
  destruct (place_points_table sch (2 * p + 1) lob lobw _ _ HS Tlob Tlobw) as (lobp & lobpw & -> & Tlobp & Tlobpw).
  cbn [obind].
  destruct (number_evens p (mkArr ((p + 1) * (p + 1) * (p + 1)) 1 (fun _ _ => Some 0%nat)) eq_refl eq_refl)
    as (map1 & -> & Tmap1). cbn [obind].
  assert (Hm2 : exists map2,
    (if (p =? 1)%nat then number_points (2 * p - 1) (seq 0 (2 * p - 1)) (mkArr (p * p * p) 1 (fun _ _ => Some 0%nat))
     else if (1 <? p)%nat then number_points (2 * p - 1) (evens (2 * p - 1)) (mkArr (p * p * p) 1 (fun _ _ => Some 0%nat))
     else Some (mkArr (p * p * p) 1 (fun _ _ => Some 0%nat))) = Some map2 /\
    table map2 (p * p * p) 1 (fun r _ => rid (2 * p - 1) (2 * ix p r) (2 * iy p r) (2 * iz p r))).
  { destruct (number_evens (p - 1) (mkArr (p * p * p) 1 (fun _ _ => Some 0%nat))) as (a & E & T).
    { replace (p - 1 + 1)%nat with p by lia. reflexivity. }
    { reflexivity. }
    replace (p - 1 + 1)%nat with p in T by lia. replace (2 * (p - 1) + 1)%nat with (2 * p - 1)%nat in E, T by lia.
    exists a. split; [|exact T].
    destruct (Nat.eqb_spec p 1) as [->|N].
    - exact E.
    - rewrite (proj2 (Nat.ltb_lt 1 p)) by lia. exact E. }
  destruct Hm2 as (map2 & E2 & Tmap2). rewrite E2. clear E2. cbn [obind].
  destruct (place_points_table sch (2 * p) leg legw _ _ HS Tleg Tlegw) as (gp & gpw & -> & Tgp & Tgpw).
  cbn [obind]. rewrite (proj2 (Nat.eqb_neq p 0)) by lia.
  destruct (take_evens_table p lob _ (zeros (p + 1) 1) Tlob eq_refl eq_refl) as (pos1 & -> & Tpos1). cbn [obind].
  assert (Hd : exists dg, take_evens (2 * p - 1) dual (zeros p 1) = Some dg /\
                 table dg p 1 (fun i _ => entry lobatto_nodes (2 * p - 1) (2 * i))).
  { assert (T' : table dual (2 * (p - 1) + 1) 1 (fun i _ => entry lobatto_nodes (2 * p - 1) i))
      by (replace (2 * (p - 1) + 1)%nat with (2 * p - 1)%nat by lia; exact Tdual).
    destruct (take_evens_table (p - 1) dual (entry lobatto_nodes (2 * p - 1)) (zeros p 1) T') as (dg & E & T).
    - cbn [zeros nrow]. lia.
    - reflexivity.
    - exists dg. replace (2 * (p - 1) + 1)%nat with (2 * p - 1)%nat in E by lia.
      replace (p - 1 + 1)%nat with p in T by lia. split; assumption. }
  destruct Hd as (dgpos1 & -> & Tdg). cbn [obind].
  destruct (place_dofs_table sch (p + 1) pos1 _ HS Tpos1) as (pos & -> & Tpos). cbn [obind].
  destruct (tabulate_basis_table _ _ lobp _ _ _ Tlobp (get_basis_table (p + 1) pos1 _ Tpos1)) as (lobb & -> & Tlobb). cbn [obind].
  destruct (tabulate_basis_table _ _ gp _ _ _ Tgp (get_basis_table (p + 1) pos1 _ Tpos1)) as (gb & -> & Tgb). cbn [obind].
  destruct (tabulate_basis_table _ _ gp _ _ _ Tgp (get_basis_table p dgpos1 _ Tdg)) as (gdb & -> & Tgdb). cbn [obind].
  destruct (tabulate_basis_table _ _ lobp _ _ _ Tlobp (get_basis_table p dgpos1 _ Tdg)) as (lobdb & -> & Tlobdb). cbn [obind].
  destruct (tabulate_grad_table _ _ lobp _ _ _ _ _ Tlobp (partial_xi_table (p + 1) pos1 _ Tpos1)
     (partial_eta_table (p + 1) pos1 _ Tpos1) (partial_mu_table (p + 1) pos1 _ Tpos1)) as (lobg & -> & Tlobg). cbn [obind].
  destruct (tabulate_grad_table _ _ gp _ _ _ _ _ Tgp (partial_xi_table (p + 1) pos1 _ Tpos1)
     (partial_eta_table (p + 1) pos1 _ Tpos1) (partial_mu_table (p + 1) pos1 _ Tpos1)) as (gg & -> & Tgg). cbn [obind].
  eexists. split; [reflexivity|]. constructor; try assumption. apply table_zeros.
Qed.
