(* Property C131: arrays spread over the ranks of the spectral solver, in one file. *)
From Coq Require Import Reals List Arith Lia Bool ZArith String Permutation.
From Verif Require Import BaseReal EvpModel EvpOutModel EvpOutSpec EvpOutProofs.
Import ListNotations.
Local Open Scope nat_scope.

(* ---------- places ---------- *)

Lemma place_ext : forall n c c', c 1 = c' 1 -> c 2 = c' 2 -> c 3 = c' 3 -> place n c = place n c'.
Proof. intros n c c' E1 E2 E3. unfold place. now rewrite E1, E2, E3. Qed.
Lemma place_inj : forall n c c', in_full n c -> in_full n c' -> place n c = place n c' -> forall d, 1 <= d <= 3 -> c d = c' d.
Proof.
  intros n c c' H H' E d Hd. unfold place in E.
  pose proof (H 1 ltac:(lia)). pose proof (H 2 ltac:(lia)). pose proof (H' 1 ltac:(lia)). pose proof (H' 2 ltac:(lia)).
  assert (E1 : c 1 = c' 1).
  { apply (f_equal (fun x => x mod n 1)) in E. rewrite !(Nat.mul_comm (n 1)) in E. rewrite !Nat.mod_add in E by lia. rewrite !Nat.mod_small in E by lia. exact E. }
  rewrite E1 in E. assert (E' : c 2 + n 2 * c 3 = c' 2 + n 2 * c' 3) by nia.
  assert (E2 : c 2 = c' 2).
  { apply (f_equal (fun x => x mod n 2)) in E'. rewrite !(Nat.mul_comm (n 2)) in E'. rewrite !Nat.mod_add in E' by lia. rewrite !Nat.mod_small in E' by lia. exact E'. }
  rewrite E2 in E'. assert (E3 : c 3 = c' 3) by nia.
  destruct d as [|[|[|[|]]]]; try lia; assumption.
Qed.

(* The points of a box from its own corner. *)
Definition inner (n : nat -> nat) : list (nat -> nat) := box_cells {| b_low := fun _ => 0; b_size := n |}.
Lemma flat_map_ext' : forall {A B} (f g : A -> list B) l, (forall x, In x l -> f x = g x) -> flat_map f l = flat_map g l.
Proof. intros A B f g l H. induction l; [reflexivity |]. cbn [flat_map]. rewrite (H a) by now left. f_equal. apply IHl. intros. apply H. now right. Qed.
Lemma map_flat_map : forall {A B C} (g : B -> C) (f : A -> list B) l, map g (flat_map f l) = flat_map (fun x => map g (f x)) l.
Proof. intros. induction l; [reflexivity |]. cbn [flat_map]. rewrite map_app. now f_equal. Qed.
Lemma box_cells_shift : forall b, box_cells b = map (fun t => cell3 (b_low b 1 + t 1) (b_low b 2 + t 2) (b_low b 3 + t 3)) (inner (b_size b)).
Proof.
  intros b. unfold inner, box_cells. cbn [b_low b_size].
  rewrite map_flat_map. apply flat_map_ext'. intros k _. rewrite map_flat_map. apply flat_map_ext'. intros j _. rewrite map_map. reflexivity.
Qed.
Lemma in_inner : forall n t, In t (inner n) -> forall d, 1 <= d <= 3 -> t d < n d.
Proof.
  intros n t H d Hd. unfold inner, box_cells in H. cbn [b_low b_size] in H.
  apply in_flat_map in H. destruct H as (k & Hk & H). apply in_flat_map in H. destruct H as (j & Hj & H). apply in_map_iff in H. destruct H as (i & <- & Hi).
  apply in_seq in Hi, Hj, Hk. destruct d as [|[|[|[|]]]]; try lia; cbn [cell3]; lia.
Qed.
Lemma inner_has : forall n c, (forall d, 1 <= d <= 3 -> c d < n d) -> exists t, In t (inner n) /\ t 1 = c 1 /\ t 2 = c 2 /\ t 3 = c 3.
Proof.
  intros n c H. exists (cell3 (c 1) (c 2) (c 3)). split; [| auto]. unfold inner, box_cells. cbn [b_low b_size].
  pose proof (H 1 ltac:(lia)). pose proof (H 2 ltac:(lia)). pose proof (H 3 ltac:(lia)).
  apply in_flat_map. exists (c 3). split; [apply in_seq; lia |]. apply in_flat_map. exists (c 2). split; [apply in_seq; lia |].
  apply in_map_iff. exists (c 1). split; [reflexivity | apply in_seq; lia].
Qed.
Lemma combine_map2 : forall {A B C} (f : A -> B) (g : A -> C) l, combine (map f l) (map g l) = map (fun x => (f x, g x)) l.
Proof. intros. induction l; [reflexivity |]. cbn [map combine]. now f_equal. Qed.

(* Place in the file and in the memory of point t of the box. *)
Definition file_place (full : nat -> nat) (b : box) (t : nat -> nat) : nat := place full (cell3 (b_low b 1 + t 1) (b_low b 2 + t 2) (b_low b 3 + t 3)).
Definition memory_place (ghost : nat) (n t : nat -> nat) : nat := place (local_dimensions ghost n) (cell3 (ghost + t 1) (ghost + t 2) (ghost + t 3)).
Lemma rank_writes_eq : forall {A} off full ghost b (data : nat -> A),
  rank_writes off full ghost b data = map (fun t => (off + file_place full b t, data (memory_place ghost (b_size b) t))) (inner (b_size b)).
Proof.
  intros. unfold rank_writes, file_space_type, memory_space_type, subarray.
  rewrite (box_cells_shift {| b_low := b_low b; b_size := b_size b |}), (box_cells_shift {| b_low := fun _ => ghost; b_size := b_size b |}).
  cbn [b_low b_size]. rewrite !map_map, combine_map2. reflexivity.
Qed.

(* ---------- writing ---------- *)

Lemma put_all_other : forall {A} (l : list (nat * A)) f p, (forall v, ~ In (p, v) l) -> put_all f l p = f p.
Proof.
  intros A l. induction l as [|[q v] l IH]; intros f p H; [reflexivity |].
  change (put_all f ((q, v) :: l)) with (put_all (put f q v) l). rewrite IH by (intros w Hw; apply (H w); now right).
  unfold put. destruct (Nat.eqb_spec p q) as [->|]; [destruct (H v); now left | reflexivity].
Qed.
Lemma put_all_value : forall {A} (l : list (nat * A)) f p V, (exists v, In (p, v) l) -> (forall v, In (p, v) l -> v = V) -> put_all f l p = Some V.
Proof.
  intros A l. induction l as [|[q v] l IH]; intros f p V (w & Hw) H; [destruct Hw |].
  change (put_all f ((q, v) :: l)) with (put_all (put f q v) l).
  assert (D : (exists u, In (p, u) l) \/ (forall u, ~ In (p, u) l)).
  { clear. induction l as [|[q v] l IH]; [right; intros u [] |]. destruct (Nat.eq_dec p q) as [->|N]; [left; exists v; now left |].
    destruct IH as [(u & Hu)|H]; [left; exists u; now right |]. right. intros u [E|Hu]; [injection E as -> _; auto | exact (H u Hu)]. }
  destruct D as [D|D].
  - apply IH; [exact D |]. intros u Hu. apply H. now right.
  - rewrite put_all_other by exact D. destruct Hw as [E|Hw]; [injection E as -> ->; unfold put; rewrite Nat.eqb_refl; f_equal; apply H; now left | destruct (D w Hw)].
Qed.
Lemma put_all_app : forall {A} (l l' : list (nat * A)) f, put_all f (l ++ l') = put_all (put_all f l) l'.
Proof. intros. unfold put_all. apply fold_left_app. Qed.
Lemma write_binary_eq : forall {A} off full ghost ranks (f : file A),
  write_binary off full ghost ranks f = put_all f (flat_map (fun r => rank_writes off full ghost (fst r) (snd r)) ranks).
Proof.
  intros A off full ghost ranks. induction ranks as [|r ranks IH]; intros f; [reflexivity |].
  cbn [flat_map]. rewrite put_all_app, <- IH. reflexivity.
Qed.
Lemma written : forall {A} off full ghost b (data : nat -> A) G, field_ok G -> holds ghost b data G ->
  forall p v, In (p, v) (rank_writes off full ghost b data) <-> exists c, in_box b c /\ p = off + place full c /\ v = G c.
Proof.
  intros A off full ghost b data G HG HD p v. rewrite rank_writes_eq, in_map_iff.
  assert (S : forall t, In t (inner (b_size b)) -> in_box b (cell3 (b_low b 1 + t 1) (b_low b 2 + t 2) (b_low b 3 + t 3))
    /\ data (memory_place ghost (b_size b) t) = G (cell3 (b_low b 1 + t 1) (b_low b 2 + t 2) (b_low b 3 + t 3))).
  { intros t Ht. assert (B : in_box b (cell3 (b_low b 1 + t 1) (b_low b 2 + t 2) (b_low b 3 + t 3))).
    { intros d Hd. pose proof (in_inner _ _ Ht d Hd). destruct d as [|[|[|[|]]]]; try lia; cbn [cell3]; lia. }
    split; [exact B |]. rewrite <- (HD _ B). f_equal. unfold memory_place. apply place_ext; cbn [cell3]; lia. }
  split.
  - intros (t & E & Ht). injection E as <- <-. destruct (S t Ht) as [B E]. eexists. split; [exact B |]. split; [reflexivity | exact E].
  - intros (c & Hc & -> & ->).
    destruct (inner_has (b_size b) (fun d => c d - b_low b d)) as (t & Ht & E1 & E2 & E3); [intros d Hd; pose proof (Hc d Hd); lia |].
    pose proof (Hc 1 ltac:(lia)). pose proof (Hc 2 ltac:(lia)). pose proof (Hc 3 ltac:(lia)).
    exists t. split; [| exact Ht]. destruct (S t Ht) as [_ E]. rewrite E. f_equal.
    + f_equal. unfold file_place. apply place_ext; cbn [cell3]; lia.
    + apply HG. intros d Hd. destruct d as [|[|[|[|]]]]; try lia; cbn [cell3]; lia.
Qed.

(* ---------- C131 ---------- *)

(* The ranks hold a field on boxes that cover the grid: the file then has every value of
   the field at the place of its point in the whole array, and keeps what it had
   elsewhere; the layers around the boxes are not written. *)
Theorem C131_write : forall {A} off full ghost (ranks : list (box * (nat -> A))) G f, field_ok G ->
  (forall b data, In (b, data) ranks -> box_inside full b /\ holds ghost b data G) ->
  (forall c, in_full full c -> exists b data, In (b, data) ranks /\ in_box b c) ->
  (forall c, in_full full c -> write_binary off full ghost ranks f (off + place full c) = Some (G c))
  /\ (forall p, (forall c, in_full full c -> p <> off + place full c) -> write_binary off full ghost ranks f p = f p).
Proof.
  intros A off full ghost ranks G f HG HR HC.
  assert (W : forall p v, In (p, v) (flat_map (fun r => rank_writes off full ghost (fst r) (snd r)) ranks) -> exists c, in_full full c /\ p = off + place full c /\ v = G c).
  { intros p v H. apply in_flat_map in H. destruct H as ([b data] & Hr & H). cbn [fst snd] in H. destruct (HR _ _ Hr) as [HI HD].
    apply (written off full ghost b data G HG HD) in H. destruct H as (c & Hc & -> & ->). exists c. split; [| auto].
    intros d Hd. pose proof (Hc d Hd). pose proof (HI d Hd). lia. }
  rewrite write_binary_eq. split.
  - intros c Hc. apply put_all_value.
    + destruct (HC c Hc) as (b & data & Hr & Hb). exists (G c). apply in_flat_map. exists (b, data). split; [exact Hr |].
      cbn [fst snd]. destruct (HR _ _ Hr) as [_ HD]. apply (written off full ghost b data G HG HD). eauto.
    + intros v Hv. apply W in Hv. destruct Hv as (c' & Hc' & E & ->). apply HG. intros d Hd. symmetry. apply (place_inj full c c' Hc Hc'); [lia | exact Hd].
  - intros p H. apply put_all_other. intros v Hv. apply W in Hv. destruct Hv as (c & Hc & E & _). exact (H c Hc E).
Qed.

(* How the grid is split, how wide the layers are and in which order the ranks come to
   write does not show in the file. *)
Theorem C131_decomposition : forall {A} off full g g' (ranks ranks' : list (box * (nat -> A))) G f, field_ok G ->
  (forall b data, In (b, data) ranks -> box_inside full b /\ holds g b data G) ->
  (forall b data, In (b, data) ranks' -> box_inside full b /\ holds g' b data G) ->
  (forall c, in_full full c -> exists b data, In (b, data) ranks /\ in_box b c) ->
  (forall c, in_full full c -> exists b data, In (b, data) ranks' /\ in_box b c) ->
  forall p, write_binary off full g ranks f p = write_binary off full g' ranks' f p.
Proof.
  intros A off full g g' ranks ranks' G f HG HR HR' HC HC' p.
  destruct (C131_write off full g ranks G f HG HR HC) as [W1 W2]. destruct (C131_write off full g' ranks' G f HG HR' HC') as [W1' W2'].
  destruct (le_lt_dec off p) as [L|L].
  - set (q := p - off). destruct (lt_dec q (full 1 * full 2 * full 3)) as [Q|Q].
    + destruct (number_onto _ _ _ _ Q) as ([[x y] z] & Hk & E). unfold in_grid in Hk. unfold number in E.
      assert (F : in_full full (cell3 (x - 1) (y - 1) (z - 1))) by (intros d Hd; destruct d as [|[|[|[|]]]]; try lia; cbn [cell3]; lia).
      replace p with (off + place full (cell3 (x - 1) (y - 1) (z - 1))) by (unfold place; cbn [cell3]; rewrite E; unfold q; lia).
      now rewrite W1, W1'.
    + assert (N : forall c, in_full full c -> p <> off + place full c).
      { intros c Hc E. pose proof (Hc 1 ltac:(lia)). pose proof (Hc 2 ltac:(lia)). pose proof (Hc 3 ltac:(lia)). apply Q.
        unfold q. rewrite E. replace (off + place full c - off) with (place full c) by lia.
        assert (G1 : in_grid (full 1) (full 2) (full 3) (S (c 1), S (c 2), S (c 3))) by (unfold in_grid; lia).
        apply number_lt in G1. unfold number in G1. replace (S (c 1) - 1) with (c 1) in G1 by lia. replace (S (c 2) - 1) with (c 2) in G1 by lia.
        replace (S (c 3) - 1) with (c 3) in G1 by lia. exact G1. }
      now rewrite W2, W2'.
  - assert (N : forall c, in_full full c -> p <> off + place full c) by (intros; lia). now rewrite W2, W2'.
Qed.

(* Reading gives a rank the values of the file on its box and leaves its layers alone. *)
Theorem C131_read : forall {A} off full ghost b (f : file A) data G, field_ok G -> box_inside full b ->
  (forall c, in_box b c -> f (off + place full c) = Some (G c)) ->
  let at_ c := place (fun d => b_size b d + 2 * ghost) (fun d => c d - b_low b d + ghost) in
  (forall c, in_box b c -> read_binary off full ghost b f data (at_ c) = Some (G c))
  /\ (forall p, (forall c, in_box b c -> p <> at_ c) -> read_binary off full ghost b f data p = data p).
Proof.
  intros A off full ghost b f data G HG HI HF at_. unfold read_binary.
  set (L := flat_map _ _).
  assert (E : forall p v, In (p, v) L <-> exists c, in_box b c /\ p = at_ c /\ v = G c).
  { intros p v. unfold L, file_space_type, memory_space_type, subarray.
    rewrite (box_cells_shift {| b_low := b_low b; b_size := b_size b |}), (box_cells_shift {| b_low := fun _ => ghost; b_size := b_size b |}).
    cbn [b_low b_size]. rewrite !map_map, combine_map2. rewrite in_flat_map.
    assert (S : forall t, In t (inner (b_size b)) -> in_box b (cell3 (b_low b 1 + t 1) (b_low b 2 + t 2) (b_low b 3 + t 3))).
    { intros t Ht d Hd. pose proof (in_inner _ _ Ht d Hd). destruct d as [|[|[|[|]]]]; try lia; cbn [cell3]; lia. }
    split.
    - intros ([x y] & Hx & H). apply in_map_iff in Hx. destruct Hx as (t & Ex & Ht). injection Ex as <- <-. cbn [fst snd] in H.
      rewrite (HF _ (S t Ht)) in H. destruct H as [H|[]]. injection H as <- <-. eexists. split; [exact (S t Ht) |]. split; [| reflexivity].
      unfold at_. apply place_ext; cbn [cell3]; lia.
    - intros (c & Hc & -> & ->).
      destruct (inner_has (b_size b) (fun d => c d - b_low b d)) as (t & Ht & E1 & E2 & E3); [intros d Hd; pose proof (Hc d Hd); lia |].
      pose proof (Hc 1 ltac:(lia)). pose proof (Hc 2 ltac:(lia)). pose proof (Hc 3 ltac:(lia)).
      exists (off + file_place full b t, memory_place ghost (b_size b) t). split; [apply in_map_iff; exists t; split; [reflexivity | exact Ht] |]. cbn [fst snd].
      unfold file_place. rewrite (HF _ (S t Ht)). left. f_equal.
      + unfold memory_place, at_. apply place_ext; cbn [cell3]; lia.
      + apply HG. intros d Hd. destruct d as [|[|[|[|]]]]; try lia; cbn [cell3]; lia. }
  split.
  - intros c Hc. apply put_all_value.
    + exists (G c). apply E. eauto.
    + intros v Hv. apply E in Hv. destruct Hv as (c' & Hc' & Ep & ->). apply HG. intros d Hd.
      assert (M : forall c, in_box b c -> in_full (fun d => b_size b d + 2 * ghost) (fun d => c d - b_low b d + ghost)) by (intros x Hx e He; pose proof (Hx e He); lia).
      pose proof (place_inj _ _ _ (M _ Hc') (M _ Hc) (eq_sym Ep) d Hd) as Q. cbn beta in Q. pose proof (Hc d Hd). pose proof (Hc' d Hd). lia.
  - intros p H. apply put_all_other. intros v Hv. apply E in Hv. destruct Hv as (c & Hc & Ep & _). exact (H c Hc Ep).
Qed.

(* So a field written by any number of ranks and read by others comes back. *)
Theorem C131_round_trip : forall {A} off full g g' (ranks : list (box * (nat -> A))) G f b data, field_ok G ->
  (forall b data, In (b, data) ranks -> box_inside full b /\ holds g b data G) ->
  (forall c, in_full full c -> exists b data, In (b, data) ranks /\ in_box b c) ->
  box_inside full b ->
  holds g' b (read_binary off full g' b (write_binary off full g ranks f) data) (fun c => Some (G c)).
Proof.
  intros A off full g g' ranks G f b data HG HR HC HI c Hc. destruct (C131_write off full g ranks G f HG HR HC) as [W _].
  apply (C131_read off full g' b _ data G HG HI); [| exact Hc]. intros c' Hc'. apply W. intros d Hd. pose proof (Hc' d Hd). pose proof (HI d Hd). lia.
Qed.

(* The HDF5 output puts a box at the same places of the dataset, and takes the buffer of
   the rank whole and in order. *)
Lemma seq_blocks : forall L n s, flat_map (fun k => map (fun x => x + L * k) (seq 0 L)) (seq s n) = seq (L * s) (L * n).
Proof.
  intros L n. induction n; intros s; cbn [seq flat_map]; [rewrite Nat.mul_0_r; reflexivity |].
  rewrite IHn. replace (L * S n) with (L + L * n) by lia. rewrite seq_app. f_equal; [| f_equal; lia].
  assert (M : forall n z a, map (fun x => x + a) (seq z n) = seq (z + a) n) by (induction n0; intros z a; cbn [seq map]; [reflexivity | f_equal; apply (IHn0 (S z))]).
  exact (M L 0 (L * s)).
Qed.
Lemma seq_blocks0 : forall L n, flat_map (fun k => map (fun x => x + L * k) (seq 0 L)) (seq 0 n) = seq 0 (L * n).
Proof. intros. rewrite seq_blocks. f_equal. lia. Qed.
Theorem C131_h5 : forall full b, h5_filespace full b = file_space_type full b /\ h5_memspace b = seq 0 (volume b).
Proof.
  intros full b. split.
  - unfold h5_filespace, hyperslab, file_space_type, subarray, box_cells, reverse_array. cbn [cell3 b_low b_size].
    rewrite map_flat_map. apply flat_map_ext'. intros k _. rewrite map_flat_map. apply flat_map_ext'. intros j _. rewrite map_map.
    apply map_ext. intros i. unfold place. cbn [cell3]. ring.
  - unfold h5_memspace, hyperslab, reverse_array, volume. cbn [cell3]. rewrite <- (seq_blocks0 (b_size b 1 * b_size b 2) (b_size b 3)).
    apply flat_map_ext'. intros k _. rewrite <- (seq_blocks0 (b_size b 1) (b_size b 2)).
    rewrite map_flat_map. apply flat_map_ext'. intros j _. rewrite map_map. apply map_ext. intros i. ring.
Qed.

(* The text output writes a closing zero after its buffer: it is undefined for every
   array that is not empty, as no number is shorter than zero in this format. *)
Lemma print_all_last : forall {A} (fmt : A -> list nat) n data i buf, (forall v, In v data -> n <= length (fmt v)) -> data <> [] -> length buf = (i + length data) * n ->
  print_all fmt n i data buf = None.
Proof.
  intros A fmt n data. induction data as [|v data IH]; intros i buf Hf Hd Hl; [congruence |]. cbn [print_all].
  destruct data as [|w data].
  - unfold sprintf_at. pose proof (Hf v (or_introl eq_refl)).
    replace (i * n + (length (fmt v) + 1) <=? length buf) with false; [reflexivity |]. symmetry. apply Nat.leb_gt. rewrite Hl. cbn [length]. lia.
  - unfold sprintf_at. destruct (Nat.leb_spec (i * n + (length (fmt v) + 1)) (length buf)); [| reflexivity].
    apply IH; [intros u Hu; apply Hf; now right | discriminate |].
    rewrite !app_length, map_length, app_length, firstn_length, skipn_length. cbn [length] in *. lia.
Qed.
Theorem C131_text_refuted : forall {A} (fmt : A -> list nat) zero data, (forall v, length (fmt zero) <= length (fmt v)) ->
  data <> [] -> data_as_chars fmt zero data = None.
Proof.
  intros A fmt zero data H Hd. unfold data_as_chars. apply print_all_last; [intros; apply H | exact Hd |]. rewrite repeat_length. lia.
Qed.
(* With one byte more it would print the numbers one after the other, if all have the
   same length. *)
Theorem C131_text_repaired : forall {A} (fmt : A -> list nat) n data, (forall v, In v data -> length (fmt v) = n) ->
  data <> [] -> print_all fmt n 0 data (repeat None (length data * n + 1)) = Some (map Some (flat_map fmt data ++ [0])).
Proof.
  intros A fmt n data Hf Hd.
  assert (G : forall data i pre buf, (forall v, In v data -> length (fmt v) = n) -> data <> [] -> length pre = i * n -> length buf = length data * n + 1 ->
    print_all fmt n i data (pre ++ buf) = Some (pre ++ map Some (flat_map fmt data ++ [0]))).
  { clear. induction data as [|v data IH]; intros i pre buf Hf Hd Hp Hb; [congruence |].
    cbn [print_all]. unfold sprintf_at. pose proof (Hf v (or_introl eq_refl)) as Hv. rewrite Hv.
    replace (i * n + (n + 1) <=? length (pre ++ buf)) with true by (symmetry; apply Nat.leb_le; rewrite app_length, Hp, Hb; cbn [length]; lia).
    cbn [length] in Hb. rewrite <- Hp.
    rewrite firstn_app, firstn_all. replace (length pre - length pre) with 0 by lia. cbn [firstn]. rewrite app_nil_r.
    rewrite skipn_app, skipn_all2 by lia. cbn [app]. replace (length pre + (n + 1) - length pre) with (n + 1) by lia.
    destruct data as [|w data].
    - cbn [print_all flat_map]. rewrite (skipn_all2 (n := n + 1)) by (cbn [length] in Hb; lia). rewrite !app_nil_r. reflexivity.
    - rewrite map_app. cbn [map]. rewrite <- app_assoc. cbn [app]. rewrite app_assoc.
      rewrite (IH (S i)); [| intros u Hu; apply Hf; now right | discriminate | rewrite app_length, map_length, Hp, Hv; lia
        | cbn [length]; rewrite skipn_length, Hb; cbn [length]; lia].
      f_equal. cbn [flat_map]. rewrite !map_app, <- !app_assoc. reflexivity. }
  apply (G data 0 [] _ Hf Hd); [reflexivity | now rewrite repeat_length].
Qed.

(* The texture file is written by the first rank alone: if another rank has points, it
   announces and lists fewer points than the grid has. *)
Theorem C131_texture_single : forall {A} (line : nat -> (nat -> nat) -> A) b,
  write_texture line [b] = Some (volume b, map (line 0) (box_cells {| b_low := fun _ => 1; b_size := b_size b |}))
  /\ (forall c, (forall d, 1 <= d <= 3 -> 1 <= c d <= b_size b d) -> exists c', In c' (box_cells {| b_low := fun _ => 1; b_size := b_size b |}) /\ c' 1 = c 1 /\ c' 2 = c 2 /\ c' 3 = c 3).
Proof.
  intros A line b. split; [reflexivity |]. intros c Hc.
  destruct (inner_has (b_size b) (fun d => c d - 1)) as (t & Ht & E1 & E2 & E3); [intros d Hd; pose proof (Hc d Hd); lia |].
  pose proof (Hc 1 ltac:(lia)). pose proof (Hc 2 ltac:(lia)). pose proof (Hc 3 ltac:(lia)).
  exists (cell3 (1 + t 1) (1 + t 2) (1 + t 3)). split; [| cbn [cell3]; lia].
  rewrite box_cells_shift. cbn [b_low b_size]. apply in_map_iff. exists t. auto.
Qed.
Theorem C131_texture_refuted : forall {A} (line : nat -> (nat -> nat) -> A) b ranks total n lines,
  list_sum (map volume (b :: ranks)) = total -> (exists b', In b' ranks /\ 0 < volume b') ->
  write_texture line (b :: ranks) = Some (n, lines) -> n < total /\ length lines < total.
Proof.
  intros A line b ranks total n lines Ht (b' & Hb & Hv) E. unfold write_texture in E. injection E as <- <-.
  assert (L : length (map (line 0) (box_cells {| b_low := fun _ => 1; b_size := b_size b |})) = volume b).
  { rewrite map_length. rewrite box_cells_shift, map_length. unfold inner, box_cells. cbn [b_size b_low].
    rewrite (flat_map_length_const _ (b_size b 1 * b_size b 2)), seq_length; [reflexivity |].
    intros k. rewrite (flat_map_length_const _ (b_size b 1)), seq_length; [reflexivity |]. intros j. now rewrite map_length, seq_length. }
  rewrite L. change (list_sum (map volume (b :: ranks))) with (volume b + list_sum (map volume ranks)) in Ht.
  assert (P : 0 < list_sum (map volume ranks)).
  { clear - Hb Hv. induction ranks as [|r ranks IH]; [destruct Hb |].
    change (list_sum (map volume (r :: ranks))) with (volume r + list_sum (map volume ranks)).
    destruct Hb as [->|Hb]; [lia |]. specialize (IH Hb). lia. }
  unfold volume in *. lia.
Qed.

(* A grid of 2 x 1 x 2 split between two ranks, with one layer around each box. *)
Definition case_full : nat -> nat := cell3 2 1 2.
Definition case_box (k : nat) : box := {| b_low := cell3 0 0 k; b_size := cell3 2 1 1 |}.
Definition case_field (c : nat -> nat) : nat := 100 + 10 * c 1 + c 3.
(* 4 x 3 x 3 numbers of memory, the box in the middle *)
Definition case_data (k : nat) : nat -> nat := fun p => if Nat.eqb p 17 then 100 + k else if Nat.eqb p 18 then 110 + k else 7.
Example C131_met : field_ok case_field
  /\ (forall b data, In (b, data) [(case_box 1, case_data 1); (case_box 0, case_data 0)] -> box_inside case_full b /\ holds 1 b data case_field)
  /\ (forall c, in_full case_full c -> exists b data, In (b, data) [(case_box 1, case_data 1); (case_box 0, case_data 0)] /\ in_box b c)
  /\ map (write_binary 5 case_full 1 [(case_box 1, case_data 1); (case_box 0, case_data 0)] (fun _ => None)) (seq 4 6) = [None; Some 100; Some 110; Some 101; Some 111; None]
  /\ 0 < volume (case_box 1).
Proof.
  split; [intros c c' H; unfold case_field; rewrite (H 1), (H 3) by lia; reflexivity |].
  split; [| split; [| split; [reflexivity | cbn; lia]]].
  - assert (G : forall k, k < 2 -> box_inside case_full (case_box k) /\ holds 1 (case_box k) (case_data k) case_field).
    { intros k Hk. split; [intros d Hd; destruct d as [|[|[|[|]]]]; try lia; cbn; lia |].
      intros c Hc. pose proof (Hc 1 ltac:(lia)) as H1. pose proof (Hc 2 ltac:(lia)) as H2. pose proof (Hc 3 ltac:(lia)) as H3.
      cbn [case_box b_low b_size cell3] in *. unfold place, case_field. cbn [case_box b_low b_size cell3].
      assert (C2 : c 2 = 0) by lia. assert (C3 : c 3 = k) by lia. rewrite C2, C3.
      assert (C1 : c 1 = 0 \/ c 1 = 1) by lia. destruct C1 as [-> | ->]; replace (k - k + 1) with 1 by lia; unfold case_data; cbn [Nat.mul Nat.add Nat.sub Nat.eqb]; lia. }
    intros b data [E|[E|[]]]; injection E as <- <-; apply G; lia.
  - intros c Hc. pose proof (Hc 1 ltac:(lia)) as H1. pose proof (Hc 2 ltac:(lia)) as H2. pose proof (Hc 3 ltac:(lia)) as H3. cbn [case_full cell3] in *.
    destruct (Nat.eq_dec (c 3) 1) as [E|E].
    + exists (case_box 1), (case_data 1). split; [now left |]. intros d Hd. destruct d as [|[|[|[|]]]]; try lia; cbn; lia.
    + exists (case_box 0), (case_data 0). split; [right; now left |]. intros d Hd. destruct d as [|[|[|[|]]]]; try lia; cbn; lia.
Qed.

Print Assumptions C131_write.
Print Assumptions C131_decomposition.
Print Assumptions C131_read.
Print Assumptions C131_round_trip.
Print Assumptions C131_h5.
Print Assumptions C131_text_refuted.
Print Assumptions C131_text_repaired.
Print Assumptions C131_texture_single.
Print Assumptions C131_texture_refuted.
