(* Property C130: the files with the state of every point of the spectral solver. *)
From Coq Require Import Reals List Arith Lia Bool ZArith String Lra.
From Verif Require Import BaseReal EvpModel VtkModel VtkProofs EvpOutModel EvpOutSpec EvpOutProofs.
Import ListNotations.
Local Open Scope nat_scope.

(* How many tuples the array of a name has. *)
Definition count_of (v : vtu) (name : string) : nat :=
  if String.eqb name "TimeValue" then 1 else if String.eqb name "Points" then v_points v
  else if String.eqb name "connectivity" then 8 * v_cells v else v_cells v.

Definition row_fits (v : vtu) (h : array * nat) (b : nat * list item) : Prop :=
  let '((name, t, c), _) := h in Forall (has_type t) (snd b) /\ length (snd b) = c * count_of v name.
Lemma forall_flat_map : forall {A B} (P : B -> Prop) (f : A -> list B) l, (forall x, Forall P (f x)) -> Forall P (flat_map f l).
Proof. intros A B P f l Hf. induction l; cbn [flat_map]; [constructor | apply Forall_app; split; [apply Hf | assumption]]. Qed.
Lemma forall_map : forall {A B} (P : B -> Prop) (f : A -> B) l, (forall x, P (f x)) -> Forall P (map f l).
Proof. intros A B P f l Hf. induction l; cbn [map]; constructor; auto. Qed.
Lemma Forall2_nth : forall {A B} (P : A -> B -> Prop) l l' i a b, Forall2 P l l' -> nth_error l i = Some a -> nth_error l' i = Some b -> P a b.
Proof.
  intros A B P l l' i a b H. revert i. induction H; intros [|i] E E'; cbn [nth_error] in *; try discriminate; [congruence | eauto].
Qed.
Lemma rows_fit : forall n1 n2 n3 m, Forall2 (row_fits (write_vtu n1 n2 n3 m)) (header n1 n2 n3) (blocks n1 n2 n3 m).
Proof.
  intros. unfold header, blocks. cbn zeta.
  assert (Lp : length (points n1 n2 n3) = (n1 + 1) * (n2 + 1) * (n3 + 1)) by apply voxels_length.
  pose proof (voxels_length n1 n2 n3) as Lc.
  repeat (apply Forall2_cons; [unfold row_fits, count_of; cbn [snd String.eqb Ascii.eqb Bool.eqb v_cells v_points write_vtu]; split |]); [.. | apply Forall2_nil].
  all: try (rewrite map_length, ?seq_length, ?Lc; lia).
  all: try (apply forall_map; intros; exact I).
  all: try (apply forall_flat_map; intros; unfold six; cbn [map seq]; repeat constructor).
  all: try (rewrite (flat_map_length_const _ 6) by reflexivity; lia).
  all: try (rewrite (flat_map_length_const _ 3) by reflexivity; lia).
  - repeat constructor.
  - reflexivity.
  - destruct x as [[x y] z]. unfold connect. cbn [map]. repeat constructor.
  - rewrite (flat_map_length_const _ 8) by (intros [[x y] z]; reflexivity). lia.
Qed.

(* ---------- C130 ---------- *)

(* Every array of the file can be read at its offset: it has the announced type and as
   many numbers as its components and the announced points or cells need. *)
Theorem C130_arrays : forall n1 n2 n3 m name t c o, In ((name, t, c), o) (v_arrays (write_vtu n1 n2 n3 m)) ->
  exists l, read_block (v_data (write_vtu n1 n2 n3 m)) o = Some l /\ Forall (has_type t) l
    /\ length l = c * count_of (write_vtu n1 n2 n3 m) name.
Proof.
  intros n1 n2 n3 m name t c o H. apply In_nth_error in H. destruct H as (i & Hi).
  destruct (offsets_nth _ _ _ _ _ Hi) as (n & Hh).
  assert (Hb : exists b, nth_error (blocks n1 n2 n3 m) i = Some b).
  { destruct (nth_error (blocks n1 n2 n3 m) i) eqn:E; [eauto |]. apply nth_error_None in E.
    assert (L : length (header n1 n2 n3) = length (blocks n1 n2 n3 m)) by reflexivity.
    assert (i < length (header n1 n2 n3)) by (apply nth_error_Some; congruence). lia. }
  destruct Hb as (b & Hb). destruct (read_named _ _ _ m _ _ _ _ _ _ Hh Hb) as (o' & _ & Ho' & R).
  pose proof (eq_trans (eq_sym Hi) Ho') as E. injection E as <-.
  exists (snd b). split; [exact R |]. exact (Forall2_nth _ _ _ _ _ _ (rows_fit n1 n2 n3 m) Hh Hb).
Qed.

(* The number of points and cells, the names, and that the data end with the last array. *)
Theorem C130_counts : forall n1 n2 n3 m, let v := write_vtu n1 n2 n3 m in
  v_points v = (n1 + 1) * (n2 + 1) * (n3 + 1) /\ v_cells v = n1 * n2 * n3
  /\ map (fun e => fst (fst (fst e))) (v_arrays v)
     = ["TimeValue"; "Points"; "connectivity"; "offsets"; "types"; "rank"; "phase_id"; "grain_id"; "vm-strain"; "vm-stress"; "vm-pl-strain-rate";
        "vm-el-strain"; "strain"; "stress"; "pl-strain-rate"; "el-strain"; "IPFColor"]%string
  /\ (exists o l, named v "IPFColor" = Some (("IPFColor"%string, UInt8, 3), o) /\ read_block (v_data v) o = Some l /\ o + 8 + bytes l = bytes (v_data v)).
Proof.
  intros n1 n2 n3 m v. subst v. split; [reflexivity |]. split; [reflexivity |]. split; [reflexivity |].
  destruct (read_named n1 n2 n3 m 16 "IPFColor" UInt8 3 _ _ eq_refl eq_refl) as (o & _ & Ho & R).
  exists o. eexists. split; [| split; [exact R |]].
  - exact Ho.
  - cbn [snd]. cbn [v_arrays write_vtu offsets header nth_error] in Ho. injection Ho as <-.
    assert (B : forall l, Forall (fun b => fst b = bytes (snd b)) l -> bytes (stream l) = list_sum (map (fun b => 8 + fst b) l)).
    { induction l as [|b l IH]; intros Hl; [reflexivity |]. inversion Hl as [|? ? Hb Hl']; subst.
      change (stream (b :: l)) with (U64 (fst b) :: (snd b ++ stream l))%list. change (bytes (U64 (fst b) :: (snd b ++ stream l))%list) with (8 + bytes (snd b ++ stream l)).
      rewrite bytes_app, (IH Hl'). cbn [map list_sum fold_right]. rewrite <- Hb. unfold list_sum. lia. }
    change (v_data (write_vtu n1 n2 n3 m)) with (stream (blocks n1 n2 n3 m)). rewrite (B _ (blocks_fit n1 n2 n3 m)).
    rewrite (bytes_flat_map _ 3) by reflexivity. rewrite voxels_length.
    unfold blocks. cbn [map list_sum fold_right fst]. lia.
Qed.

(* Voxels are numbered along the first direction, then the second, then the third: every
   cell number of the file is that of exactly one voxel. *)
Theorem C130_numbering : forall n1 n2 n3 m,
  (forall k, in_grid n1 n2 n3 k -> number n1 n2 k < v_cells (write_vtu n1 n2 n3 m))
  /\ (forall e, e < v_cells (write_vtu n1 n2 n3 m) -> exists k, in_grid n1 n2 n3 k /\ number n1 n2 k = e)
  /\ (forall k k', in_grid n1 n2 n3 k -> in_grid n1 n2 n3 k' -> number n1 n2 k = number n1 n2 k' -> k = k').
Proof.
  intros n1 n2 n3 m. repeat split.
  - apply number_lt.
  - apply number_onto.
  - apply number_inj.
Qed.

(* Every field of the file has at the number of a voxel the value of this voxel; tensors
   in the order 11, 22, 33, 12, 23, 13. *)
Lemma tuple_flat : forall n1 n2 n3 m i name t c n (f : voxel -> list item) N1 N2 N3 s k,
  nth_error (header n1 n2 n3) i = Some ((name, t, c), n) -> nth_error (blocks n1 n2 n3 m) i = Some (s, flat_map f (voxels N1 N2 N3)) ->
  (forall x, length (f x) = c) -> named (write_vtu n1 n2 n3 m) name = nth_error (v_arrays (write_vtu n1 n2 n3 m)) i ->
  in_grid N1 N2 N3 k -> tuple (write_vtu n1 n2 n3 m) name (number N1 N2 k) = Some (f k).
Proof.
  intros n1 n2 n3 m i name t c n f N1 N2 N3 s k Hh Hb Hf Hn Hk. destruct (read_named _ _ _ m _ _ _ _ _ _ Hh Hb) as (o & _ & Ho & R).
  pose proof (eq_trans Hn Ho) as N. unfold tuple, read_array, components. rewrite N, R. cbn [snd]. unfold slice.
  rewrite (flat_map_length_const _ c) by exact Hf. rewrite voxels_length.
  pose proof (number_lt _ _ _ _ Hk) as L.
  replace (c * number N1 N2 k + c <=? c * (N1 * N2 * N3)) with true
    by (symmetry; apply Nat.leb_le; replace (c * number N1 N2 k + c) with (c * S (number N1 N2 k)) by lia; apply Nat.mul_le_mono_l; exact L).
  f_equal. apply flat_map_slice; [exact Hf |]. now apply voxels_nth.
Qed.
Lemma tuple_map : forall n1 n2 n3 m i name t n (f : voxel -> item) N1 N2 N3 s k,
  nth_error (header n1 n2 n3) i = Some ((name, t, 1), n) -> nth_error (blocks n1 n2 n3 m) i = Some (s, map f (voxels N1 N2 N3)) ->
  named (write_vtu n1 n2 n3 m) name = nth_error (v_arrays (write_vtu n1 n2 n3 m)) i ->
  in_grid N1 N2 N3 k -> tuple (write_vtu n1 n2 n3 m) name (number N1 N2 k) = Some [f k].
Proof. intros. rewrite map_as_flat in H0. apply (tuple_flat _ _ _ _ _ _ _ _ _ (fun x => [f x]) _ _ N3 _ _ H H0); auto. Qed.
Lemma tuple_seq : forall n1 n2 n3 m i name t n (f : nat -> item) s e,
  nth_error (header n1 n2 n3) i = Some ((name, t, 1), n) -> nth_error (blocks n1 n2 n3 m) i = Some (s, map f (seq 0 (n1 * n2 * n3))) ->
  named (write_vtu n1 n2 n3 m) name = nth_error (v_arrays (write_vtu n1 n2 n3 m)) i ->
  e < n1 * n2 * n3 -> tuple (write_vtu n1 n2 n3 m) name e = Some [f e].
Proof.
  intros n1 n2 n3 m i name t n f s e Hh Hb Hn He. destruct (read_named _ _ _ m _ _ _ _ _ _ Hh Hb) as (o & _ & Ho & R).
  pose proof (eq_trans Hn Ho) as N. unfold tuple, read_array, components. rewrite N, R. cbn [snd]. unfold slice.
  rewrite map_length, seq_length. replace (1 * e + 1 <=? n1 * n2 * n3) with true by (symmetry; apply Nat.leb_le; lia).
  f_equal. rewrite map_as_flat. apply (flat_map_slice (fun x => [f x]) 1); [reflexivity |]. now rewrite nth_error_seq.
Qed.
Theorem C130_fields : forall n1 n2 n3 m k, in_grid n1 n2 n3 k ->
  let v := write_vtu n1 n2 n3 m in let at_ name := tuple v name (number n1 n2 k) in
  let tensor (t : T2) := Some [F64 (t 1 1); F64 (t 2 2); F64 (t 3 3); F64 (t 1 2); F64 (t 2 3); F64 (t 1 3)] in
  tuple v "TimeValue" 0 = Some [F64 (m_time m)]
  /\ at_ "rank"%string = Some [I32 (m_rank m)]
  /\ at_ "phase_id"%string = Some [I32 (m_phase m k)] /\ at_ "grain_id"%string = Some [I32 (m_grain m k)]
  /\ at_ "vm-strain"%string = Some [F64 (m_vm_strain m k)] /\ at_ "vm-stress"%string = Some [F64 (m_vm_stress m k)]
  /\ at_ "vm-pl-strain-rate"%string = Some [F64 (m_vm_rate m k)] /\ at_ "vm-el-strain"%string = Some [F64 (m_vm_elastic m k)]
  /\ at_ "strain"%string = tensor (m_strain m k) /\ at_ "stress"%string = tensor (m_stress m k)
  /\ at_ "pl-strain-rate"%string = tensor (m_rate m k) /\ at_ "el-strain"%string = tensor (m_elastic m k)
  /\ at_ "IPFColor"%string = Some [U8 (m_ipf m k 1); U8 (m_ipf m k 2); U8 (m_ipf m k 3)].
Proof.
  intros n1 n2 n3 m k Hk v at_ tensor. pose proof (number_lt _ _ _ _ Hk) as L. unfold at_, tensor, v.
  split; [| split; [| split; [| split; [| split; [| split; [| split; [| split; [| split; [| split; [| split; [| split]]]]]]]]]]].
  - destruct (read_named n1 n2 n3 m 0 "TimeValue" Float64 1 _ _ eq_refl eq_refl) as (o & _ & Ho & R).
    unfold tuple, read_array, components. change (named _ "TimeValue") with (nth_error (v_arrays (write_vtu n1 n2 n3 m)) 0). rewrite Ho, R. reflexivity.
  - exact (tuple_seq n1 n2 n3 m 5 "rank" _ _ (fun _ => I32 (m_rank m)) _ _ eq_refl eq_refl eq_refl L).
  - exact (tuple_map n1 n2 n3 m 6 "phase_id" _ _ (fun k => I32 (m_phase m k)) _ _ _ _ _ eq_refl eq_refl eq_refl Hk).
  - exact (tuple_map n1 n2 n3 m 7 "grain_id" _ _ (fun k => I32 (m_grain m k)) _ _ _ _ _ eq_refl eq_refl eq_refl Hk).
  - exact (tuple_map n1 n2 n3 m 8 "vm-strain" _ _ (fun k => F64 (m_vm_strain m k)) _ _ _ _ _ eq_refl eq_refl eq_refl Hk).
  - exact (tuple_map n1 n2 n3 m 9 "vm-stress" _ _ (fun k => F64 (m_vm_stress m k)) _ _ _ _ _ eq_refl eq_refl eq_refl Hk).
  - exact (tuple_map n1 n2 n3 m 10 "vm-pl-strain-rate" _ _ (fun k => F64 (m_vm_rate m k)) _ _ _ _ _ eq_refl eq_refl eq_refl Hk).
  - exact (tuple_map n1 n2 n3 m 11 "vm-el-strain" _ _ (fun k => F64 (m_vm_elastic m k)) _ _ _ _ _ eq_refl eq_refl eq_refl Hk).
  - exact (tuple_flat n1 n2 n3 m 12 "strain" _ _ _ (fun k => six (m_strain m k)) _ _ _ _ _ eq_refl eq_refl (fun _ => eq_refl) eq_refl Hk).
  - exact (tuple_flat n1 n2 n3 m 13 "stress" _ _ _ (fun k => six (m_stress m k)) _ _ _ _ _ eq_refl eq_refl (fun _ => eq_refl) eq_refl Hk).
  - exact (tuple_flat n1 n2 n3 m 14 "pl-strain-rate" _ _ _ (fun k => six (m_rate m k)) _ _ _ _ _ eq_refl eq_refl (fun _ => eq_refl) eq_refl Hk).
  - exact (tuple_flat n1 n2 n3 m 15 "el-strain" _ _ _ (fun k => six (m_elastic m k)) _ _ _ _ _ eq_refl eq_refl (fun _ => eq_refl) eq_refl Hk).
  - exact (tuple_flat n1 n2 n3 m 16 "IPFColor" _ _ _ (fun k => map (fun dim => U8 (m_ipf m k dim)) (seq 1 3)) _ _ _ _ _ eq_refl eq_refl (fun _ => eq_refl) eq_refl Hk).
Qed.

(* The cell of a voxel is a hexahedron; its eight points are points of the file, at the
   corners of the voxel in VTK's order. *)
Theorem C130_cells : forall n1 n2 n3 m k, in_grid n1 n2 n3 k ->
  let v := write_vtu n1 n2 n3 m in let e := number n1 n2 k in
  tuple v "types" e = Some [I32 12] /\ tuple v "offsets" e = Some [I32 (Z.of_nat (8 * e + 8))]
  /\ exists ids, (forall l, read_array v "connectivity" = Some l -> slice l (8 * e) 8 = Some (map (fun q => I32 (Z.of_nat (ids q))) (seq 0 8)))
     /\ read_array v "connectivity" <> None
     /\ forall q, q < 8 -> ids q < v_points v
          /\ tuple v "Points" (ids q) = Some [F64 (m_x m (hex_corner k q) 1); F64 (m_x m (hex_corner k q) 2); F64 (m_x m (hex_corner k q) 3)].
Proof.
  intros n1 n2 n3 m k Hk v e. pose proof (number_lt _ _ _ _ Hk) as L. subst v e. split; [| split].
  - exact (tuple_seq n1 n2 n3 m 4 "types" _ _ (fun _ => I32 12) _ _ eq_refl eq_refl eq_refl L).
  - rewrite (tuple_seq n1 n2 n3 m 3 "offsets" _ _ (fun e => I32 (Z.of_nat ((e + 1) * 8))) _ _ eq_refl eq_refl eq_refl L). do 4 f_equal. lia.
  - exists (fun q => number (n1 + 1) (n2 + 1) (hex_corner k q)).
    assert (G : forall q, in_grid (n1 + 1) (n2 + 1) (n3 + 1) (hex_corner k q)).
    { intros q. destruct k as [[x y] z]. unfold in_grid in *. do 8 (destruct q as [|q]; [cbn [hex_corner]; lia |]). cbn [hex_corner]. lia. }
    destruct (read_named n1 n2 n3 m 2 "connectivity" Int32 1 _ _ eq_refl eq_refl) as (o & _ & Ho & R).
    assert (RA : read_array (write_vtu n1 n2 n3 m) "connectivity" = Some (flat_map (fun k => map I32 (connect n1 n2 n3 k)) (voxels n1 n2 n3))).
    { unfold read_array. change (named _ "connectivity") with (nth_error (v_arrays (write_vtu n1 n2 n3 m)) 2). rewrite Ho. exact R. }
    split; [| split].
    + intros l El. rewrite RA in El. injection El as <-. unfold slice.
      assert (F8 : forall x, length (map I32 (connect n1 n2 n3 x)) = 8) by (intros [[x y] z]; reflexivity).
      rewrite (flat_map_length_const _ 8) by exact F8. rewrite voxels_length.
      replace (8 * number n1 n2 k + 8 <=? 8 * (n1 * n2 * n3)) with true by (symmetry; apply Nat.leb_le; lia).
      rewrite (flat_map_slice _ 8 _ _ k F8 (voxels_nth _ _ _ _ Hk)). f_equal.
      destruct k as [[x y] z]. unfold connect. cbn [seq map].
      replace (x + 1) with (S x) by lia. replace (y + 1) with (S y) by lia. replace (z + 1) with (S z) by lia.
      pose proof (pid_spec n1 n2 n3 _ (G 0)) as P0. cbn [hex_corner] in P0.
      pose proof (pid_spec n1 n2 n3 _ (G 1)) as P1. cbn [hex_corner] in P1.
      pose proof (pid_spec n1 n2 n3 _ (G 2)) as P2. cbn [hex_corner] in P2.
      pose proof (pid_spec n1 n2 n3 _ (G 3)) as P3. cbn [hex_corner] in P3.
      pose proof (pid_spec n1 n2 n3 _ (G 4)) as P4. cbn [hex_corner] in P4.
      pose proof (pid_spec n1 n2 n3 _ (G 5)) as P5. cbn [hex_corner] in P5.
      pose proof (pid_spec n1 n2 n3 _ (G 6)) as P6. cbn [hex_corner] in P6.
      pose proof (pid_spec n1 n2 n3 _ (G 7)) as P7. cbn [hex_corner] in P7.
      rewrite P0, P1, P2, P3, P4, P5, P6, P7. reflexivity.
    + rewrite RA. discriminate.
    + intros q _. split; [exact (number_lt _ _ _ _ (G q)) |].
      exact (tuple_flat n1 n2 n3 m 1 "Points" _ _ _ (fun k => map (fun dim => F64 (m_x m k dim)) (seq 1 3)) (n1 + 1) (n2 + 1) (n3 + 1) _ _ eq_refl eq_refl (fun _ => eq_refl) eq_refl (G q)).
Qed.

(* The .pvtu file announces exactly the arrays on points and cells of the files of the
   ranks, and lists the file of every rank once; no two files of a run have one name, and
   no name is cut by its buffer. *)
Theorem C130_pieces : forall n1 n2 n3 m step ranks,
  filter (fun a => negb (existsb (String.eqb (fst (fst a))) ["TimeValue"; "connectivity"; "offsets"; "types"]%string)) (map fst (v_arrays (write_vtu n1 n2 n3 m))) = pvtu_arrays
  /\ map (fun p => "pvtu/" ++ p)%string (pvtu_pieces step ranks) = map (vtu_filename step) (seq 0 ranks).
Proof. intros. split; [reflexivity |]. unfold pvtu_pieces. rewrite map_map. reflexivity. Qed.
Lemma bar_not_digit : ~ is_digit "_" /\ ~ is_digit "/".
Proof. split; intros (d & H & E); do 10 (destruct d; [discriminate|]); lia. Qed.
Lemma cut_at : forall s a a' r r', ~ is_digit s -> digits a -> digits a' -> (a ++ String s r = a' ++ String s r')%string -> a = a' /\ r = r'.
Proof.
  intros s. induction a as [|c a IH]; intros [|c' a'] r r' Hs H H' E; cbn in E.
  - injection E as E. auto.
  - injection E as E1 E2. destruct H' as [H' _]. rewrite <- E1 in H'. destruct (Hs H').
  - injection E as E1 E2. destruct H as [H _]. rewrite E1 in H. destruct (Hs H).
  - injection E as E1 E2. destruct (IH a' r r') as [-> ->]; [exact Hs | apply H | apply H' | exact E2 |]. subst. auto.
Qed.
Lemma vtu_name_eq : forall i r, vtu_filename i r = ("pvtu/MicroState_" ++ (pad5 i ++ String "/" ("MicroState_" ++ (pad5 i ++ String "_" (pad5 r ++ String "." "vtu")))))%string.
Proof. intros. unfold vtu_filename, subdirname. rewrite !sapp_assoc. reflexivity. Qed.
Lemma differ_at : forall a b R R', digits a -> digits b -> (a ++ String "/" R <> b ++ String "." R')%string.
Proof.
  induction a as [|c a IH]; intros [|c' b] R R' D D' E; cbn in E.
  - discriminate.
  - injection E as E1 _. destruct D' as [D' _]. rewrite <- E1 in D'. now apply (proj2 bar_not_digit).
  - injection E as E1 _. destruct D as [D _]. rewrite E1 in D. now apply dot_not_digit.
  - injection E as _ E. apply (IH b R R'); [apply D | apply D' | exact E].
Qed.
Theorem C130_names : forall i r i' r',
  (vtu_filename i r = vtu_filename i' r' -> i = i' /\ r = r')
  /\ (pvtu_filename i = pvtu_filename i' -> i = i')
  /\ vtu_filename i r <> pvtu_filename i'
  /\ ((N.of_nat i < 2 ^ 31)%N -> (N.of_nat r < 2 ^ 31)%N -> String.length (vtu_filename i r) < 128).
Proof.
  intros i r i' r'. split; [| split; [| split]].
  - rewrite !vtu_name_eq. intros E. injection E as E. apply cut_at in E; [| apply bar_not_digit | apply digits_pad | apply digits_pad].
    destruct E as [E1 E]. apply pad_inj in E1. subst. split; [reflexivity |]. injection E as E.
    apply cut_at in E; [| apply bar_not_digit | apply digits_pad | apply digits_pad]. destruct E as [_ E].
    apply cut in E; [| apply digits_pad | apply digits_pad]. destruct E as [E _]. now apply pad_inj.
  - unfold pvtu_filename. intros E. injection E as E.
    change ".pvtu"%string with (String "." "pvtu") in E. apply cut in E; [| apply digits_pad | apply digits_pad]. destruct E as [E _]. now apply pad_inj.
  - rewrite vtu_name_eq. unfold pvtu_filename. intros E. injection E as E. revert E. apply differ_at; apply digits_pad.
  - intros Hi Hr.
    assert (Li : String.length (pad5 i) <= 10) by (apply (pad_length 10); [lia|]; apply (pow_bound 10 i (2 ^ 31)); [exact Hi|vm_compute; discriminate]).
    assert (Lr : String.length (pad5 r) <= 10) by (apply (pad_length 10); [lia|]; apply (pow_bound 10 r (2 ^ 31)); [exact Hr|vm_compute; discriminate]).
    unfold vtu_filename, subdirname. rewrite !length_app. cbn [String.length]. lia.
Qed.

Local Open Scope R_scope.
(* Where the corners should be: the homogeneous deformation F of the box, in which voxel
   number g (from 1) of direction j has its middle at delt j * g. *)
Definition deformed (F : T2) (delt : T1) (g : T1) (i : nat) : R := sum1 3 (fun j => F i j * (delt j * g j)).
(* Ranks agree: a corner has the same place in the files of all the boxes it belongs to. *)
Theorem C130_seamless : forall F delt s s' k k' i,
  (let '(x, y, z) := k in let '(x', y', z') := k' in
   (x + s 1 = x' + s' 1 /\ y + s 2 = y' + s' 2 /\ z + s 3 = z' + s' 3)%nat) ->
  xintp F delt s k i = xintp F delt s' k' i.
Proof.
  intros F delt s s' [[x y] z] [[x' y'] z'] i (Ex & Ey & Ez). unfold xintp, sum1. cbn [sumn]. cbn beta iota.
  apply (f_equal INR) in Ex, Ey, Ez. rewrite !plus_INR in Ex, Ey, Ez. rewrite Ex, Ey, Ez. reflexivity.
Qed.
Definition middle (s : nat -> nat) (k : voxel) : T1 := fun j => let '(x, y, z) := k in
  match j with 1%nat => INR (x + s 1%nat) - 1 / 2 | 2%nat => INR (y + s 2%nat) - 1 / 2 | _ => INR (z + s 3%nat) - 1 / 2 end.
(* The places are right wherever the gradient does not couple directions of different
   voxel lengths. *)
Theorem C130_positions_partial : forall F delt s k i, (1 <= i <= 3)%nat ->
  (forall j, (1 <= j <= 3)%nat -> F i j = 0 \/ delt i = delt j) -> xintp F delt s k i = deformed F delt (middle s k) i.
Proof.
  intros F delt s [[x y] z] i Hi H. unfold xintp, deformed, middle, sum1. cbn [sumn]. cbn beta iota. rewrite !plus_INR.
  assert (H1 := H 1%nat ltac:(lia)). assert (H2 := H 2%nat ltac:(lia)). assert (H3 := H 3%nat ltac:(lia)).
  destruct H1 as [-> | <-]; destruct H2 as [-> | <-]; destruct H3 as [-> | <-]; ring.
Qed.
(* Conversely this is needed: if all corners of one voxel have the right place in
   direction i, the gradient couples i with no direction of another length. *)
Theorem C130_positions_needed : forall F delt s k i, (1 <= i <= 3)%nat ->
  (forall q, (q < 8)%nat -> xintp F delt s (hex_corner k q) i = deformed F delt (middle s (hex_corner k q)) i) ->
  forall j, (1 <= j <= 3)%nat -> F i j = 0 \/ delt i = delt j.
Proof.
  intros F delt s [[x y] z] i Hi H j Hj.
  assert (E0 := H 0%nat ltac:(lia)). assert (E1 := H 1%nat ltac:(lia)). assert (E3 := H 3%nat ltac:(lia)). assert (E4 := H 4%nat ltac:(lia)).
  unfold xintp, deformed, middle, sum1 in E0, E1, E3, E4. cbn [hex_corner sumn] in E0, E1, E3, E4. cbn beta iota in E0, E1, E3, E4.
  rewrite !plus_INR in E0, E1, E3, E4. rewrite !S_INR in E1, E3, E4.
  assert (F i j * (delt i - delt j) = 0).
  { destruct j as [|[|[|[|]]]]; try lia; nra. }
  apply Rmult_integral in H0. destruct H0; [left; assumption | right; lra].
Qed.
(* A sheared box of voxels twice as long in the second direction. *)
Theorem C130_positions_refuted : exists F delt s k i, (1 <= i <= 3)%nat /\ (forall j, 0 < delt j) /\
  xintp F delt s k i <> deformed F delt (middle s k) i.
Proof.
  exists (fun i j => match i, j with 1%nat, 2%nat => 1 | 1%nat, 1%nat => 1 | 2%nat, 2%nat => 1 | 3%nat, 3%nat => 1 | _, _ => 0 end).
  exists (fun j => match j with 2%nat => 2 | _ => 1 end). exists (fun _ => 0%nat). exists (1%nat, 1%nat, 1%nat). exists 1%nat.
  split; [lia |]. split; [intros [|[|[|]]]; lra |].
  unfold xintp, deformed, middle, sum1. cbn [sumn plus INR]. cbn beta iota. intros E. lra.
Qed.
(* At the start the gradient is the identity and the corners bound the undeformed voxels. *)
Theorem C130_start : forall d delt s k i, (1 <= i <= 3)%nat -> xintp (defgradavg 0 d) delt s k i = delt i * middle s k i.
Proof.
  intros d delt s k i Hi. rewrite C130_positions_partial; [| exact Hi |].
  - unfold deformed, sum1, defgradavg. cbn [sumn Nat.eqb].
    destruct i as [|[|[|[|]]]]; try lia; cbn [Nat.eqb]; ring.
  - intros j Hj. unfold defgradavg. cbn [Nat.eqb]. destruct (Nat.eqb_spec i j) as [->|]; [now right | left; ring].
Qed.

(* A box of 2 x 1 x 1 voxels: the file read back. *)
Definition case_micro : micro :=
  {| m_rank := 3; m_time := 1 / 2; m_x := fun k i => let '(x, y, z) := k in match i with 1%nat => INR x | 2%nat => INR y | _ => INR z end;
     m_phase := fun k => let '(x, _, _) := k in Z.of_nat x; m_grain := fun k => let '(x, _, _) := k in (10 + Z.of_nat x)%Z;
     m_vm_strain := fun _ => 1; m_vm_stress := fun _ => 2; m_vm_rate := fun _ => 3; m_vm_elastic := fun _ => 4;
     m_strain := fun _ _ _ => 5; m_stress := fun _ i j => INR (10 * i + j); m_rate := fun _ _ _ => 6; m_elastic := fun _ _ _ => 7;
     m_ipf := fun _ d => (100 + d)%nat |}.
Example C130_met : let v := write_vtu 2 1 1 case_micro in
  in_grid 2 1 1 (2, 1, 1)%nat /\ number 2 1 (2, 1, 1)%nat = 1%nat
  /\ tuple v "grain_id" 1 = Some [I32 12] /\ tuple v "stress" 1 = Some [F64 (INR 11); F64 (INR 22); F64 (INR 33); F64 (INR 12); F64 (INR 23); F64 (INR 13)]
  /\ (exists l, read_array v "connectivity" = Some l /\ slice l 8 8 = Some [I32 1; I32 2; I32 5; I32 4; I32 7; I32 8; I32 11; I32 10])
  /\ tuple v "Points" 11 = Some [F64 (INR 3); F64 (INR 2); F64 (INR 2)]
  /\ tuple v "IPFColor" 1 = Some [U8 101; U8 102; U8 103] /\ tuple v "IPFColor" 2 = None
  /\ pvtu_pieces 7 2 = ["MicroState_00007/MicroState_00007_00000.vtu"; "MicroState_00007/MicroState_00007_00001.vtu"]%string.
Proof.
  repeat split; try (unfold in_grid; lia); try reflexivity.
  eexists. split; reflexivity.
Qed.

Print Assumptions C130_arrays.
Print Assumptions C130_counts.
Print Assumptions C130_numbering.
Print Assumptions C130_fields.
Print Assumptions C130_cells.
Print Assumptions C130_pieces.
Print Assumptions C130_names.
Print Assumptions C130_seamless.
Print Assumptions C130_positions_partial.
Print Assumptions C130_positions_needed.
Print Assumptions C130_positions_refuted.
Print Assumptions C130_start.
