(** C37: the index file of an output.  C60: the time series.  C61: file names. *)
From Verif Require Import BaseArr.
From Verif Require Import VtkModel VtkSpec VtkProofs.
From Coq Require Import FinFun.
Open Scope string_scope.

Definition limit {D} (calls : list (call D)) : Prop := (N.of_nat (length calls) <= 20000)%N.

(** *** C37 *)

(** The index of output i (also when it is written again by later outputs) lists as many material files as were written. *)
Theorem C37_count {D} (o : opts) (calls : list (call D)) f i c : limit calls -> o_mat_vars o = true -> nth_error calls i = Some c ->
  exists w blocks b, outputs o calls f = Some w /\ w_fs w (data_path (vtm_name (o_solver o) i)) = Some (Vtm blocks) /\
    last blocks (mkBlock 0 []) = b /\
    length (b_pieces b) = length (filter (fun m => Nat.ltb 0 (o_elems o m)) (seq 0 (o_mats o))).
Proof.
  intros Hl Hv Hc. destruct (outputs_spec o f calls Hl) as (w & E & _ & _ & Hk & _).
  assert (Hi : i < length calls) by (apply nth_error_Some; congruence).
  exists w. eexists. eexists. split; [exact E|]. split.
  { etransitivity; [exact (Hk (KVtm (o_solver o) i))|]. unfold expected. rewrite Nat.eqb_refl, (proj2 (Nat.ltb_lt _ _) Hi). reflexivity. }
  split; [reflexivity|]. unfold vtm_blocks. rewrite Hv. rewrite last_last. cbn [b_pieces]. rewrite map_length, seq_length.
  unfold num_files. f_equal. apply filter_ext_in. intros m Hm. apply in_seq in Hm. unfold has_file. rewrite Hv, (proj2 (Nat.ltb_lt m _)) by lia. reflexivity.
Qed.
Print Assumptions C37_count.

Lemma files_leading (o : opts) q : o_mat_vars o = true -> (forall m, m < o_mats o -> (0 < o_elems o m <-> m < q)) -> num_files o = Nat.min q (o_mats o).
Proof.
  intros Hv Hq. unfold num_files.
  rewrite (filter_ext_in _ (fun m => Nat.ltb m q)).
  2:{ intros m Hm. apply in_seq in Hm. unfold has_file. rewrite Hv, (proj2 (Nat.ltb_lt m (o_mats o))) by lia. cbn [andb].
      apply eq_true_iff_eq. rewrite !Nat.ltb_lt. apply Hq. lia. }
  clear. induction (o_mats o) as [|n IH]; [rewrite Nat.min_0_r; reflexivity|]. rewrite seq_S, filter_app, app_length, IH. cbn [filter Nat.add].
  destruct (Nat.ltb_spec n q); cbn [length]; lia.
Qed.

(** It lists exactly the files written when the materials without elements come last ... *)
Theorem C37_index_partial {D} (o : opts) (calls : list (call D)) f i c : limit calls -> o_mat_vars o = true -> leading o ->
  nth_error calls i = Some c ->
  exists w blocks, outputs o calls f = Some w /\ w_fs w (data_path (vtm_name (o_solver o) i)) = Some (Vtm blocks) /\
    lists_exactly o i (last blocks (mkBlock 0 [])) /\
    forall m name t, In (m, name, t) (b_pieces (last blocks (mkBlock 0 []))) ->
      t = c_time c /\ w_fs w (data_path name) = Some (Vtu (c_mats c m)).
Proof.
  intros Hl Hv [q Hq] Hc. destruct (outputs_spec o f calls Hl) as (w & E & _ & _ & Hk & _).
  assert (Hi : i < length calls) by (apply nth_error_Some; congruence).
  exists w. eexists. split; [exact E|]. split.
  { etransitivity; [exact (Hk (KVtm (o_solver o) i))|]. unfold expected. rewrite Nat.eqb_refl, (proj2 (Nat.ltb_lt _ _) Hi). reflexivity. }
  unfold vtm_blocks. rewrite Hv, last_last. cbn [b_pieces]. rewrite (files_leading o q Hv Hq).
  split.
  - intros name. cbn [b_pieces]. split.
    + intros (m & t & Hin). apply in_map_iff in Hin. destruct Hin as (m' & Em & Hm). apply in_seq in Hm. injection Em as <- <- _.
      exists m'. split; [lia|]. split; [apply Hq; lia|reflexivity].
    + intros (m & Hm & Hpos & ->). exists m. eexists. apply in_map_iff. exists m. split; [reflexivity|]. apply in_seq. apply Hq in Hpos; lia.
  - intros m name t Hin. apply in_map_iff in Hin. destruct Hin as (m' & Em & Hm). apply in_seq in Hm. injection Em as <- <- <-.
    split; [unfold time_of; rewrite Hc; reflexivity|].
    etransitivity; [exact (Hk (KVtu (o_solver o) (Mat m') i))|]. unfold expected. rewrite Nat.eqb_refl, Hc. unfold has_file. rewrite Hv.
    rewrite (proj2 (Nat.ltb_lt m' _)), (proj2 (Nat.ltb_lt 0 _)) by (try apply Hq; lia). reflexivity.
Qed.
Print Assumptions C37_index_partial.

(** ... and only then. *)
Theorem C37_index_only {D} (o : opts) (calls : list (call D)) f i c w blocks : limit calls -> o_mat_vars o = true ->
  nth_error calls i = Some c -> outputs o calls f = Some w ->
  w_fs w (data_path (vtm_name (o_solver o) i)) = Some (Vtm blocks) ->
  lists_exactly o i (last blocks (mkBlock 0 [])) -> leading o.
Proof.
  intros Hl Hv Hc E Hb Hex. destruct (outputs_spec o f calls Hl) as (w' & E' & _ & _ & Hk & _).
  rewrite E in E'. injection E' as <-.
  assert (Hi : i < length calls) by (apply nth_error_Some; congruence).
  rewrite (Hk (KVtm (o_solver o) i) : w_fs w (data_path (vtm_name (o_solver o) i)) = _) in Hb. unfold expected in Hb. rewrite Nat.eqb_refl, (proj2 (Nat.ltb_lt _ _) Hi) in Hb. cbn [andb] in Hb.
  injection Hb as <-. unfold vtm_blocks in Hex. rewrite Hv, last_last in Hex.
  exists (num_files o). intros m Hm. split.
  - intros Hpos. destruct (proj2 (Hex (vtu_name (o_solver o) (Mat m) i))) as (m' & t & Hin). { exists m. auto. }
    cbn [b_pieces] in Hin. apply in_map_iff in Hin. destruct Hin as (m'' & Em & Hin). apply in_seq in Hin. assert (En : vtu_name (o_solver o) (Mat m'') i = vtu_name (o_solver o) (Mat m) i) by congruence.
    apply vtu_inj in En. destruct En as (_ & En & _). injection En as ->. lia.
  - intros Hlt. destruct (proj1 (Hex (vtu_name (o_solver o) (Mat m) i))) as (m' & Hm' & Hpos & En).
    { exists m. eexists. cbn [b_pieces]. apply in_map_iff. exists m. split; [reflexivity|]. apply in_seq. lia. }
    apply vtu_inj in En. destruct En as (_ & En & _). injection En as ->. exact Hpos.
Qed.
Print Assumptions C37_index_only.

(** With an empty first material the index names a file that does not exist and leaves out the one that does. *)
Definition two_mats : opts := mkOpts 0 2 (fun m => match m with O => 0 | _ => 5 end) true true.
Theorem C37_index_refuted : exists w blocks,
  outputs two_mats [mkCall 0%R 7 (fun m => m)] (fun _ => None) = Some w /\
  w_fs w (data_path (vtm_name 0 0)) = Some (Vtm blocks) /\
  (exists m name t, In (m, name, t) (b_pieces (last blocks (mkBlock 0 []))) /\ w_fs w (data_path name) = None) /\
  (w_fs w (data_path (vtu_name 0 (Mat 1) 0)) = Some (Vtu 1) /\
   forall m t, ~ In (m, vtu_name 0 (Mat 1) 0, t) (b_pieces (last blocks (mkBlock 0 [])))).
Proof.
  destruct (outputs_spec two_mats (fun _ => None) [mkCall 0%R 7 (fun m => m)]) as (w & E & _ & _ & Hk & _). { vm_compute. discriminate. }
  exists w. eexists. split; [exact E|]. split.
  { etransitivity; [exact (Hk (KVtm 0 0))|]. reflexivity. }
  split; [|split].
  - exists 0, (vtu_name 0 (Mat 0) 0). eexists. split; [left; reflexivity|]. etransitivity; [exact (Hk (KVtu 0 (Mat 0) 0))|]. reflexivity.
  - etransitivity; [exact (Hk (KVtu 0 (Mat 1) 0))|]. reflexivity.
  - intros m t [H|[]]. discriminate H.
Qed.
Print Assumptions C37_index_refuted.

(** *** C60 *)

(** Every output so far is found in the time series with its time and its data, whatever was in the directory before. *)
Theorem C60_series {D} (o : opts) (calls : list (call D)) f i c : limit calls -> o_mesh_vars o = true -> nth_error calls i = Some c ->
  exists w, outputs o calls f = Some w /\ found (w_fs w) o i c.
Proof.
  intros Hl Hv Hc. destruct (outputs_spec o f calls Hl) as (w & E & _ & _ & Hk & _).
  assert (Hi : i < length calls) by (apply nth_error_Some; congruence).
  exists w. split; [exact E|].
  exists (map (fun i => (time_of calls i, "data/" ++ vtm_name (o_solver o) i)) (seq 0 (length calls))).
  exists ("data/" ++ vtm_name (o_solver o) i), (vtm_blocks o (num_files o) (time_of calls) i), (vtu_name (o_solver o) Fields i).
  split. { etransitivity; [exact (Hk (KPvd (o_solver o)))|]. unfold expected. rewrite Nat.eqb_refl, (proj2 (Nat.ltb_lt 0 _)) by lia. reflexivity. }
  split. { rewrite nth_error_map, (nth_error_nth' _ 0) by (rewrite seq_length; exact Hi). rewrite seq_nth by exact Hi. cbn [option_map Nat.add]. unfold time_of. rewrite Hc. reflexivity. }
  split. { change ("vtk/" ++ "data/" ++ vtm_name (o_solver o) i) with (path (KVtm (o_solver o) i)). rewrite Hk. unfold expected.
           rewrite Nat.eqb_refl, (proj2 (Nat.ltb_lt _ _) Hi). reflexivity. }
  split. { unfold vtm_blocks. rewrite Hv. cbn [app nth_error]. unfold time_of. rewrite Hc. reflexivity. }
  change ("vtk/data/" ++ vtu_name (o_solver o) Fields i) with (path (KVtu (o_solver o) Fields i)). rewrite Hk. unfold expected.
  rewrite Nat.eqb_refl, Hc. reflexivity.
Qed.
Print Assumptions C60_series.

(** The series has one entry for each output, in the order of the outputs. *)
Theorem C60_entries {D} (o : opts) (calls : list (call D)) f : limit calls -> calls <> [] ->
  exists w entries, outputs o calls f = Some w /\ w_fs w (pvd_path (o_solver o)) = Some (Pvd entries) /\
    map fst entries = map c_time calls /\ NoDup (map snd entries).
Proof.
  intros Hl Hne. destruct (outputs_spec o f calls Hl) as (w & E & _ & _ & Hk & _).
  assert (H0 : 0 < length calls) by (destruct calls; [contradiction|cbn; lia]).
  exists w. eexists. split; [exact E|]. split.
  { etransitivity; [exact (Hk (KPvd (o_solver o)))|]. unfold expected. rewrite Nat.eqb_refl, (proj2 (Nat.ltb_lt 0 _)) by lia. reflexivity. }
  rewrite !map_map. cbn [fst snd]. split.
  - apply nth_ext with (d := 0%R) (d' := 0%R); [now rewrite !map_length, seq_length|]. rewrite map_length, seq_length. intros i Hi.
    rewrite nth_indep with (d' := time_of calls 0) by (rewrite map_length, seq_length; exact Hi).
    rewrite (map_nth (fun i => time_of calls i)). rewrite seq_nth by exact Hi. cbn [Nat.add]. unfold time_of.
    destruct (nth_error calls i) as [c|] eqn:Ec; [|apply nth_error_None in Ec; lia].
    rewrite nth_indep with (d' := c_time c) by (rewrite map_length; exact Hi). rewrite map_nth. rewrite (nth_error_nth _ _ _ Ec). reflexivity.
  - apply FinFun.Injective_map_NoDup; [|apply seq_NoDup]. intros i j Hij. apply app_cancel in Hij. apply vtm_inj in Hij. apply Hij.
Qed.
Print Assumptions C60_entries.

(** More than 20000 outputs are undefined behaviour. *)
Theorem C60_limit {D} (o : opts) (calls : list (call D)) f : outputs o calls f <> None <-> limit calls.
Proof.
  split.
  - induction calls as [|c calls IH] using rev_ind; intros H; [unfold limit; cbn; lia|].
    unfold outputs in *. rewrite for_each_app in H.
    destruct (for_each calls (write_mesh o) (mkWriter f 0 (fun _ => 0%R))) as [w|] eqn:E; [|contradiction].
    assert (Hl : limit calls) by (apply IH; discriminate).
    destruct (outputs_spec o f calls Hl) as (w' & E' & Hid & _). unfold outputs in E'. rewrite E in E'. injection E' as <-.
    cbn [obind for_each] in H. unfold write_mesh in H. destruct (write_mats _ _ _ _) as [g n]. unfold limit. rewrite app_length. cbn [length].
    destruct (N.ltb_spec (N.of_nat (w_id w)) 20000); [|contradiction]. lia.
  - intros Hl. destruct (outputs_spec o f calls Hl) as (w & E & _). congruence.
Qed.
Print Assumptions C60_limit.

(** *** C61 *)

(** Different solvers, pieces and outputs never share a file. *)
Theorem C61_distinct s p i s' p' i' : data_path (vtu_name s p i) = data_path (vtu_name s' p' i') -> s = s' /\ p = p' /\ i = i'.
Proof. intros H. apply (path_inj (KVtu s p i) (KVtu s' p' i')) in H. injection H as -> -> ->. auto. Qed.
Print Assumptions C61_distinct.
Theorem C61_distinct_index s i s' i' : data_path (vtm_name s i) = data_path (vtm_name s' i') -> s = s' /\ i = i'.
Proof. intros H. apply (path_inj (KVtm s i) (KVtm s' i')) in H. injection H as -> ->. auto. Qed.
Print Assumptions C61_distinct_index.
Theorem C61_distinct_series s s' : pvd_path s = pvd_path s' -> s = s'.
Proof. intros H. apply (path_inj (KPvd s) (KPvd s')) in H. injection H as ->. reflexivity. Qed.
Print Assumptions C61_distinct_series.
Theorem C61_kinds s p i s' i' s'' :
  data_path (vtu_name s p i) <> data_path (vtm_name s' i') /\ data_path (vtu_name s p i) <> pvd_path s'' /\ data_path (vtm_name s' i') <> pvd_path s''.
Proof.
  split; [|split]; intros H.
  - apply (path_inj (KVtu s p i) (KVtm s' i')) in H. discriminate.
  - apply (path_inj (KVtu s p i) (KPvd s'')) in H. discriminate.
  - apply (path_inj (KVtm s' i') (KPvd s'')) in H. discriminate.
Qed.
Print Assumptions C61_kinds.

(** No path is truncated to the 100 characters of the buffer (solver_id is a size_t, the other numbers are ints). *)
Theorem C61_length s p i : (N.of_nat s < 2 ^ 64)%N -> (N.of_nat i < 2 ^ 31)%N -> (forall m, p = Mat m -> (N.of_nat m < 2 ^ 31)%N) ->
  String.length (data_path (vtu_name s p i)) < 100 /\ String.length (data_path (vtm_name s i)) < 100 /\ String.length (pvd_path s) < 100.
Proof.
  intros Hs Hi Hm.
  assert (Ls : String.length (dec s) <= 20) by (apply dec_length; [lia|]; apply (pow_bound 20 s (2 ^ 64)); [exact Hs|vm_compute; discriminate]).
  assert (Li : String.length (pad5 i) <= 10) by (apply (pad_length 10); [lia|]; apply (pow_bound 10 i (2 ^ 31)); [exact Hi|vm_compute; discriminate]).
  assert (Lp : String.length (part_name p) <= 13).
  { destruct p as [|m]; [cbn; lia|]. cbn [part_name]. rewrite length_app.
    assert (String.length (dec m) <= 10) by (apply dec_length; [lia|]; apply (pow_bound 10 m (2 ^ 31)); [apply Hm; reflexivity|vm_compute; discriminate]).
    cbn [String.length]. lia. }
  unfold data_path, vtu_name, vtm_name, pvd_path. rewrite !length_app. cbn [String.length]. lia.
Qed.
Print Assumptions C61_length.

(** Outputs of one solver leave the files of the other solvers alone, unless it is solver 0, which removes what earlier
    calculations left. *)
Theorem C61_other_solver {D} (o : opts) (calls : list (call D)) f s p i : limit calls -> o_solver o <> 0 -> s <> o_solver o ->
  exists w, outputs o calls f = Some w /\
    w_fs w (data_path (vtu_name s p i)) = f (data_path (vtu_name s p i)) /\
    w_fs w (data_path (vtm_name s i)) = f (data_path (vtm_name s i)) /\ w_fs w (pvd_path s) = f (pvd_path s).
Proof.
  intros Hl H0 Hs. destruct (outputs_spec o f calls Hl) as (w & E & _ & _ & Hk & _). exists w. split; [exact E|].
  assert (B : forall k, base o f (length calls) (path k) = f (path k)).
  { intros k. unfold base. rewrite (proj2 (Nat.eqb_neq _ _) H0). reflexivity. }
  split; [|split].
  - etransitivity; [exact (Hk (KVtu s p i))|]. unfold expected. rewrite (proj2 (Nat.eqb_neq _ _) Hs). apply (B (KVtu s p i)).
  - etransitivity; [exact (Hk (KVtm s i))|]. unfold expected. rewrite (proj2 (Nat.eqb_neq _ _) Hs). apply (B (KVtm s i)).
  - etransitivity; [exact (Hk (KPvd s))|]. unfold expected. rewrite (proj2 (Nat.eqb_neq _ _) Hs). apply (B (KPvd s)).
Qed.
Print Assumptions C61_other_solver.

(** After the outputs of solver 0, every Fierro file in the directory is one of this calculation; other files are kept. *)
Theorem C61_no_stale {D} (o : opts) (calls : list (call D)) f x : limit calls -> calls <> [] -> o_solver o = 0 ->
  exists w, outputs o calls f = Some w /\
    (stale x = true -> w_fs w x <> None ->
      x = pvd_path 0 \/ exists i, i < length calls /\ (x = data_path (vtm_name 0 i) \/ exists p, x = data_path (vtu_name 0 p i))) /\
    (stale x = false -> w_fs w x = f x).
Proof.
  intros Hl Hne H0. destruct (outputs_spec o f calls Hl) as (w & E & _ & _ & Hk & Hx). exists w. split; [exact E|].
  assert (Hlen : Nat.ltb 0 (length calls) = true) by (apply Nat.ltb_lt; destruct calls; [contradiction|cbn; lia]).
  assert (B : base o f (length calls) = clear f) by (unfold base; rewrite H0, Hlen; reflexivity).
  assert (Dec : (exists k, x = path k) \/ forall k, x <> path k).
  { destruct (Classical_Prop.classic (exists k, x = path k)) as [H|H]; [left; exact H|right; intros k Ek; apply H; exists k; exact Ek]. }
  destruct Dec as [[k ->]|Hno].
  - split; [|rewrite stale_path; discriminate]. intros _. rewrite Hk. unfold expected. rewrite B. unfold clear. rewrite stale_path, H0.
    destruct k as [s p i|s i|s]; cbn [path].
    + destruct (Nat.eqb_spec s 0) as [->|]; [|contradiction]. destruct (nth_error calls i) eqn:Ei; [|contradiction]. intros _.
      right. exists i. split; [apply nth_error_Some; congruence|]. right. exists p. reflexivity.
    + destruct (Nat.eqb_spec s 0) as [->|]; [|contradiction]. destruct (Nat.ltb_spec i (length calls)); [|contradiction]. intros _. right. exists i. auto.
    + destruct (Nat.eqb_spec s 0) as [->|]; [|contradiction]. rewrite Hlen. intros _. left. reflexivity.
  - rewrite Hx, B by exact Hno. unfold clear. split; intros ->; [contradiction|reflexivity].
Qed.
Print Assumptions C61_no_stale.

(** *** The hypotheses are met *)
Example C37_ex : limit [mkCall 0%R 7 (fun m : nat => m); mkCall 1%R 8 (fun m => m)] /\ leading (mkOpts 1 3 (fun m => 2 - m) true true)
  /\ ~ leading two_mats /\ vtu_name 1 (Mat 12) 7 = "Fierro.solver1.mat12.00007.vtu".
Proof.
  split; [vm_compute; discriminate|]. split; [exists 2; cbn [o_elems o_mats]; intros; lia|]. split; [|reflexivity].
  intros [q Hq]. unfold two_mats in Hq. cbn [o_mats o_elems] in Hq. pose proof (Hq 0 ltac:(lia)) as H0. pose proof (Hq 1 ltac:(lia)) as H1. cbv beta iota in H0, H1. lia.
Qed.
