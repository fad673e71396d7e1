From Verif Require Import BaseArr.
From Verif Require Import VtkModel.
Open Scope string_scope.

(** *** Decimal numbers *)
Definition code (c : ascii) : nat := nat_of_ascii c - 48.
Fixpoint num (acc : nat) (s : string) : nat := match s with "" => acc | String c s => num (10 * acc + code c) s end.
Definition is_digit (c : ascii) : Prop := exists d, d < 10 /\ c = digit d.
Fixpoint digits (s : string) : Prop := match s with "" => True | String c s => is_digit c /\ digits s end.

Lemma code_digit d : d < 10 -> code (digit d) = d.
Proof. intros H. do 10 (destruct d; [reflexivity|]). lia. Qed.
Lemma num_dec_aux f : forall n a, n <= f -> num 0 (dec_aux f n a) = num n a.
Proof.
  induction f; intros n a H; cbn [dec_aux].
  - assert (n = 0) by lia. subst. reflexivity.
  - assert (M : n mod 10 < 10) by (apply Nat.mod_upper_bound; lia). pose proof (Nat.div_mod n 10 ltac:(lia)) as D.
    destruct (Nat.eqb_spec (n / 10) 0) as [E|E].
    + cbn [num]. rewrite code_digit by exact M. f_equal. lia.
    + rewrite IHf. 2:{ pose proof (Nat.div_lt n 10). lia. }
      cbn [num]. rewrite code_digit by exact M. f_equal. lia.
Qed.
Lemma num_dec n : num 0 (dec n) = n.
Proof. unfold dec. rewrite num_dec_aux by lia. reflexivity. Qed.
Lemma dec_inj n m : dec n = dec m -> n = m.
Proof. intros H. rewrite <- (num_dec n), <- (num_dec m). now f_equal. Qed.
Lemma digits_aux f : forall n a, digits a -> digits (dec_aux f n a).
Proof.
  induction f; intros n a H; cbn [dec_aux].
  - split; [exists (n mod 10); split; [apply Nat.mod_upper_bound; lia|reflexivity]|exact H].
  - assert (G : digits (String (digit (n mod 10)) a)) by (split; [exists (n mod 10); split; [apply Nat.mod_upper_bound; lia|reflexivity]|exact H]).
    destruct (Nat.eqb (n / 10) 0); [exact G|]. apply IHf, G.
Qed.
Lemma digits_dec n : digits (dec n).
Proof. apply digits_aux. exact I. Qed.
Lemma digits_zeros k s : digits s -> digits (zeros k ++ s).
Proof. intros H. induction k; [exact H|]. cbn. split; [exists 0; split; [lia|reflexivity]|exact IHk]. Qed.
Lemma digits_pad n : digits (pad5 n).
Proof. apply digits_zeros, digits_dec. Qed.
Lemma num_zeros k s : num 0 (zeros k ++ s) = num 0 s.
Proof. induction k; [reflexivity|]. cbn. exact IHk. Qed.
Lemma num_pad n : num 0 (pad5 n) = n.
Proof. unfold pad5. rewrite num_zeros. apply num_dec. Qed.
Lemma pad_inj n m : pad5 n = pad5 m -> n = m.
Proof. intros H. rewrite <- (num_pad n), <- (num_pad m). now f_equal. Qed.

Lemma dot_not_digit : ~ is_digit ".".
Proof. intros (d & H & E). do 10 (destruct d; [discriminate|]). lia. Qed.
Lemma cut a : forall a' r r', digits a -> digits a' -> a ++ String "." r = a' ++ String "." r' -> a = a' /\ r = r'.
Proof.
  induction a as [|c a IH]; intros [|c' a'] r r' H H' E; cbn in E.
  - injection E as E. auto.
  - injection E as E1 E2. destruct H' as [H' _]. rewrite <- E1 in H'. destruct (dot_not_digit H').
  - injection E as E1 E2. destruct H as [H _]. rewrite E1 in H. destruct (dot_not_digit H).
  - injection E as E1 E2. destruct (IH a' r r') as [-> ->]; [apply H|apply H'|exact E2|]. subst. auto.
Qed.

Lemma sapp_assoc a b c : (a ++ b) ++ c = a ++ (b ++ c).
Proof. induction a; [reflexivity|]. cbn. now f_equal. Qed.

Lemma dec_nonempty n : exists c s, dec n = String c s /\ is_digit c.
Proof.
  pose proof (digits_dec n) as D. destruct (dec n) as [|c s] eqn:E; [|exists c, s; split; [reflexivity|apply D]].
  assert (forall f n a, dec_aux f n a <> "") as G.
  { clear. induction f; intros n a; cbn [dec_aux]; [discriminate|]. destruct (Nat.eqb _ _); [discriminate|apply IHf]. }
  destruct (G n n "" E).
Qed.
Lemma pad_nonempty n : exists c s, pad5 n = String c s /\ is_digit c.
Proof.
  unfold pad5. destruct (5 - String.length (dec n)); cbn [zeros append]; [apply dec_nonempty|].
  exists "0"%char, (zeros n0 ++ dec n). split; [reflexivity|]. exists 0. split; [lia|reflexivity].
Qed.
Lemma letter_f : ~ is_digit "f". Proof. intros (d & H & E). do 10 (destruct d; [discriminate|]). lia. Qed.
Lemma letter_m : ~ is_digit "m". Proof. intros (d & H & E). do 10 (destruct d; [discriminate|]). lia. Qed.

(** *** Paths *)
Inductive key := KVtu (solver : nat) (p : piece) (id : nat) | KVtm (solver id : nat) | KPvd (solver : nat).
Definition path (k : key) : string :=
  match k with
  | KVtu s p i => data_path (vtu_name s p i)
  | KVtm s i => data_path (vtm_name s i)
  | KPvd s => pvd_path s
  end.
Definition key_solver (k : key) : nat := match k with KVtu s _ _ => s | KVtm s _ => s | KPvd s => s end.

Lemma vtu_name_eq s p i : vtu_name s p i = "Fierro.solver" ++ (dec s ++ String "." (part_name p ++ String "." (pad5 i ++ ".vtu"))).
Proof. reflexivity. Qed.
Lemma vtm_name_eq s i : vtm_name s i = "Fierro.solver" ++ (dec s ++ String "." (pad5 i ++ ".vtm")).
Proof. reflexivity. Qed.
Lemma app_cancel a b c : a ++ b = a ++ c -> b = c.
Proof. induction a; cbn; intros H; [exact H|]. injection H as H. auto. Qed.

Lemma vtu_inj s p i s' p' i' : vtu_name s p i = vtu_name s' p' i' -> s = s' /\ p = p' /\ i = i'.
Proof.
  rewrite !vtu_name_eq. intros E. apply app_cancel in E.
  apply cut in E; [|apply digits_dec|apply digits_dec]. destruct E as [E1 E]. apply dec_inj in E1.
  destruct p as [|m], p' as [|m'].
  - apply (app_cancel "fields.") in E. change ".vtu" with (String "." "vtu") in E. apply cut in E; [|apply digits_pad|apply digits_pad].
    destruct E as [E _]. apply pad_inj in E. auto.
  - discriminate E.
  - discriminate E.
  - cbn [part_name] in E. rewrite !sapp_assoc in E. apply (app_cancel "mat") in E.
    apply cut in E; [|apply digits_dec|apply digits_dec]. destruct E as [E2 E]. apply dec_inj in E2.
    change ".vtu" with (String "." "vtu") in E. apply cut in E; [|apply digits_pad|apply digits_pad].
    destruct E as [E _]. apply pad_inj in E. subst. auto.
Qed.
Lemma vtm_inj s i s' i' : vtm_name s i = vtm_name s' i' -> s = s' /\ i = i'.
Proof.
  rewrite !vtm_name_eq. intros E. apply app_cancel in E.
  apply cut in E; [|apply digits_dec|apply digits_dec]. destruct E as [E1 E]. apply dec_inj in E1.
  change ".vtm" with (String "." "vtm") in E. apply cut in E; [|apply digits_pad|apply digits_pad]. destruct E as [E _]. apply pad_inj in E. auto.
Qed.
Lemma vtu_vtm s p i s' i' : vtu_name s p i <> vtm_name s' i'.
Proof.
  rewrite vtu_name_eq, vtm_name_eq. intros E. apply app_cancel in E.
  apply cut in E; [|apply digits_dec|apply digits_dec]. destruct E as [_ E].
  destruct (pad_nonempty i') as (c & t & Ep & Hc). rewrite Ep in E.
  destruct p; cbn in E; injection E as E _; rewrite <- E in Hc; [apply letter_f|apply letter_m]; exact Hc.
Qed.

Theorem path_inj k k' : path k = path k' -> k = k'.
Proof.
  destruct k as [s p i|s i|s], k' as [s' p' i'|s' i'|s']; cbn [path]; unfold data_path, pvd_path; intros E; try discriminate E.
  - apply app_cancel in E. apply vtu_inj in E. destruct E as (-> & -> & ->). reflexivity.
  - apply app_cancel in E. destruct (vtu_vtm _ _ _ _ _ E).
  - apply app_cancel in E. symmetry in E. destruct (vtu_vtm _ _ _ _ _ E).
  - apply app_cancel in E. apply vtm_inj in E. destruct E as (-> & ->). reflexivity.
  - apply app_cancel in E. change ".pvd" with (String "." "pvd") in E. apply cut in E; [|apply digits_dec|apply digits_dec]. destruct E as [E _]. apply dec_inj in E. now subst.
Qed.

Lemma piece_dec (a b : piece) : {a = b} + {a <> b}. Proof. decide equality. apply Nat.eq_dec. Qed.
Lemma key_dec (a b : key) : {a = b} + {a <> b}. Proof. decide equality; try apply Nat.eq_dec. apply piece_dec. Qed.

Lemma put_path {D} (f : fs D) k c k' : put f (path k) c (path k') = if key_dec k' k then Some c else f (path k').
Proof.
  unfold put. destruct (String.eqb_spec (path k') (path k)) as [E|E], (key_dec k' k) as [e|e]; try reflexivity.
  - apply path_inj in E. contradiction.
  - subst. contradiction.
Qed.
Lemma put_other {D} (f : fs D) k c x : (forall k', x <> path k') -> put f (path k) c x = f x.
Proof. intros H. unfold put. destruct (String.eqb_spec x (path k)) as [E|E]; [destruct (H _ E)|reflexivity]. Qed.

Lemma length_app a b : String.length (a ++ b) = String.length a + String.length b.
Proof. induction a; [reflexivity|]. cbn. now f_equal. Qed.
Lemma length_aux k : forall f n a, 1 <= k -> n < 10 ^ k -> String.length (dec_aux f n a) <= k + String.length a.
Proof.
  induction k; intros f n a Hk Hn; [lia|].
  destruct f; cbn [dec_aux]; [cbn [String.length]; lia|].
  destruct (Nat.eqb_spec (n / 10) 0) as [E|E]; [cbn [String.length]; lia|].
  destruct k.
  - rewrite Nat.pow_1_r in Hn. rewrite Nat.div_small in E by exact Hn. lia.
  - etransitivity; [apply IHk; [lia|]|cbn [String.length]; lia].
    apply Nat.div_lt_upper_bound; [lia|]. rewrite <- Nat.pow_succ_r'. exact Hn.
Qed.
Lemma dec_length k n : 1 <= k -> n < 10 ^ k -> String.length (dec n) <= k.
Proof. intros H1 H2. unfold dec. etransitivity; [apply (length_aux k); assumption|]. cbn. lia. Qed.
Lemma zeros_length k : String.length (zeros k) = k.
Proof. induction k; [reflexivity|]. cbn. now f_equal. Qed.
Lemma pad_length k n : 1 <= k -> n < 10 ^ k -> String.length (pad5 n) <= Nat.max 5 k.
Proof. intros H1 H2. unfold pad5. rewrite length_app, zeros_length. pose proof (dec_length k n H1 H2). lia. Qed.
Lemma pow_bound k n b : (N.of_nat n < b)%N -> (b <= 10 ^ N.of_nat k)%N -> n < 10 ^ k.
Proof. intros H1 H2. assert (E : N.of_nat (10 ^ k) = (10 ^ N.of_nat k)%N) by (rewrite Nat2N.inj_pow; reflexivity). lia. Qed.

(** *** What the files are after a series of outputs *)
Section Outputs.
  Context {D : Type} (o : opts) (f0 : fs D).
  Let s := o_solver o.

  Definition has_file (m : nat) : bool := o_mat_vars o && (Nat.ltb m (o_mats o) && Nat.ltb 0 (o_elems o m)).
  Definition num_files : nat := length (filter has_file (seq 0 (o_mats o))).
  Definition time_of (calls : list (call D)) (i : nat) : R := match nth_error calls i with Some c => c_time c | None => 0%R end.
  Definition base (n : nat) : fs D := if Nat.eqb s 0 && Nat.ltb 0 n then clear f0 else f0.

  Definition expected (calls : list (call D)) (k : key) : option (content D) :=
    let other := base (length calls) (path k) in
    match k with
    | KVtu s' p i =>
      if Nat.eqb s' s then
        match nth_error calls i with
        | Some c => match p with Fields => Some (Vtu (c_fields c)) | Mat m => if has_file m then Some (Vtu (c_mats c m)) else other end
        | None => other
        end
      else other
    | KVtm s' i => if Nat.eqb s' s && Nat.ltb i (length calls) then Some (Vtm (vtm_blocks o num_files (time_of calls) i)) else other
    | KPvd s' => if Nat.eqb s' s && Nat.ltb 0 (length calls)
                 then Some (Pvd (map (fun i => (time_of calls i, "data/" ++ vtm_name s i)) (seq 0 (length calls)))) else other
    end.

  Lemma write_mats_spec id (c : call D) f :
    exists f', write_mats o id c (f, 0) = (f', num_files) /\
      (forall k, f' (path k) = match k with
         | KVtu s' (Mat m) i => if Nat.eqb s' s && Nat.eqb i id && has_file m then Some (Vtu (c_mats c m)) else f (path k)
         | _ => f (path k) end) /\
      (forall x, (forall k, x <> path k) -> f' x = f x).
  Proof.
    unfold write_mats, num_files. destruct (o_mat_vars o) eqn:Ev.
    2:{ exists f. split; [|split].
        - unfold has_file. rewrite Ev. cbn [andb]. f_equal. induction (seq 0 (o_mats o)); [reflexivity|exact IHl].
        - intros [s' [|m] i|s' i|s']; try reflexivity. unfold has_file. rewrite Ev, !andb_false_r. reflexivity.
        - reflexivity. }
    assert (G : forall l n f, (forall m, In m l -> m < o_mats o) -> exists f',
      fold_left (fun '(f, n) m => if Nat.ltb 0 (o_elems o m) then (put f (data_path (vtu_name (o_solver o) (Mat m) id)) (Vtu (c_mats c m)), S n) else (f, n)) l (f, n)
        = (f', n + length (filter has_file l)) /\
      (forall k, f' (path k) = match k with
         | KVtu s' (Mat m) i => if Nat.eqb s' s && Nat.eqb i id && (existsb (Nat.eqb m) l && has_file m) then Some (Vtu (c_mats c m)) else f (path k)
         | _ => f (path k) end) /\
      (forall x, (forall k, x <> path k) -> f' x = f x)).
    { intros l. induction l as [|m l IH]; intros n g Hl.
      - exists g. cbn. split; [f_equal; lia|]. split; [|reflexivity]. intros [s' [|q] i|s' i|s']; try reflexivity. rewrite andb_false_r. reflexivity.
      - cbn [fold_left filter existsb].
        assert (Hm : has_file m = Nat.ltb 0 (o_elems o m)).
        { unfold has_file. rewrite Ev, (proj2 (Nat.ltb_lt _ _) (Hl m (or_introl eq_refl))). reflexivity. }
        rewrite Hm. destruct (Nat.ltb 0 (o_elems o m)) eqn:Em.
        + destruct (IH (S n) (put g (data_path (vtu_name (o_solver o) (Mat m) id)) (Vtu (c_mats c m)))) as (f' & E & P & Q).
          { intros q Hq. apply Hl. right; exact Hq. }
          exists f'. split; [rewrite E; f_equal; cbn [length]; lia|]. split.
          * intros k. rewrite P. change (data_path (vtu_name (o_solver o) (Mat m) id)) with (path (KVtu s (Mat m) id)).
            destruct k as [s' [|q] i|s' i|s']; rewrite put_path.
            -- destruct (key_dec _ _) as [e|e]; [discriminate e|reflexivity].
            -- destruct (key_dec _ _) as [e|e].
               ++ injection e as -> -> ->. rewrite !Nat.eqb_refl, Hm. cbn [andb orb]. destruct (existsb (Nat.eqb m) l); reflexivity.
               ++ destruct (Nat.eqb_spec q m) as [->|Hq]; [|reflexivity].
                  cbn [orb]. rewrite Hm. cbn [andb]. destruct (Nat.eqb_spec s' s) as [->|]; [|reflexivity]. destruct (Nat.eqb_spec i id) as [->|]; [|reflexivity]. congruence.
            -- destruct (key_dec _ _) as [e|e]; [discriminate e|reflexivity].
            -- destruct (key_dec _ _) as [e|e]; [discriminate e|reflexivity].
          * intros x Hx. rewrite Q by exact Hx. apply (put_other g (KVtu s (Mat m) id)). exact Hx.
        + destruct (IH n g) as (f' & E & P & Q). { intros q Hq. apply Hl. right; exact Hq. }
          exists f'. split; [exact E|]. split; [|exact Q]. intros k. rewrite P. destruct k as [s' [|q] i|s' i|s']; try reflexivity.
          destruct (Nat.eqb_spec q m) as [->|Hq]; [|reflexivity]. rewrite Hm, !andb_false_r. reflexivity. }
    destruct (G (seq 0 (o_mats o)) 0 f) as (f' & E & P & Q). { intros m Hm. apply in_seq in Hm. lia. }
    exists f'. split; [exact E|]. split; [|exact Q]. intros k. rewrite P. destruct k as [s' [|q] i|s' i|s']; try reflexivity.
    replace (existsb (Nat.eqb q) (seq 0 (o_mats o)) && has_file q) with (has_file q); [reflexivity|].
    unfold has_file. destruct (Nat.ltb_spec q (o_mats o)) as [Hq|Hq]; [|now rewrite !andb_false_r].
    replace (existsb (Nat.eqb q) (seq 0 (o_mats o))) with true; [reflexivity|]. symmetry. apply existsb_exists. exists q. split; [apply in_seq; lia|apply Nat.eqb_refl].
  Qed.

  Lemma write_vtm_spec n times id (f : fs D) :
    (forall k, write_vtm o n times id f (path k) = match k with
       | KVtm s' i => if Nat.eqb s' s && Nat.leb i id then Some (Vtm (vtm_blocks o n times i)) else f (path k)
       | _ => f (path k) end) /\
    (forall x, (forall k, x <> path k) -> write_vtm o n times id f x = f x).
  Proof.
    unfold write_vtm.
    assert (G : forall l (f : fs D), (forall k, fold_left (fun f file => put f (data_path (vtm_name (o_solver o) file)) (Vtm (vtm_blocks o n times file))) l f (path k) =
        match k with KVtm s' i => if Nat.eqb s' s && existsb (Nat.eqb i) l then Some (Vtm (vtm_blocks o n times i)) else f (path k) | _ => f (path k) end) /\
      (forall x, (forall k, x <> path k) -> fold_left (fun f file => put f (data_path (vtm_name (o_solver o) file)) (Vtm (vtm_blocks o n times file))) l f x = f x)).
    { intros l. induction l as [|j l IH]; intros g.
      - cbn. split; [|reflexivity]. intros [s' p i|s' i|s']; try reflexivity. rewrite andb_false_r. reflexivity.
      - cbn [fold_left existsb]. destruct (IH (put g (data_path (vtm_name (o_solver o) j)) (Vtm (vtm_blocks o n times j)))) as [P Q]. split.
        + intros k. rewrite P. change (data_path (vtm_name (o_solver o) j)) with (path (KVtm s j)). destruct k as [s' p i|s' i|s']; rewrite put_path.
          * destruct (key_dec _ _) as [e|e]; [discriminate e|reflexivity].
          * destruct (key_dec _ _) as [e|e].
            -- injection e as -> ->. rewrite !Nat.eqb_refl. cbn [andb orb]. destruct (existsb (Nat.eqb j) l); reflexivity.
            -- destruct (Nat.eqb_spec i j) as [->|Hj]; [|reflexivity]. cbn [orb]. destruct (Nat.eqb_spec s' s) as [->|]; [congruence|reflexivity].
          * destruct (key_dec _ _) as [e|e]; [discriminate e|reflexivity].
        + intros x Hx. rewrite Q by exact Hx. apply (put_other g (KVtm s j)). exact Hx. }
    destruct (G (seq 0 (S id)) f) as [P Q]. split; [|exact Q]. intros k. rewrite P. destruct k as [s' p i|s' i|s']; try reflexivity.
    replace (existsb (Nat.eqb i) (seq 0 (S id))) with (Nat.leb i id); [reflexivity|]. apply eq_true_iff_eq. rewrite Nat.leb_le, existsb_exists. split.
    - intros H. exists i. split; [apply in_seq; lia|apply Nat.eqb_refl].
    - intros (j & Hj & E). apply Nat.eqb_eq in E. apply in_seq in Hj. lia.
  Qed.

  Lemma vtm_blocks_ext n t t' i : t i = t' i -> vtm_blocks o n t i = vtm_blocks o n t' i.
  Proof. unfold vtm_blocks. intros ->. reflexivity. Qed.

  Lemma stale_path k : stale (path k) = true.
  Proof. destruct k; reflexivity. Qed.

  Theorem outputs_spec calls : (N.of_nat (length calls) <= 20000)%N ->
    exists w, outputs o calls f0 = Some w /\ w_id w = length calls /\ (forall i, w_times w i = time_of calls i) /\
      (forall k, w_fs w (path k) = expected calls k) /\
      (forall x, (forall k, x <> path k) -> w_fs w x = base (length calls) x).
  Proof.
    induction calls as [|c calls IH] using rev_ind; intros Hlen.
    - eexists. split; [reflexivity|]. cbn [w_id w_times w_fs length]. split; [reflexivity|]. split.
      + intros i. unfold time_of. destruct i; reflexivity.
      + split.
        * intros k. unfold expected, base. cbn [length Nat.ltb Nat.leb]. rewrite andb_false_r.
          destruct k as [s' p i|s' i|s']; [|rewrite andb_false_r; reflexivity|rewrite andb_false_r; reflexivity].
          destruct (Nat.eqb s' s); [|reflexivity]. destruct i; reflexivity.
        * intros x _. unfold base. cbn [length Nat.ltb Nat.leb]. rewrite andb_false_r. reflexivity.
    - rewrite app_length in *. cbn [length] in *. destruct IH as (w & Ew & Hid & Ht & Hk & Hx); [lia|].
      unfold outputs in *. rewrite for_each_app, Ew. cbn [obind for_each]. unfold write_mesh.
      set (f1 := if Nat.eqb (o_solver o) 0 && Nat.eqb (w_id w) 0 then clear (w_fs w) else w_fs w).
      set (f2 := put f1 (data_path (vtu_name (o_solver o) Fields (w_id w))) (Vtu (c_fields c))).
      destruct (write_mats_spec (w_id w) c f2) as (f3 & E3 & P3 & Q3). rewrite E3.
      rewrite (proj2 (N.ltb_lt _ _)) by (rewrite Hid; lia). cbn [obind].
      set (tm := fun i => if Nat.eqb i (w_id w) then c_time c else w_times w i).
      destruct (write_vtm_spec num_files tm (w_id w) f3) as [P4 Q4]. set (f4 := write_vtm o num_files tm (w_id w) f3) in *.
      eexists. split; [reflexivity|]. cbn [w_id w_times w_fs].
      split; [lia|].
      assert (Htm : forall i, tm i = time_of (calls ++ [c]) i).
      { intros i. unfold tm, time_of. rewrite Hid. destruct (Nat.eqb_spec i (length calls)) as [->|Hne].
        - rewrite nth_error_app2, Nat.sub_diag by lia. reflexivity.
        - rewrite Ht. unfold time_of. destruct (Nat.lt_ge_cases i (length calls)) as [Hl|Hl].
          + rewrite nth_error_app1 by exact Hl. reflexivity.
          + rewrite !(proj2 (nth_error_None _ _)); [reflexivity| |lia]. rewrite app_length. cbn [length]. lia. }
      split; [exact Htm|].
      (* the cleared file system *)
      assert (B1 : forall k, f1 (path k) = if Nat.eqb (length calls) 0 then base 1 (path k) else expected calls k).
      { intros k. unfold f1, base. rewrite Hid. fold s. cbn [Nat.ltb Nat.leb]. rewrite andb_true_r.
        destruct (Nat.eqb_spec s 0) as [Hs|Hs]; destruct (Nat.eqb_spec (length calls) 0) as [Hl|Hl]; cbn [andb]; try apply Hk.
        - unfold clear. rewrite stale_path. reflexivity.
        - rewrite Hk. destruct calls; [|discriminate Hl]. unfold expected, base. cbn [length Nat.ltb Nat.leb nth_error]. 
          destruct k as [s' p i|s' i|s']; rewrite ?andb_false_r; try reflexivity. destruct (Nat.eqb s' s); [destruct i|]; reflexivity. }
      assert (B2 : forall k, base (length calls + 1) (path k) = base 1 (path k)).
      { intros k. unfold base. rewrite (proj2 (Nat.ltb_lt 0 (length calls + 1))) by lia. reflexivity. }
      assert (B3 : forall k, 0 < length calls -> base (length calls) (path k) = base 1 (path k)).
      { intros k H. unfold base. rewrite (proj2 (Nat.ltb_lt _ _) H). reflexivity. }
      assert (Hnil : Nat.eqb (length calls) 0 = true -> calls = []).
      { intros H. apply Nat.eqb_eq in H. destruct calls; [reflexivity|discriminate]. }
      split.
      + intros k. unfold write_pvd. change (pvd_path (o_solver o)) with (path (KPvd s)). rewrite put_path.
        unfold expected. cbv zeta. rewrite app_length. cbn [length].
        destruct (key_dec k (KPvd s)) as [->|Hne].
        { rewrite Nat.eqb_refl, (proj2 (Nat.ltb_lt 0 (length calls + 1))) by lia. cbn [andb]. do 2 f_equal. rewrite Hid, Nat.add_1_r.
          apply map_ext. intros i. rewrite Htm. reflexivity. }
        rewrite P4. destruct k as [s' p i|s' i|s'].
        * rewrite P3. unfold f2. change (data_path (vtu_name (o_solver o) Fields (w_id w))) with (path (KVtu s Fields (w_id w))).
          rewrite put_path, B1, B2, Hid.
          destruct (Nat.eqb_spec s' s) as [->|Hs].
          2:{ assert (Hd : KVtu s' p i <> KVtu s Fields (length calls)) by congruence.
              destruct (key_dec _ _) as [e|_]; [contradiction|]. cbn [andb].
              destruct p; destruct (Nat.eqb_spec (length calls) 0) as [Hl|Hl]; try reflexivity; unfold expected; cbv zeta;
                rewrite (proj2 (Nat.eqb_neq _ _) Hs); apply B3; lia. }
          cbn [andb]. destruct (Nat.eq_dec i (length calls)) as [->|Hi].
          { rewrite nth_error_app2, Nat.sub_diag by lia. cbn [nth_error]. rewrite Nat.eqb_refl. destruct p as [|m].
            - destruct (key_dec _ _) as [_|e]; [reflexivity|congruence].
            - cbn [andb]. destruct (has_file m); [reflexivity|]. destruct (key_dec _ _) as [e|_]; [discriminate e|].
              destruct (Nat.eqb_spec (length calls) 0) as [Hl|Hl]; [reflexivity|]. unfold expected; cbv zeta. rewrite Nat.eqb_refl.
              rewrite (proj2 (nth_error_None _ _)) by lia. apply B3. lia. }
          assert (Hd : KVtu s p i <> KVtu s Fields (length calls)) by congruence.
          destruct (key_dec _ _) as [e|_]; [contradiction|]. rewrite (proj2 (Nat.eqb_neq _ _) Hi). cbn [andb].
          assert (En : nth_error (calls ++ [c]) i = nth_error calls i).
          { destruct (Nat.lt_ge_cases i (length calls)) as [Hl|Hl]; [apply nth_error_app1; exact Hl|].
            rewrite !(proj2 (nth_error_None _ _)); [reflexivity|lia|]. rewrite app_length. cbn [length]. lia. }
          rewrite En.
          destruct (Nat.eqb (length calls) 0) eqn:Hl.
          { rewrite (Hnil eq_refl). destruct p; destruct i; reflexivity. }
          apply Nat.eqb_neq in Hl. unfold expected; cbv zeta. rewrite Nat.eqb_refl, B3 by lia. destruct p; reflexivity.
        * rewrite P3. unfold f2. change (data_path (vtu_name (o_solver o) Fields (w_id w))) with (path (KVtu s Fields (w_id w))). rewrite put_path.
          destruct (key_dec _ _) as [e|_]; [discriminate e|]. rewrite B1, B2, Hid.
          destruct (Nat.eqb_spec s' s) as [->|Hs]; cbn [andb].
          -- replace (Nat.ltb i (length calls + 1)) with (Nat.leb i (length calls)).
             2:{ apply eq_true_iff_eq. rewrite Nat.leb_le, Nat.ltb_lt. lia. }
             destruct (Nat.leb_spec i (length calls)) as [Hi|Hi].
             ++ do 2 f_equal. apply vtm_blocks_ext, Htm.
             ++ destruct (Nat.eqb_spec (length calls) 0) as [Hl|Hl]; [reflexivity|]. unfold expected; cbv zeta. rewrite Nat.eqb_refl.
                rewrite (proj2 (Nat.ltb_ge _ _)) by lia. apply B3. lia.
          -- destruct (Nat.eqb_spec (length calls) 0) as [Hl|Hl]; [reflexivity|]. unfold expected; cbv zeta. rewrite (proj2 (Nat.eqb_neq _ _) Hs). apply B3. lia.
        * rewrite P3. unfold f2. change (data_path (vtu_name (o_solver o) Fields (w_id w))) with (path (KVtu s Fields (w_id w))). rewrite put_path.
          destruct (key_dec _ _) as [e|_]; [discriminate e|]. rewrite B1, B2.
          assert (Hs : s' <> s) by congruence. rewrite (proj2 (Nat.eqb_neq _ _) Hs). cbn [andb].
          destruct (Nat.eqb_spec (length calls) 0) as [Hl|Hl]; [reflexivity|]. unfold expected; cbv zeta. rewrite (proj2 (Nat.eqb_neq _ _) Hs). apply B3. lia.
      + intros x Hxx. unfold write_pvd. change (pvd_path (o_solver o)) with (path (KPvd s)). rewrite (put_other f4 (KPvd s)) by exact Hxx.
        unfold f4. rewrite Q4, Q3 by exact Hxx. unfold f2. rewrite (put_other f1 (KVtu s Fields (w_id w))) by exact Hxx.
        unfold f1, base. fold s. rewrite Hid. specialize (Hx x Hxx). unfold base in Hx.
        rewrite (proj2 (Nat.ltb_lt 0 (length calls + 1))) by lia. rewrite andb_true_r.
        destruct (Nat.eqb_spec s 0) as [Hs|Hs]; cbn [andb] in *; [|exact Hx].
        destruct (Nat.eqb_spec (length calls) 0) as [Hl|Hl]; cbn [andb].
        * unfold clear. rewrite Hx, Hl. reflexivity.
        * rewrite Hx, (proj2 (Nat.ltb_lt _ _)) by lia. reflexivity.
  Qed.
End Outputs.
