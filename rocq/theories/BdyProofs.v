(** Proofs about boundary sets and boundary conditions. *)
From Verif Require Import BaseReal BaseArr SghModel BdyModel BdySpec.
From Coq Require Import Reals Lra Permutation Sorted.
Open Scope R_scope.

Lemma rleb_true x y : rleb x y = true <-> x <= y.
Proof. unfold rleb. destruct (Rle_dec x y); split; intros; auto; try discriminate; contradiction. Qed.

(** ** Tagging *)
Definition the_surface (b : bsetup) : option surface := surface_of (bs_tag b) (bs_val b) (bs_ox b) (bs_oy b) (bs_oz b).

Lemma node_hit_spec m x b s n :
  the_surface b = Some s -> (surface_dims s <= bm_dims m)%nat ->
  exists h, node_hit m x b n = Some h /\ (h = true <-> on_surface s (bs_tol b) (x n)).
Proof.
  unfold the_surface, surface_of, node_hit, patch_coord. intros Hs Hd.
  destruct (bs_tag b) as [|[|[|[|[|k]]]]]; inversion Hs; subst s; cbn [surface_dims] in Hd; clear Hs;
  repeat match goal with
  | |- context [Nat.ltb ?i (bm_dims m)] =>
      replace (Nat.ltb i (bm_dims m)) with true by (symmetry; apply Nat.ltb_lt; lia)
  end; cbn [obind on_surface]; eexists; (split; [reflexivity|]); rewrite rleb_true; unfold Rsqr; reflexivity.
Qed.

Lemma count_hits m x b s p :
  the_surface b = Some s -> (surface_dims s <= bm_dims m)%nat ->
  forall ls c, exists c', for_each ls (fun l cnt =>
     obind (node_hit m x b (bm_nip m p l)) (fun h => Some (if h then S cnt else cnt))) c = Some c' /\
   (c' <= c + length ls)%nat /\
   (c' = (c + length ls)%nat <-> forall l, In l ls -> on_surface s (bs_tol b) (x (bm_nip m p l))).
Proof.
  intros Hs Hd. induction ls as [|l ls IH]; intros c.
  - exists c. cbn. split; [reflexivity|]. split; [lia|]. split; [intros _ ? []|lia].
  - cbn [for_each length]. destruct (@node_hit_spec m x b s (bm_nip m p l) Hs Hd) as (h & E & H). rewrite E. cbn [obind].
    destruct (IH (if h then S c else c)) as (c' & E' & Hle & Hiff). exists c'. split; [exact E'|].
    destruct h.
    + split; [lia|]. split.
      * intros Hc. assert (G : c' = (S c + length ls)%nat) by lia. rewrite Hiff in G.
        intros l' [<-|Hl]; [now apply H|now apply G].
      * intros A. assert (G : c' = (S c + length ls)%nat) by (apply Hiff; intros; apply A; now right). lia.
    + split; [lia|]. split; [lia|]. intros A. exfalso.
      assert (false = true) by (apply H, A; now left). discriminate.
Qed.

Lemma check_bdy_spec m x b s p :
  the_surface b = Some s -> (surface_dims s <= bm_dims m)%nat ->
  exists on, check_bdy m x b p = Some on /\
    (on = true <-> forall l, (l < bm_npp m)%nat -> on_surface s (bs_tol b) (x (bm_nip m p l))).
Proof.
  intros Hs Hd. unfold check_bdy, for_up.
  destruct (@count_hits m x b s p Hs Hd (seq 0 (bm_npp m)) 0%nat) as (c & E & Hle & Hiff).
  rewrite E. cbn [obind]. eexists; split; [reflexivity|]. rewrite Nat.eqb_eq, seq_length in *.
  rewrite Nat.add_0_l in Hiff. rewrite Hiff. split; intros A l Hl; apply A; [apply in_seq; lia|apply in_seq in Hl; lia].
Qed.

Lemma check_bdy_other_tag m x b p : (5 <= bs_tag b)%nat -> (0 < bm_npp m)%nat -> check_bdy m x b p = Some false.
Proof.
  intros Ht Hn. unfold check_bdy, for_up.
  assert (E : forall ls c, for_each ls (fun l cnt =>
     obind (node_hit m x b (bm_nip m p l)) (fun h => Some (if h then S cnt else cnt))) c = Some c).
  { induction ls as [|l ls IH]; intros c; [reflexivity|]. cbn [for_each].
    assert (N : node_hit m x b (bm_nip m p l) = Some false).
    { unfold node_hit. destruct (bs_tag b) as [|[|[|[|[|k]]]]]; try lia. reflexivity. }
    rewrite N. cbn [obind]. apply IH. }
  rewrite E. cbn [obind]. f_equal. apply Nat.eqb_neq. lia.
Qed.

Lemma check_bdy_2d_undefined m x b p :
  bm_dims m = 2%nat -> bs_tag b = 2%nat \/ bs_tag b = 4%nat -> (0 < bm_npp m)%nat -> check_bdy m x b p = None.
Proof.
  intros Hd Ht Hn. unfold check_bdy, for_up. destruct (bm_npp m) as [|k]; [lia|]. cbn [seq for_each].
  unfold node_hit, patch_coord. rewrite Hd. destruct Ht as [-> | ->]; reflexivity.
Qed.

Definition pushed_row (t : rows) (r v : nat) : rows := fun r' => if Nat.eqb r' r then t r ++ [v] else t r'.
Lemma row_push_some cap t r v : (length (t r) < cap)%nat -> row_push cap t r v = Some (pushed_row t r v).
Proof. intros H. unfold row_push. rewrite (proj2 (Nat.ltb_lt _ _) H). reflexivity. Qed.

Definition marked (k : marks) (set n : nat) (v : Z) : marks :=
  fun s i => if Nat.eqb s set && Nat.eqb i n then Some v else k s i.
Lemma mark_some m k set n v : (n < bm_nodes m)%nat -> mark m k set n v = Some (marked k set n v).
Proof. intros H. unfold mark. rewrite (proj2 (Nat.ltb_lt _ _) H). reflexivity. Qed.

(** Rows of a set: only that row changes. *)
Lemma tag_row m x b s set : forall ps t,
  the_surface b = Some s -> (surface_dims s <= bm_dims m)%nat ->
  (length (t set) + length ps <= length (bm_bdy m))%nat ->
  exists t' f, for_each ps (fun p t =>
      obind (check_bdy m x b p) (fun on => if on then row_push (length (bm_bdy m)) t set p else Some t)) t = Some t' /\
    (forall p, f p = true <-> forall l, (l < bm_npp m)%nat -> on_surface s (bs_tol b) (x (bm_nip m p l))) /\
    t' set = t set ++ filter f ps /\ (forall r, r <> set -> t' r = t r).
Proof.
  induction ps as [|p ps IH]; intros t Hs Hd Hlen.
  - exists t, (fun p => match check_bdy m x b p with Some on => on | None => false end). cbn. split; [reflexivity|].
    split; [|split; [now rewrite app_nil_r|reflexivity]].
    intros p. destruct (@check_bdy_spec m x b s p Hs Hd) as (on & E & H). now rewrite E.
  - cbn [for_each]. destruct (@check_bdy_spec m x b s p Hs Hd) as (on & E & H). rewrite E. cbn [obind length] in *.
    destruct on.
    + rewrite row_push_some by lia. cbn [obind]. set (t1 := pushed_row t set p).
      destruct (IH t1 Hs Hd) as (t' & f & E' & Hf & H1 & H2).
      { unfold t1, pushed_row. rewrite Nat.eqb_refl, app_length. cbn. lia. }
      exists t', f. split; [exact E'|]. split; [exact Hf|]. split.
      * rewrite H1. unfold t1, pushed_row. rewrite Nat.eqb_refl. cbn [filter]. rewrite (proj2 (Hf p)) by now apply H.
        now rewrite <- app_assoc.
      * intros r Hr. rewrite H2 by assumption. unfold t1, pushed_row. destruct (Nat.eqb_spec r set); [contradiction|reflexivity].
    + destruct (IH t Hs Hd) as (t' & f & E' & Hf & H1 & H2); [lia|].
      exists t', f. split; [exact E'|]. split; [exact Hf|]. split; [|exact H2].
      rewrite H1. cbn [filter]. destruct (f p) eqn:Fp; [|reflexivity].
      exfalso. assert (false = true) by (apply H, Hf, Fp). discriminate.
Qed.

Lemma tag_bdys_spec m x setup (surf : nat -> surface) order :
  NoDup order ->
  (forall set, In set order -> the_surface (setup set) = Some (surf set) /\ (surface_dims (surf set) <= bm_dims m)%nat) ->
  exists t, tag_bdys m x setup order = Some t /\
    (forall set, In set order -> exists f,
       (forall p, f p = true <->
          forall l, (l < bm_npp m)%nat -> on_surface (surf set) (bs_tol (setup set)) (x (bm_nip m p l))) /\
       t set = filter f (bm_bdy m)) /\
    (forall set, ~ In set order -> t set = []).
Proof.
  intros Hnd Hs. unfold tag_bdys.
  enough (G : forall ord (t0 : rows), NoDup ord -> (forall set, In set ord -> In set order) ->
    (forall set, In set ord -> t0 set = []) ->
    exists t, for_each ord (fun set t =>
      for_each (bm_bdy m) (fun p t =>
      obind (check_bdy m x (setup set) p) (fun on =>
        if on then row_push (length (bm_bdy m)) t set p else Some t)) t) t0 = Some t /\
    (forall set, In set ord -> exists f,
       (forall p, f p = true <->
          forall l, (l < bm_npp m)%nat -> on_surface (surf set) (bs_tol (setup set)) (x (bm_nip m p l))) /\
       t set = filter f (bm_bdy m)) /\
    (forall set, ~ In set ord -> t set = t0 set)).
  { destruct (G order (fun _ => []) Hnd (fun _ H => H) (fun _ _ => eq_refl)) as (t & E & A & B). exists t. auto. }
  induction ord as [|set ord IH]; intros t0 Hn Hin H0.
  - exists t0. cbn. repeat split; auto. intros ? [].
  - cbn [for_each]. inversion Hn as [|? ? Hni Hn']; subst.
    destruct (Hs set) as [Hss Hsd]; [apply Hin; now left|].
    destruct (@tag_row m x (setup set) (surf set) set (bm_bdy m) t0 Hss Hsd) as (t1 & f & E & Hf & H1 & H2).
    { rewrite H0 by now left. cbn. lia. }
    rewrite E. cbn [obind].
    destruct (IH t1 Hn') as (t & E' & A & B).
    { intros; apply Hin; now right. }
    { intros s Hsi. rewrite H2; [apply H0; now right|]. intros ->. contradiction. }
    exists t. split; [exact E'|]. split.
    + intros s [<-|Hsi]; [|now apply A]. exists f. split; [exact Hf|].
      rewrite B by assumption. rewrite H1, H0 by now left. reflexivity.
    + intros s Hsn. rewrite B by (intros X; apply Hsn; now right). apply H2. intros ->. apply Hsn. now left.
Qed.

(** ** Node sets *)
Definition patch_nodes (m : bmesh) (p : nat) : list nat := map (bm_nip m p) (seq 0 (bm_npp m)).

Lemma mark_pass m set : forall ns k,
  (forall n, In n ns -> (n < bm_nodes m)%nat) ->
  exists k', for_each ns (fun n k => mark m k set n (-1)%Z) k = Some k' /\
    (forall n, In n ns -> k' set n = Some (-1)%Z) /\
    (forall s n, s <> set \/ ~ In n ns -> k' s n = k s n).
Proof.
  induction ns as [|n ns IH]; intros k H.
  - exists k. cbn. repeat split; auto. intros ? [].
  - cbn [for_each]. rewrite mark_some by (apply H; now left). cbn [obind].
    set (k1 := marked k set n (-1)%Z).
    destruct (IH k1) as (k' & E & A & B); [intros; apply H; now right|].
    exists k'. split; [exact E|]. split.
    + intros i [<-|Hi]; [|now apply A].
      destruct (in_dec Nat.eq_dec n ns) as [Hi|Hi]; [now apply A|].
      rewrite B by now right. unfold k1, marked. now rewrite !Nat.eqb_refl.
    + intros s i Hsi. rewrite B.
      * unfold k1, marked. destruct (Nat.eqb_spec s set) as [->|]; [|reflexivity].
        destruct (Nat.eqb_spec i n) as [->|]; [|reflexivity].
        exfalso. destruct Hsi as [X|X]; [now apply X|apply X; now left].
      * destruct Hsi as [X|X]; [now left|right; intros Y; apply X; now right].
Qed.

Lemma for_each_map {A B S} (g : A -> B) (l : list A) (body : B -> S -> option S) s :
  for_each (map g l) body s = for_each l (fun a => body (g a)) s.
Proof. revert s. induction l as [|a l IH]; intros s; [reflexivity|]. cbn. destruct (body (g a) s); cbn; auto. Qed.

Lemma for_each_flat_map {A B S} (g : A -> list B) (l : list A) (body : B -> S -> option S) s :
  for_each (flat_map g l) body s = for_each l (fun a => for_each (g a) body) s.
Proof.
  revert s. induction l as [|a l IH]; intros s; [reflexivity|]. cbn [flat_map for_each]. rewrite for_each_app.
  destruct (for_each (g a) body s); cbn; auto.
Qed.

Lemma save_pass m set cap : forall ns seen k (t : rows),
  (forall n, In n ns -> (n < bm_nodes m)%nat) ->
  (forall n, In n ns -> ~ In n seen -> k set n = Some (-1)%Z) ->
  (forall n, In n ns -> In n seen -> k set n = Some (Z.of_nat n)) ->
  (length (t set) + length ns <= cap)%nat ->
  exists k' t', for_each ns (fun n '(k, t) =>
      obind (k set n) (fun v =>
        if Z.eqb v (-1)
        then obind (mark m k set n (Z.of_nat n)) (fun k' =>
             obind (row_push cap t set n) (fun t' => Some (k', t')))
        else Some (k, t))) (k, t) = Some (k', t') /\
    t' set = t set ++ first_seen seen ns /\ (forall r, r <> set -> t' r = t r) /\
    (forall s n, s <> set -> k' s n = k s n).
Proof.
  induction ns as [|n ns IH]; intros seen k t Hb H1 H2 Hc.
  - exists k, t. cbn. rewrite app_nil_r. auto.
  - cbn [for_each first_seen length] in *. destruct (in_dec Nat.eq_dec n seen) as [Hi|Hi].
    + rewrite (H2 n (or_introl eq_refl) Hi). cbn [obind].
      destruct (Z.eqb_spec (Z.of_nat n) (-1)); [lia|]. cbn [obind].
      destruct (IH seen k t) as (k' & t' & E & A & B & C).
      * intros; apply Hb; now right.
      * intros i Hin Hn. apply H1; [now right|assumption].
      * intros i Hin Hn. apply H2; [now right|assumption].
      * lia.
      * exists k', t'. auto.
    + rewrite (H1 n (or_introl eq_refl) Hi). cbn [obind]. change (Z.eqb (-1) (-1)) with true. cbn match.
      rewrite mark_some by (apply Hb; now left). cbn [obind].
      rewrite row_push_some by lia. cbn [obind].
      set (k1 := marked k set n (Z.of_nat n)). set (t1 := pushed_row t set n).
      destruct (IH (n :: seen) k1 t1) as (k' & t' & E & A & B & C).
      * intros; apply Hb; now right.
      * intros i Hin Hn. unfold k1, marked. rewrite Nat.eqb_refl. destruct (Nat.eqb_spec i n) as [->|Hne].
        -- exfalso; apply Hn; now left.
        -- cbn. apply H1; [now right|]. intros X; apply Hn; now right.
      * intros i Hin Hn. unfold k1, marked. rewrite Nat.eqb_refl. destruct (Nat.eqb_spec i n) as [->|Hne]; [reflexivity|].
        cbn. apply H2; [now right|]. destruct Hn as [->|Hn]; [contradiction|exact Hn].
      * unfold t1, pushed_row. rewrite Nat.eqb_refl, app_length. cbn. lia.
      * exists k', t'. split; [exact E|]. split; [|split].
        -- rewrite A. unfold t1, pushed_row. rewrite Nat.eqb_refl, <- app_assoc. reflexivity.
        -- intros r Hr. rewrite B by assumption. unfold t1, pushed_row. destruct (Nat.eqb_spec r set); [contradiction|reflexivity].
        -- intros s i Hs. rewrite C by assumption. unfold k1, marked. destruct (Nat.eqb_spec s set); [contradiction|reflexivity].
Qed.

Lemma flat_map_const_len {A B} (g : A -> list B) c l : (forall a, length (g a) = c) -> length (flat_map g l) = (length l * c)%nat.
Proof. intros H. induction l as [|a l IH]; [reflexivity|]. cbn. rewrite app_length, H, IH. reflexivity. Qed.

Lemma build_node_sets_spec m ps order :
  NoDup order ->
  (forall set, In set order -> (length (ps set) <= length (bm_bdy m))%nat) ->
  (forall set p l, In set order -> In p (ps set) -> (l < bm_npp m)%nat -> (bm_nip m p l < bm_nodes m)%nat) ->
  exists t, build_node_sets m ps order = Some t /\
    (forall set, In set order -> t set = first_seen [] (flat_map (patch_nodes m) (ps set))) /\
    (forall set, ~ In set order -> t set = []).
Proof.
  intros Hnd Hlen Hb. unfold build_node_sets.
  enough (G : forall ord k0 (t0 : rows), NoDup ord -> (forall set, In set ord -> In set order) ->
    (forall set, In set ord -> t0 set = []) ->
    exists k t, for_each ord (fun set '(k, t) =>
       obind (mark_set m (ps set) set k) (fun k' => save_set m (ps set) set (k', t))) (k0, t0) = Some (k, t) /\
    (forall set, In set ord -> t set = first_seen [] (flat_map (patch_nodes m) (ps set))) /\
    (forall set, ~ In set ord -> t set = t0 set)).
  { destruct (G order (fun _ _ => None) (fun _ => []) Hnd (fun _ H => H) (fun _ _ => eq_refl)) as (k & t & E & A & B).
    exists t. split; [|auto]. etransitivity; [apply (f_equal (option_map snd)); exact E|reflexivity]. }
  induction ord as [|set ord IH]; intros k0 t0 Hn Hin H0.
  - exists k0, t0. cbn. repeat split; auto. intros ? [].
  - cbn [for_each]. inversion Hn as [|? ? Hni Hn']; subst.
    assert (Hso : In set order) by (apply Hin; now left).
    assert (Hbn : forall n, In n (flat_map (patch_nodes m) (ps set)) -> (n < bm_nodes m)%nat).
    { intros n Hi. apply in_flat_map in Hi as (p & Hp & Hi). unfold patch_nodes in Hi.
      apply in_map_iff in Hi as (l & <- & Hl). apply in_seq in Hl. apply (Hb set); auto; lia. }
    destruct (@mark_pass m set (flat_map (patch_nodes m) (ps set)) k0 Hbn) as (k1 & E1 & A1 & B1).
    assert (EM : mark_set m (ps set) set k0 = Some k1).
    { rewrite <- E1. unfold mark_set, for_up. rewrite for_each_flat_map. apply for_each_ext. intros p k _.
      unfold patch_nodes. now rewrite for_each_map. }
    rewrite EM. cbn [obind].
    destruct (@save_pass m set (length (bm_bdy m) * bm_npp m) (flat_map (patch_nodes m) (ps set)) [] k1 t0 Hbn)
      as (k2 & t2 & E2 & A2 & B2 & C2).
    { intros n Hi _. now apply A1. }
    { intros n _ []. }
    { rewrite H0 by now left. cbn. rewrite (@flat_map_const_len _ _ _ (bm_npp m)).
      - apply Nat.mul_le_mono_r. now apply Hlen.
      - intros a. unfold patch_nodes. now rewrite map_length, seq_length. }
    assert (ES : save_set m (ps set) set (k1, t0) = Some (k2, t2)).
    { rewrite <- E2. unfold save_set, for_up. rewrite for_each_flat_map. apply for_each_ext. intros p k _.
      unfold patch_nodes. rewrite for_each_map. reflexivity. }
    rewrite ES.
    destruct (IH k2 t2 Hn') as (k & t & E & A & B).
    { intros; apply Hin; now right. }
    { intros s Hsi. rewrite B2; [apply H0; now right|]. intros ->. contradiction. }
    exists k, t. split; [exact E|]. split.
    + intros s [<-|Hsi]; [|now apply A]. rewrite B by assumption. rewrite A2, H0 by now left. reflexivity.
    + intros s Hsn. rewrite B by (intros X; apply Hsn; now right). apply B2. intros ->. apply Hsn. now left.
Qed.

Lemma first_seen_in l : forall seen x, In x (first_seen seen l) <-> In x l /\ ~ In x seen.
Proof.
  induction l as [|a l IH]; intros seen x; cbn [first_seen].
  - cbn. tauto.
  - destruct (in_dec Nat.eq_dec a seen) as [Hi|Hi].
    + rewrite IH. cbn. split; [tauto|]. intros [[->|H] Hn]; tauto.
    + cbn [In]. rewrite IH. cbn [In]. split.
      * intros [->|[H Hn]]; [tauto|]. tauto.
      * intros [[->|H] Hn]; [tauto|]. destruct (Nat.eq_dec a x); [tauto|]. right. tauto.
Qed.

Lemma first_seen_nodup l : forall seen, NoDup (first_seen seen l).
Proof.
  induction l as [|a l IH]; intros seen; cbn [first_seen]; [constructor|].
  destruct (in_dec Nat.eq_dec a seen); [apply IH|]. constructor; [|apply IH].
  rewrite first_seen_in. cbn. tauto.
Qed.

(** From the mesh to the node sets. *)
Lemma boundary_sets m x setup (surf : nat -> surface) order1 order2 :
  NoDup order1 -> Permutation order1 order2 ->
  (forall set, In set order1 -> the_surface (setup set) = Some (surf set) /\ (surface_dims (surf set) <= bm_dims m)%nat) ->
  (forall p l, In p (bm_bdy m) -> (l < bm_npp m)%nat -> (bm_nip m p l < bm_nodes m)%nat) ->
  exists ps ns, tag_bdys m x setup order1 = Some ps /\ build_node_sets m ps order2 = Some ns /\
    forall set, In set order1 ->
      NoDup (ns set) /\
      forall n, In n (ns set) <->
        exists p l, In p (bm_bdy m) /\ (l < bm_npp m)%nat /\ bm_nip m p l = n /\
          (forall l', (l' < bm_npp m)%nat -> on_surface (surf set) (bs_tol (setup set)) (x (bm_nip m p l'))).
Proof.
  intros Hnd Hp Hs Hb.
  destruct (@tag_bdys_spec m x setup surf order1 Hnd Hs) as (ps & E1 & A1 & _).
  assert (Hin : forall set, In set order2 -> In set order1) by (intros; eapply Permutation_in; [symmetry|]; eassumption).
  destruct (@build_node_sets_spec m ps order2) as (ns & E2 & A2 & _).
  - eapply Permutation_NoDup; eassumption.
  - intros set H. destruct (A1 set (Hin _ H)) as (f & _ & ->).
    generalize (bm_bdy m). intros l; induction l as [|a l IH]; [cbn; lia|]. cbn. destruct (f a); cbn; lia.
  - intros set p l H Hi Hl. destruct (A1 set (Hin _ H)) as (f & _ & E). rewrite E in Hi.
    apply filter_In in Hi as [Hi _]. now apply Hb.
  - exists ps, ns. split; [exact E1|]. split; [exact E2|]. intros set Hset.
    assert (H2 : In set order2) by (eapply Permutation_in; eassumption).
    rewrite (A2 set H2). split; [apply first_seen_nodup|]. intros n.
    destruct (A1 set Hset) as (f & Hf & E). rewrite first_seen_in, E. split.
    + intros [Hi _]. apply in_flat_map in Hi as (p & Hi & Hn). apply filter_In in Hi as [Hi Hfp].
      unfold patch_nodes in Hn. apply in_map_iff in Hn as (l & El & Hl). apply in_seq in Hl.
      exists p, l. repeat split; auto; try lia. now apply Hf.
    + intros (p & l & Hpb & Hl & En & Hall). split; [|intros []].
      apply in_flat_map. exists p. split; [apply filter_In; split; [assumption|now apply Hf]|].
      unfold patch_nodes. apply in_map_iff. exists l. split; [assumption|]. apply in_seq. lia.
Qed.

(** ** Velocity conditions *)

Lemma vset_same v n d a : vset v n d a n d = a.
Proof. unfold vset, fupd2. now rewrite !Nat.eqb_refl. Qed.
Lemma vset_other v n d a n' d' : n' <> n \/ d' <> d -> vset v n d a n' d' = v n' d'.
Proof.
  unfold vset, fupd2. intros [H|H].
  - destruct (Nat.eqb_spec n' n); [contradiction|reflexivity].
  - destruct (Nat.eqb_spec d' d); [contradiction|]. now rewrite andb_false_r.
Qed.

(** A per-component update of one node. *)
Lemma comp_loop dims n (g : nat -> R -> option R) (h : nat -> R -> R) v :
  (forall d a, (d < dims)%nat -> g d a = Some (h d a)) ->
  exists v', for_up 0 dims (fun d v => obind (g d (v n d)) (fun a => Some (vset v n d a))) v = Some v' /\
    (forall d, (d < dims)%nat -> v' n d = h d (v n d)) /\
    (forall n' d, n' <> n \/ (dims <= d)%nat -> v' n' d = v n' d).
Proof.
  intros Hg. unfold for_up.
  enough (G : forall k lo v, (lo + k = dims)%nat ->
    exists v', for_each (seq lo k) (fun d v => obind (g d (v n d)) (fun a => Some (vset v n d a))) v = Some v' /\
    (forall d, (lo <= d < lo + k)%nat -> v' n d = h d (v n d)) /\
    (forall n' d, n' <> n \/ ~ (lo <= d < lo + k)%nat -> v' n' d = v n' d)).
  { destruct (G dims 0%nat v eq_refl) as (v' & E & A & B). exists v'. split; [exact E|]. split.
    - intros d Hd. apply A. lia.
    - intros n' d Hd. apply B. lia. }
  clear v. induction k as [|k IH]; intros lo v Hk.
  - exists v. cbn. repeat split; auto. intros; lia.
  - cbn [seq for_each]. rewrite Hg by lia. cbn [obind].
    destruct (IH (S lo) (vset v n lo (h lo (v n lo)))) as (v' & E & A & B); [lia|].
    exists v'. split; [exact E|]. split.
    + intros d Hd. destruct (Nat.eq_dec d lo) as [->|Hne].
      * rewrite B by (right; lia). apply vset_same.
      * rewrite A by lia. rewrite vset_other by now right. reflexivity.
    + intros n' d Hd. rewrite B by (destruct Hd; [now left|right; lia]). apply vset_other.
      destruct Hd; [now left|]. right. lia.
Qed.

Lemma dir_mag_some dims vars : (dims <= length vars)%nat ->
  dir_mag dims vars = Some (sumn dims (fun d => nth d vars 0 * nth d vars 0)).
Proof.
  intros H. unfold dir_mag, for_up.
  enough (G : forall k, (k <= dims)%nat -> for_each (seq 0 k) (fun d s => obind (var vars d) (fun c => Some (s + c * c))) 0 =
     Some (sumn k (fun d => nth d vars 0 * nth d vars 0))) by now apply G.
  induction k as [|k IH]; intros Hk; [reflexivity|].
  rewrite seq_S, for_each_app, IH by lia. cbn [obind for_each]. rewrite Nat.add_0_l. unfold var.
  rewrite (nth_error_nth' vars 0) by lia. cbn [obind]. f_equal.
Qed.

Lemma var_some vars d : (d < length vars)%nat -> var vars d = Some (nth d vars 0).
Proof. intros. unfold var. now apply nth_error_nth'. Qed.

Lemma cdiv_some a b : b <> 0 -> cdiv a b = Some (a / b).
Proof. intros. unfold cdiv. destruct (Req_EM_T b 0); [contradiction|reflexivity]. Qed.

(** What each condition does to one node's velocity, component by component. *)
Definition dvec (vars : list R) (d : nat) : R := nth d vars 0.

Definition bc_defined (dims : nat) (b : vel_bc) (vars : list R) : Prop :=
  match b with
  | ZeroVel => True
  | ConstantVel => (dims <= length vars)%nat
  | ReflectedVel => (dims <= length vars)%nat /\ exists d, (d < dims)%nat /\ dvec vars d <> 0
  | TimeVaryingVel => (7 <= length vars)%nat /\ (dims <= length vars)%nat /\ exists d, (d < dims)%nat /\ dvec vars d <> 0
  | PistonVel => (8 <= length vars)%nat /\ (dims <= length vars)%nat /\ exists d, (d < dims)%nat /\ dvec vars d <> 0
  end.

Definition norm2 (dims : nat) (vars : list R) : R := sumn dims (fun d => dvec vars d * dvec vars d).

Definition pushed (dims : nat) (vars : list R) (vel : R) (d : nat) (a : R) : R :=
  a - a * dvec vars d / sqrt (norm2 dims vars) + vel * dvec vars d / sqrt (norm2 dims vars).

Definition bc_component (dims : nat) (b : vel_bc) (vars : list R) (t : R) (d : nat) (a : R) : R :=
  match b with
  | ZeroVel => 0
  | ConstantVel => dvec vars d
  | ReflectedVel => a - a * dvec vars d / norm2 dims vars
  | TimeVaryingVel =>
      if rleb (dvec vars 5) t && rleb t (dvec vars 6)
      then pushed dims vars (dvec vars 3 * exp (- dvec vars 4 * (t - dvec vars 5))) d a else a
  | PistonVel =>
      if rleb (dvec vars 6) t && rleb t (dvec vars 7)
      then pushed dims vars (dvec vars 3 + dvec vars 4 * (t - dvec vars 6)
                             + 0.5 * dvec vars 5 * (t - dvec vars 6) * (t - dvec vars 6)) d a else a
  end.

Lemma norm2_pos dims vars : (exists d, (d < dims)%nat /\ dvec vars d <> 0) -> 0 < norm2 dims vars.
Proof.
  intros (d & Hd & Hn). unfold norm2. revert Hd. induction dims as [|k IH]; intros Hd; [lia|]. cbn [sumn].
  assert (0 <= sumn k (fun d0 => dvec vars d0 * dvec vars d0)).
  { apply sumn_nonneg. intros. apply Rle_0_sqr. }
  assert (0 <= dvec vars k * dvec vars k) by apply Rle_0_sqr.
  destruct (Nat.eq_dec d k) as [->|].
  - assert (0 < dvec vars k * dvec vars k) by (apply Rsqr_pos_lt; exact Hn). lra.
  - assert (0 < sumn k (fun d0 => dvec vars d0 * dvec vars d0)) by (apply IH; lia). lra.
Qed.

Lemma push_velocity_spec dims vars vel n v :
  (dims <= length vars)%nat -> (exists d, (d < dims)%nat /\ dvec vars d <> 0) ->
  exists v', push_velocity dims vars vel n v = Some v' /\
    (forall d, (d < dims)%nat -> v' n d = pushed dims vars vel d (v n d)) /\
    (forall n' d, n' <> n \/ (dims <= d)%nat -> v' n' d = v n' d).
Proof.
  intros Hl Hd. unfold push_velocity. rewrite dir_mag_some by assumption. cbn [obind].
  change (sumn dims (fun d => nth d vars 0 * nth d vars 0)) with (norm2 dims vars).
  assert (Hq : sqrt (norm2 dims vars) <> 0).
  { apply Rgt_not_eq, sqrt_lt_R0, norm2_pos, Hd. }
  assert (G : exists v', for_up 0 dims (fun d v => obind
            (obind (var vars d) (fun c => obind (cdiv (v n d * c) (sqrt (norm2 dims vars))) (fun q =>
              obind (cdiv (vel * c) (sqrt (norm2 dims vars))) (fun q' => Some (v n d - q + q')))))
            (fun a => Some (vset v n d a))) v = Some v' /\
     (forall d, (d < dims)%nat -> v' n d = pushed dims vars vel d (v n d)) /\
     (forall n' d, n' <> n \/ (dims <= d)%nat -> v' n' d = v n' d)).
  { apply (@comp_loop dims n (fun d a => obind (var vars d) (fun c => obind (cdiv (a * c) (sqrt (norm2 dims vars))) (fun q =>
              obind (cdiv (vel * c) (sqrt (norm2 dims vars))) (fun q' => Some (a - q + q'))))) (pushed dims vars vel) v).
    intros d a Hdd. rewrite var_some by lia. cbn [obind]. rewrite !cdiv_some by assumption. reflexivity. }
  destruct G as (v' & E & A & B).
  assert (G2 : exists v2, for_up 0 dims (fun d v => obind (var vars d) (fun c =>
      obind (cdiv (v n d * c) (sqrt (norm2 dims vars))) (fun q =>
      let v' := vset v n d (v n d - q) in
      obind (cdiv (vel * c) (sqrt (norm2 dims vars))) (fun q' => Some (vset v' n d (v' n d + q')))))) v = Some v2 /\
      forall i d, v2 i d = v' i d).
  { clear A B. revert E. unfold for_up.
    enough (G : forall ls, (forall d, In d ls -> (d < dims)%nat) -> forall va vb v1, (forall i d, va i d = vb i d) ->
      for_each ls (fun d v => obind
            (obind (var vars d) (fun c => obind (cdiv (v n d * c) (sqrt (norm2 dims vars))) (fun q =>
              obind (cdiv (vel * c) (sqrt (norm2 dims vars))) (fun q' => Some (v n d - q + q')))))
            (fun a => Some (vset v n d a))) va = Some v1 ->
      exists v2, for_each ls (fun d v => obind (var vars d) (fun c =>
      obind (cdiv (v n d * c) (sqrt (norm2 dims vars))) (fun q =>
      let v' := vset v n d (v n d - q) in
      obind (cdiv (vel * c) (sqrt (norm2 dims vars))) (fun q' => Some (vset v' n d (v' n d + q')))))) vb = Some v2 /\
      forall i d, v2 i d = v1 i d).
    { intros E. apply (G (seq 0 dims)) with (va := v); auto. intros d Hi. apply in_seq in Hi. lia. }
    induction ls as [|d ls IH]; intros Hls va vb v1 Hab.
    - cbn. intros E. injection E as <-. exists vb. split; auto.
    - cbn [for_each]. rewrite var_some by (specialize (Hls d (or_introl eq_refl)); lia). cbn [obind].
      rewrite !cdiv_some by assumption. cbn [obind].
      intros E. eapply IH; [intros; apply Hls; now right| |exact E].
      intros i d'. rewrite vset_same. unfold vset, fupd2.
      destruct (Nat.eqb i n && Nat.eqb d' d) eqn:Q; rewrite ?Hab; reflexivity. }
  destruct G2 as (v2 & E2 & Q). exists v2. split; [exact E2|]. split.
  - intros d Hdd. rewrite Q. now apply A.
  - intros n' d Hn. rewrite Q. now apply B.
Qed.

Lemma velocity_fn_spec dims b vars t n v : bc_defined dims b vars ->
  exists v', velocity_fn dims b vars t n v = Some v' /\
    (forall d, (d < dims)%nat -> v' n d = bc_component dims b vars t d (v n d)) /\
    (forall n' d, n' <> n \/ (dims <= d)%nat -> v' n' d = v n' d).
Proof.
  destruct b; cbn [bc_defined velocity_fn bc_component]; intros H.
  - apply (@comp_loop dims n (fun _ _ => Some 0) (fun _ _ => 0) v). reflexivity.
  - unfold constant_velocity.
    apply (@comp_loop dims n (fun d _ => var vars d) (fun d _ => dvec vars d) v).
    intros d a Hd. now apply var_some; lia.
  - destruct H as [Hl Hd]. unfold reflected_velocity. rewrite dir_mag_some by assumption. cbn [obind].
    change (sumn dims (fun d => nth d vars 0 * nth d vars 0)) with (norm2 dims vars).
    assert (Hq : norm2 dims vars <> 0) by (apply Rgt_not_eq, norm2_pos, Hd).
    destruct (@comp_loop dims n (fun d a => obind (var vars d) (fun c => obind (cdiv (a * c) (norm2 dims vars)) (fun q => Some (a - q))))
      (fun d a => a - a * dvec vars d / norm2 dims vars) v) as (v' & E & A & B).
    { intros d a Hdd. rewrite var_some by lia. cbn [obind]. rewrite cdiv_some by assumption. reflexivity. }
    exists v'. split; [|auto]. etransitivity; [|exact E]. unfold for_up. apply for_each_ext.
    intros d w Hi. apply in_seq in Hi. rewrite var_some by lia. cbn [obind]. rewrite cdiv_some by assumption. reflexivity.
  - destruct H as (H7 & Hl & Hd). unfold time_varying_velocity. rewrite !var_some by lia. cbn [obind].
    fold (dvec vars 3) (dvec vars 4) (dvec vars 5) (dvec vars 6).
    destruct (rleb (dvec vars 5) t && rleb t (dvec vars 6)); [now apply push_velocity_spec|].
    exists v. repeat split; auto.
  - destruct H as (H7 & Hl & Hd). unfold piston_velocity. rewrite !var_some by lia. cbn [obind].
    fold (dvec vars 3) (dvec vars 4) (dvec vars 5) (dvec vars 6) (dvec vars 7).
    destruct (rleb (dvec vars 6) t && rleb t (dvec vars 7)); [now apply push_velocity_spec|].
    exists v. repeat split; auto.
Qed.

(** One set, its nodes visited in any order. *)
Lemma vel_set_loop dims b vars t : bc_defined dims b vars -> forall nodes v, NoDup nodes ->
  exists v', for_each nodes (fun n v => velocity_fn dims b vars t n v) v = Some v' /\
    (forall n d, In n nodes -> (d < dims)%nat -> v' n d = bc_component dims b vars t d (v n d)) /\
    (forall n d, ~ In n nodes \/ (dims <= d)%nat -> v' n d = v n d).
Proof.
  intros Hb. induction nodes as [|n nodes IH]; intros v Hn.
  - exists v. cbn. repeat split; auto. intros ? ? [].
  - inversion Hn as [|? ? Hni Hn']; subst. cbn [for_each].
    destruct (@velocity_fn_spec dims b vars t n v Hb) as (v1 & E & A & B). rewrite E. cbn [obind].
    destruct (IH v1 Hn') as (v' & E' & A' & B'). exists v'. split; [exact E'|]. split.
    + intros i d [<-|Hi] Hd.
      * rewrite B' by now left. now apply A.
      * rewrite A' by assumption. rewrite B; [reflexivity|]. left. intros ->. contradiction.
    + intros i d Hi. rewrite B' by (destruct Hi as [Hi|]; [left; intros X; apply Hi; now right|now right]).
      apply B. destruct Hi as [Hi|]; [left; intros ->; apply Hi; now left|now right].
Qed.

Definition set_value dims t (n d : nat) (a : R) (s : vel_set) : R :=
  if in_dec Nat.eq_dec n (vs_nodes s) then bc_component dims (vs_bc s) (vs_vars s) t d a else a.

(** All sets, in order: each node sees the conditions of the sets that contain it, later sets after earlier ones. *)
Lemma boundary_velocity_spec dims t : forall sets v,
  (forall s, In s sets -> bc_defined dims (vs_bc s) (vs_vars s) /\ NoDup (vs_nodes s)) ->
  exists v', boundary_velocity dims sets t v = Some v' /\
    (forall n d, (d < dims)%nat -> v' n d = fold_left (set_value dims t n d) sets (v n d)) /\
    (forall n d, (dims <= d)%nat -> v' n d = v n d).
Proof.
  unfold boundary_velocity. induction sets as [|s sets IH]; intros v H.
  - exists v. cbn. auto.
  - cbn [for_each fold_left]. destruct (H s (or_introl eq_refl)) as [Hb Hn].
    destruct (@vel_set_loop dims _ _ t Hb (vs_nodes s) v Hn) as (v1 & E & A & B). rewrite E. cbn [obind].
    destruct (IH v1) as (v' & E' & A' & B'); [intros; apply H; now right|].
    exists v'. split; [exact E'|]. split.
    + intros n d Hd. rewrite A' by assumption. f_equal. unfold set_value.
      destruct (in_dec Nat.eq_dec n (vs_nodes s)) as [Hi|Hi]; [now apply A|apply B; now left].
    + intros n d Hd. rewrite B' by assumption. apply B. now right.
Qed.

(** ** When is the reflected condition right? *)
Lemma norm2_3 vars : norm2 3 vars = dot3 (dvec vars) (dvec vars).
Proof. unfold norm2, dot3. cbn [sumn]. ring. Qed.

Lemma remove_axis k (v : nat -> R) d : (k < 3)%nat -> (d < 3)%nat ->
  remove_normal (unit_axis k) v d = if Nat.eqb d k then 0 else v d.
Proof.
  intros Hk Hd. unfold remove_normal, dot3, unit_axis.
  destruct k as [|[|[|k]]]; try lia; destruct d as [|[|[|d]]]; try lia; cbn [Nat.eqb]; field.
Qed.

(** A diagonal scaling [v_d - v_d c_d] is the projection along [c] only if [c] is a coordinate axis. *)
Lemma diagonal_projection (c : nat -> R) (u : nat -> R) :
  (exists d, (d < 3)%nat /\ u d <> 0) ->
  (forall v d, (d < 3)%nat -> v d - v d * c d = v d - dot3 v u / dot3 u u * u d) ->
  exists k, (k < 3)%nat /\ forall d, (d < 3)%nat -> (d <> k -> u d = 0) /\ c d = unit_axis k d.
Proof.
  intros (k & Hk & Hu) H.
  assert (Hp : 0 < dot3 u u).
  { unfold dot3. assert (A := Rle_0_sqr (u 0%nat)). assert (B := Rle_0_sqr (u 1%nat)). assert (C := Rle_0_sqr (u 2%nat)).
    unfold Rsqr in *. destruct k as [|[|[|k]]]; try lia; apply Rsqr_pos_lt in Hu; unfold Rsqr in Hu; lra. }
  assert (E : forall j d, (j < 3)%nat -> (d < 3)%nat -> unit_axis j d * c d * dot3 u u = u j * u d).
  { intros j d Hj Hd. specialize (H (unit_axis j) d Hd).
    assert (D : dot3 (unit_axis j) u = u j).
    { unfold dot3, unit_axis. destruct j as [|[|[|j]]]; try lia; cbn [Nat.eqb]; ring. }
    rewrite D in H.
    assert (X : unit_axis j d * c d = u j / dot3 u u * u d) by lra.
    rewrite X. field. lra. }
  exists k. split; [exact Hk|]. intros d Hd.
  assert (Z : forall d, (d < 3)%nat -> d <> k -> u d = 0).
  { intros i Hi Hne. specialize (E k i Hk Hi). unfold unit_axis in E. rewrite (proj2 (Nat.eqb_neq i k) Hne) in E.
    rewrite !Rmult_0_l in E. symmetry in E. apply Rmult_integral in E as [E|E]; [contradiction|exact E]. }
  split; [now apply Z|].
  assert (Dk : dot3 u u = u k * u k).
  { unfold dot3. destruct k as [|[|[|k]]]; try lia;
      [rewrite (Z 1%nat), (Z 2%nat) by lia | rewrite (Z 0%nat), (Z 2%nat) by lia | rewrite (Z 0%nat), (Z 1%nat) by lia]; ring. }
  specialize (E d d Hd Hd). unfold unit_axis in *. rewrite Nat.eqb_refl in E.
  destruct (Nat.eqb_spec d k) as [->|Hne].
  - rewrite Dk in E. assert (u k * u k <> 0) by (rewrite <- Dk; lra). nra.
  - rewrite (Z d Hd Hne) in E. assert (c d * dot3 u u = 0) by lra. apply Rmult_integral in H0 as [X|X]; lra.
Qed.

Lemma reflected_iff vars : (3 <= length vars)%nat -> (exists d, (d < 3)%nat /\ dvec vars d <> 0) ->
  ((forall v d, (d < 3)%nat ->
      bc_component 3 ReflectedVel vars 0 d (v d) = remove_normal (dvec vars) v d)
   <-> exists k, (k < 3)%nat /\ forall d, (d < 3)%nat -> dvec vars d = unit_axis k d).
Proof.
  intros Hl Hn. cbn [bc_component]. rewrite norm2_3. split.
  - intros H.
    destruct (@diagonal_projection (fun d => dvec vars d / dot3 (dvec vars) (dvec vars)) (dvec vars) Hn) as (k & Hk & A).
    { intros v d Hd. specialize (H v d Hd). unfold remove_normal in H. rewrite <- H. unfold Rdiv. ring. }
    exists k. split; [exact Hk|]. intros d Hd. destruct (A d Hd) as [A1 A2].
    destruct (Nat.eq_dec d k) as [->|Hne].
    + assert (D : dot3 (dvec vars) (dvec vars) = dvec vars k * dvec vars k).
      { unfold dot3. destruct k as [|[|[|k]]]; try lia;
          [rewrite (proj1 (A 1%nat ltac:(lia))), (proj1 (A 2%nat ltac:(lia))) by lia
          |rewrite (proj1 (A 0%nat ltac:(lia))), (proj1 (A 2%nat ltac:(lia))) by lia
          |rewrite (proj1 (A 0%nat ltac:(lia))), (proj1 (A 1%nat ltac:(lia))) by lia]; ring. }
      rewrite D in A2. unfold unit_axis in *. rewrite Nat.eqb_refl in *.
      destruct (Req_EM_T (dvec vars k) 0) as [Z|NZ].
      * rewrite Z in A2. unfold Rdiv in A2. rewrite Rmult_0_l in A2. lra.
      * replace (dvec vars k / (dvec vars k * dvec vars k)) with (/ dvec vars k) in A2 by (field; exact NZ).
        rewrite <- (Rinv_inv (dvec vars k)), A2. apply Rinv_1.
    + rewrite A1 by assumption. unfold unit_axis. now rewrite (proj2 (Nat.eqb_neq d k)).
  - intros (k & Hk & A) v d Hd.
    unfold remove_normal. assert (D1 : dot3 (dvec vars) (dvec vars) = 1).
    { unfold dot3. rewrite !A by lia. unfold unit_axis. destruct k as [|[|[|k]]]; try lia; cbn [Nat.eqb]; ring. }
    assert (D2 : dot3 v (dvec vars) = v k).
    { unfold dot3. rewrite !A by lia. unfold unit_axis. destruct k as [|[|[|k]]]; try lia; cbn [Nat.eqb]; ring. }
    rewrite D1, D2, A by assumption. unfold unit_axis. destruct (Nat.eqb_spec d k) as [->|]; field.
Qed.

Lemma pushed_iff vars : (3 <= length vars)%nat -> (exists d, (d < 3)%nat /\ dvec vars d <> 0) ->
  ((forall v vel d, (d < 3)%nat -> pushed 3 vars vel d (v d) = impose_normal (dvec vars) v vel d)
   <-> exists k c, (k < 3)%nat /\ 0 < c /\ forall d, (d < 3)%nat -> dvec vars d = c * unit_axis k d).
Proof.
  intros Hl Hn. unfold pushed, impose_normal. rewrite norm2_3.
  assert (Hp : 0 < dot3 (dvec vars) (dvec vars)) by (rewrite <- norm2_3; now apply norm2_pos).
  assert (Hs : 0 < sqrt (dot3 (dvec vars) (dvec vars))) by now apply sqrt_lt_R0.
  split.
  - intros H.
    destruct (@diagonal_projection (fun d => dvec vars d / sqrt (dot3 (dvec vars) (dvec vars))) (dvec vars) Hn) as (k & Hk & A).
    { intros v d Hd. specialize (H v 0 d Hd). unfold remove_normal in H.
      rewrite !Rmult_0_l in H. unfold Rdiv in *. lra. }
    exists k, (sqrt (dot3 (dvec vars) (dvec vars))). split; [exact Hk|]. split; [exact Hs|].
    intros d Hd. destruct (A d Hd) as [_ <-]. field. lra.
  - intros (k & c & Hk & Hc & A) v vel d Hd.
    assert (D1 : dot3 (dvec vars) (dvec vars) = c * c).
    { unfold dot3. rewrite !A by lia. unfold unit_axis. destruct k as [|[|[|k]]]; try lia; cbn [Nat.eqb]; ring. }
    assert (D2 : dot3 v (dvec vars) = c * v k).
    { unfold dot3. rewrite !A by lia. unfold unit_axis. destruct k as [|[|[|k]]]; try lia; cbn [Nat.eqb]; ring. }
    unfold remove_normal. rewrite D1, D2, sqrt_square, A by (lra || assumption). unfold unit_axis.
    destruct (Nat.eqb_spec d k) as [->|]; field; lra.
Qed.

(** ** Stress conditions *)
Lemma edges_from_sum (g : nat * nat -> R) (nip : nat -> nat) first : forall k lo,
  lsum g (edges_from first (map nip (seq lo (S k)))) =
  sumn (S k) (fun l => g (nip (lo + l)%nat, if Nat.ltb l k then nip (lo + l + 1)%nat else first)).
Proof.
  induction k as [|k IH]; intros lo.
  - cbn. rewrite !Nat.add_0_r. ring.
  - change (map nip (seq lo (S (S k)))) with (nip lo :: map nip (seq (S lo) (S k))).
    change (edges_from first (nip lo :: map nip (seq (S lo) (S k)))) with
      ((nip lo, nip (S lo)) :: edges_from first (map nip (seq (S lo) (S k)))).
    change (lsum g ((nip lo, nip (S lo)) :: edges_from first (map nip (seq (S lo) (S k))))) with
      (g (nip lo, nip (S lo)) + lsum g (edges_from first (map nip (seq (S lo) (S k))))).
    rewrite IH. change (S (S k)) with (1 + S k)%nat at 1. rewrite sumn_split. cbn [sumn].
    rewrite Nat.add_0_r. change (Nat.ltb 0 (S k)) with true. cbn match.
    replace (lo + 1)%nat with (S lo) by lia. rewrite Rplus_0_l. f_equal.
    change (sumn k (fun l => g (nip (S lo + l)%nat, if Nat.ltb l k then nip (S lo + l + 1)%nat else first)) +
            g (nip (S lo + k)%nat, if Nat.ltb k k then nip (S lo + k + 1)%nat else first)) with
      (sumn (S k) (fun l => g (nip (S lo + l)%nat, if Nat.ltb l k then nip (S lo + l + 1)%nat else first))).
    change (sumn k (fun l => g (nip (lo + (1 + l))%nat, if Nat.ltb (1 + l) (S k) then nip (lo + (1 + l) + 1)%nat else first)) +
            g (nip (lo + (1 + k))%nat, if Nat.ltb (1 + k) (S k) then nip (lo + (1 + k) + 1)%nat else first)) with
      (sumn (S k) (fun l => g (nip (lo + (1 + l))%nat, if Nat.ltb (1 + l) (S k) then nip (lo + (1 + l) + 1)%nat else first))).
    apply sumn_ext. intros l _. replace (lo + (1 + l))%nat with (S lo + l)%nat by lia.
    replace (Nat.ltb (1 + l) (S k)) with (Nat.ltb l k); [reflexivity|].
    destruct (Nat.ltb_spec l k); destruct (Nat.ltb_spec (1 + l) (S k)); try lia; reflexivity.
Qed.

Lemma patch_edges_sum m p (g : nat * nat -> R) :
  lsum g (polygon_edges (patch_nodes m p)) = sumn (bm_npp m) (fun l => g (bm_nip m p l, patch_next m p l)).
Proof.
  unfold patch_nodes, patch_next. destruct (bm_npp m) as [|k] eqn:E; [reflexivity|].
  change (map (bm_nip m p) (seq 0 (S k))) with (bm_nip m p 0 :: map (bm_nip m p) (seq 1 k)) at 1.
  unfold polygon_edges. fold (map (bm_nip m p) (seq 1 k)).
  change (bm_nip m p 0 :: map (bm_nip m p) (seq 1 k)) with (map (bm_nip m p) (seq 0 (S k))).
  rewrite edges_from_sum. apply sumn_ext. intros l _. cbn [Nat.add Nat.sub].
  replace (k - 0)%nat with k by lia. reflexivity.
Qed.

(** Sums around a closed loop of a difference cancel. *)
Lemma loop_shift m p (h : nat -> R) :
  sumn (bm_npp m) (fun l => h (patch_next m p l)) = sumn (bm_npp m) (fun l => h (bm_nip m p l)).
Proof.
  unfold patch_next. destruct (bm_npp m) as [|k] eqn:E; [reflexivity|].
  change (S k - 1)%nat with (k - 0)%nat. rewrite Nat.sub_0_r.
  cbn [sumn]. rewrite Nat.ltb_irrefl.
  rewrite (@sumn_ext k _ (fun l => h (bm_nip m p (1 + l)%nat))).
  2:{ intros l Hl. rewrite (proj2 (Nat.ltb_lt _ _) Hl). now rewrite Nat.add_comm. }
  assert (S1 := sumn_split 1 k (fun l => h (bm_nip m p l))). cbn [Nat.add] in S1.
  change (sumn (S k) (fun l => h (bm_nip m p l))) with (sumn k (fun l => h (bm_nip m p l)) + h (bm_nip m p k)) in S1.
  rewrite S1. cbn [sumn]. cbn [Nat.add]. ring.
Qed.

Lemma shifted_cross m (x : nat -> nat -> R) p i j (ci cj : R) :
  sumn (bm_npp m) (fun l => (x (bm_nip m p l) i - ci) * (x (patch_next m p l) j - cj)
                          - (x (bm_nip m p l) j - cj) * (x (patch_next m p l) i - ci)) =
  sumn (bm_npp m) (fun l => x (bm_nip m p l) i * x (patch_next m p l) j - x (bm_nip m p l) j * x (patch_next m p l) i).
Proof.
  assert (Li := loop_shift m p (fun n => x n i)). assert (Lj := loop_shift m p (fun n => x n j)). cbn beta in Li, Lj.
  transitivity (sumn (bm_npp m) (fun l => x (bm_nip m p l) i * x (patch_next m p l) j - x (bm_nip m p l) j * x (patch_next m p l) i)
    + ci * (sumn (bm_npp m) (fun l => x (bm_nip m p l) j) - sumn (bm_npp m) (fun l => x (patch_next m p l) j))
    + cj * (sumn (bm_npp m) (fun l => x (patch_next m p l) i) - sumn (bm_npp m) (fun l => x (bm_nip m p l) i))).
  - rewrite <- !sumn_minus, <- !sumn_scal, <- !sumn_plus. apply sumn_ext. intros l _. ring.
  - rewrite Li, Lj. ring.
Qed.

Lemma corner_normal_area m x p d : (d < 3)%nat ->
  corner_normal m x p d = / 4 * vector_area x (patch_nodes m p) d.
Proof.
  intros Hd. unfold vector_area. rewrite patch_edges_sum. unfold corner_normal, cross3.
  destruct d as [|[|[|d]]]; try lia; rewrite shifted_cross; field.
Qed.

(** Scatter: each node receives the force once per occurrence in the patch. *)
Definition inc (m : bmesh) (p n : nat) : R := suml (fun l => if Nat.eqb (bm_nip m p l) n then 1 else 0) (seq 0 (bm_npp m)).

Lemma add_force_at f n d a n' d' : add_force f n d a n' d' = f n' d' + (if Nat.eqb n n' && Nat.eqb d d' then a else 0).
Proof.
  unfold add_force, fupd2. rewrite (Nat.eqb_sym n' n), (Nat.eqb_sym d' d).
  destruct (Nat.eqb_spec n n') as [->|]; destruct (Nat.eqb_spec d d') as [->|]; cbn; ring.
Qed.

Lemma patch_scatter_at m p force f n d : (d < 3)%nat ->
  patch_scatter m p force f n d = f n d + inc m p n * force d.
Proof.
  intros Hd. unfold patch_scatter, inc. generalize (seq 0 (bm_npp m)) as ls. intros ls. revert f.
  induction ls as [|l ls IH]; intros f.
  - cbn. change (suml (fun l => if Nat.eqb (bm_nip m p l) n then 1 else 0) []) with 0. ring.
  - cbn [fold_left]. rewrite IH, suml_cons. rewrite !add_force_at.
    destruct (Nat.eqb (bm_nip m p l) n); destruct d as [|[|[|d]]]; try lia; cbn [andb Nat.eqb]; ring.
Qed.

Definition set_force m x t (s : stress_set) (n d : nat) : R :=
  suml (fun p => inc m p n * stress_fn (ss_bc s) (ss_vars s) t (corner_normal m x p) d) (ss_patches s).

Lemma boundary_stress_at m x t sets : forall f n d, (d < 3)%nat ->
  boundary_stress m x sets t f n d = f n d + suml (fun s => set_force m x t s n d) sets.
Proof.
  unfold boundary_stress. induction sets as [|s sets IH]; intros f n d Hd.
  - cbn. change (suml (fun s => set_force m x t s n d) []) with 0. ring.
  - cbn [fold_left]. rewrite IH by assumption. rewrite suml_cons.
    assert (G : forall ps f, fold_left (fun f p => patch_scatter m p (stress_fn (ss_bc s) (ss_vars s) t (corner_normal m x p)) f) ps f n d
       = f n d + suml (fun p => inc m p n * stress_fn (ss_bc s) (ss_vars s) t (corner_normal m x p) d) ps).
    { induction ps as [|p ps IHp]; intros f0.
      - cbn. change (suml (fun p => inc m p n * stress_fn (ss_bc s) (ss_vars s) t (corner_normal m x p) d) []) with 0. ring.
      - cbn [fold_left]. rewrite IHp, patch_scatter_at, suml_cons by assumption. ring. }
    rewrite G. fold (set_force m x t s n d). ring.
Qed.

Lemma inc_total m p : (forall l, (l < bm_npp m)%nat -> (bm_nip m p l < bm_nodes m)%nat) ->
  sumn (bm_nodes m) (inc m p) = INR (bm_npp m).
Proof.
  intros H. unfold inc. rewrite <- suml_seq.
  rewrite (@suml_exchange nat nat (fun n l => if Nat.eqb (bm_nip m p l) n then 1 else 0)).
  rewrite (@suml_ext _ _ (fun _ => 1)).
  - rewrite suml_seq, sumn_const. ring.
  - intros l Hl. apply in_seq in Hl. rewrite suml_seq.
    rewrite (@sumn_ext _ _ (fun i => if Nat.eqb i (bm_nip m p l) then 1 else 0)).
    + apply sumn_delta, H. lia.
    + intros i _. now rewrite Nat.eqb_sym.
Qed.

(** The stress actually applied at time t. *)
Definition applied_stress (b : stress_bc) (vars : nat -> R) (t : R) (i j : nat) : R :=
  match b with
  | ConstantStress => sym_stress (vars 0%nat) (vars 1%nat) (vars 2%nat) (vars 3%nat) (vars 4%nat) (vars 5%nat) i j
  | TimeVaryingStress =>
      (if rleb (vars 7%nat) t && rleb t (vars 8%nat) then exp (- vars 6%nat * (t - vars 7%nat)) else 0)
      * sym_stress (vars 0%nat) (vars 1%nat) (vars 2%nat) (vars 3%nat) (vars 4%nat) (vars 5%nat) i j
  end.

Lemma stress_fn_applied b vars t normal i : (i < 3)%nat ->
  stress_fn b vars t normal i = sumn 3 (fun j => applied_stress b vars t i j * normal j).
Proof.
  intros Hi. destruct b; cbn [stress_fn applied_stress].
  - unfold constant_stress. rewrite Rplus_0_l. apply sumn_ext. intros j Hj. f_equal.
    destruct i as [|[|[|i]]]; try lia; destruct j as [|[|[|j]]]; try lia; reflexivity.
  - unfold time_varying_stress. destruct (rleb (vars 7%nat) t && rleb t (vars 8%nat)).
    + rewrite Rplus_0_l. apply sumn_ext. intros j Hj. f_equal. f_equal.
      destruct i as [|[|[|i]]]; try lia; destruct j as [|[|[|j]]]; try lia; reflexivity.
    + rewrite (@sumn_ext 3 _ (fun _ => 0)); [now rewrite sumn_0|]. intros j _. ring.
Qed.

(** Total force = sum over sets and patches of stress times vector area (four-node patches). *)
Lemma total_boundary_force m x t sets d :
  bm_npp m = 4%nat -> (d < 3)%nat ->
  (forall s p l, In s sets -> In p (ss_patches s) -> (l < 4)%nat -> (bm_nip m p l < bm_nodes m)%nat) ->
  sumn (bm_nodes m) (fun n => boundary_stress m x sets t (fun _ _ => 0) n d) =
  lsum (fun s => lsum (fun p => sumn 3 (fun j => applied_stress (ss_bc s) (ss_vars s) t d j
                                    * vector_area x (patch_nodes m p) j)) (ss_patches s)) sets.
Proof.
  intros H4 Hd Hb.
  rewrite (@sumn_ext _ _ (fun n => suml (fun s => set_force m x t s n d) sets)).
  2:{ intros n _. rewrite boundary_stress_at by assumption. ring. }
  rewrite <- suml_seq. rewrite (@suml_exchange nat stress_set (fun n s => set_force m x t s n d)).
  change (@lsum stress_set) with (@suml stress_set). apply suml_ext. intros s Hs. unfold set_force.
  rewrite (@suml_exchange nat nat (fun n p => inc m p n * stress_fn (ss_bc s) (ss_vars s) t (corner_normal m x p) d)).
  change (@lsum nat) with (@suml nat). apply suml_ext. intros p Hp. rewrite suml_seq, sumn_scal_r, inc_total.
  2:{ intros l Hl. rewrite H4 in Hl. now apply (Hb s). }
  rewrite H4. rewrite stress_fn_applied by assumption. rewrite <- sumn_scal. apply sumn_ext. intros j Hj.
  rewrite corner_normal_area by assumption. replace (INR 4) with 4 by (cbn; ring). field.
Qed.

(** Any order of sets and patches gives the same nodal forces. *)
Lemma boundary_stress_order m x t f sets sets' n d : (d < 3)%nat ->
  Permutation sets sets' ->
  boundary_stress m x sets t f n d = boundary_stress m x sets' t f n d.
Proof.
  intros Hd Hp. rewrite !boundary_stress_at by assumption. f_equal. now apply suml_perm.
Qed.

Lemma boundary_stress_patch_order m x t f n d b vars ps ps' : (d < 3)%nat ->
  Permutation ps ps' ->
  boundary_stress m x [mkStressSet b vars ps] t f n d = boundary_stress m x [mkStressSet b vars ps'] t f n d.
Proof.
  intros Hd Hp. rewrite !boundary_stress_at by assumption. f_equal. rewrite !suml_cons. f_equal.
  unfold set_force. cbn [ss_bc ss_vars ss_patches]. now apply suml_perm.
Qed.

(** A closed surface has zero vector area. *)
Lemma lsum_app {A} (g : A -> R) l1 l2 : lsum g (l1 ++ l2) = lsum g l1 + lsum g l2.
Proof. exact (suml_app g l1 l2). Qed.

Lemma closed_area x polys d : closed_surface polys -> lsum (fun poly => vector_area x poly d) polys = 0.
Proof.
  intros (es & Hp).
  assert (G : forall polys, lsum (fun poly => vector_area x poly d) polys
       = / 2 * lsum (fun '(a, b) => cross3 (x a) (x b) d) (flat_map polygon_edges polys)).
  { induction polys0 as [|p polys0 IH]; [cbn; ring|]. cbn [flat_map]. rewrite lsum_app.
    change (lsum (fun poly => vector_area x poly d) (p :: polys0)) with
      (vector_area x p d + lsum (fun poly => vector_area x poly d) polys0). rewrite IH. unfold vector_area. ring. }
  rewrite G. change (@lsum (nat * nat)) with (@suml (nat * nat)). rewrite (suml_perm _ _ _ Hp), suml_app, suml_map.
  rewrite <- suml_plus. rewrite (@suml_ext _ _ (fun _ => 0)); [rewrite suml_0; ring|].
  intros [a b] _. unfold cross3. destruct d as [|[|[|d]]]; ring.
Qed.

Lemma closed_total_force m x t b vars ps d :
  bm_npp m = 4%nat -> (d < 3)%nat ->
  (forall p l, In p ps -> (l < 4)%nat -> (bm_nip m p l < bm_nodes m)%nat) ->
  closed_surface (map (patch_nodes m) ps) ->
  sumn (bm_nodes m) (fun n => boundary_stress m x [mkStressSet b vars ps] t (fun _ _ => 0) n d) = 0.
Proof.
  intros H4 Hd Hb Hc. rewrite total_boundary_force; auto.
  2:{ intros s p l [<-|[]] Hp Hl. now apply Hb. }
  cbn [ss_bc ss_vars ss_patches]. change (@lsum stress_set) with (@suml stress_set). rewrite suml_cons.
  change (suml _ []) with 0. change (@lsum nat) with (@suml nat). cbn [ss_bc ss_vars ss_patches].
  rewrite Rplus_0_r.
  rewrite (@suml_ext _ _ (fun p => suml (fun j => applied_stress b vars t d j * vector_area x (patch_nodes m p) j) (seq 0 3)))
    by (intros; now rewrite suml_seq).
  rewrite suml_exchange. rewrite (@suml_ext _ _ (fun _ => 0)); [now rewrite suml_0|].
  intros j _. rewrite suml_scal.
  assert (A := closed_area x _ j Hc). change (@lsum (list nat)) with (@suml (list nat)) in A. rewrite suml_map in A.
  rewrite A. ring.
Qed.

(** ** Statements used by the property file *)
Definition sets_ok (dims : nat) (sets : list vel_set) : Prop :=
  forall s, In s sets -> bc_defined dims (vs_bc s) (vs_vars s) /\ NoDup (vs_nodes s).

Lemma fold_set_value_out dims t n d : forall sets a,
  (forall s, In s sets -> ~ In n (vs_nodes s)) -> fold_left (set_value dims t n d) sets a = a.
Proof.
  induction sets as [|s sets IH]; intros a H; [reflexivity|]. cbn [fold_left].
  unfold set_value at 2. destruct (in_dec Nat.eq_dec n (vs_nodes s)) as [Hi|Hi].
  - exfalso. apply (H s); [now left|exact Hi].
  - apply IH. intros; apply H; now right.
Qed.

Lemma last_set_wins dims t pre s post v : sets_ok dims (pre ++ s :: post) ->
  exists v', boundary_velocity dims (pre ++ s :: post) t v = Some v' /\
    forall n d, (d < dims)%nat -> In n (vs_nodes s) -> (forall s', In s' post -> ~ In n (vs_nodes s')) ->
      (vs_bc s = ZeroVel -> v' n d = 0) /\
      (vs_bc s = ConstantVel -> v' n d = nth d (vs_vars s) 0).
Proof.
  intros H. destruct (@boundary_velocity_spec dims t _ v H) as (v' & E & A & _).
  exists v'. split; [exact E|]. intros n d Hd Hi Hp. rewrite A by assumption. rewrite fold_left_app. cbn [fold_left].
  rewrite fold_set_value_out by assumption. unfold set_value.
  destruct (in_dec Nat.eq_dec n (vs_nodes s)); [|contradiction].
  split; intros ->; reflexivity.
Qed.

Lemma untouched_nodes dims t sets v : sets_ok dims sets ->
  exists v', boundary_velocity dims sets t v = Some v' /\
    forall n, (forall s, In s sets -> ~ In n (vs_nodes s)) -> forall d, v' n d = v n d.
Proof.
  intros H. destruct (@boundary_velocity_spec dims t _ v H) as (v' & E & A & B).
  exists v'. split; [exact E|]. intros n Hn d. destruct (Nat.lt_ge_cases d dims) as [Hd|Hd].
  - rewrite A by assumption. now apply fold_set_value_out.
  - now apply B.
Qed.

Definition same_set_reordered (s s' : vel_set) : Prop :=
  vs_bc s = vs_bc s' /\ vs_vars s = vs_vars s' /\ Permutation (vs_nodes s) (vs_nodes s').

Lemma node_order_irrelevant dims t sets sets' v : sets_ok dims sets -> Forall2 same_set_reordered sets sets' ->
  exists v1 v2, boundary_velocity dims sets t v = Some v1 /\ boundary_velocity dims sets' t v = Some v2 /\
    forall n d, v1 n d = v2 n d.
Proof.
  intros H F.
  assert (H' : sets_ok dims sets').
  { clear - H F. induction F as [|s s' l l' (E1 & E2 & E3) F IH]; intros x [].
    - subst x. destruct (H s (or_introl eq_refl)) as [A B]. rewrite <- E1, <- E2. split; [exact A|].
      eapply Permutation_NoDup; eassumption.
    - apply IH; auto. intros y Hy. apply H. now right. }
  destruct (@boundary_velocity_spec dims t _ v H) as (v1 & E1 & A1 & B1).
  destruct (@boundary_velocity_spec dims t _ v H') as (v2 & E2 & A2 & B2).
  exists v1, v2. split; [exact E1|]. split; [exact E2|]. intros n d.
  destruct (Nat.lt_ge_cases d dims) as [Hd|Hd]; [|now rewrite B1, B2].
  rewrite A1, A2 by assumption. generalize (v n d) as a. clear - F.
  induction F as [|s s' l l' (E1 & E2 & E3) F IH]; intros a; [reflexivity|]. cbn [fold_left].
  assert (Q : set_value dims t n d a s = set_value dims t n d a s').
  { unfold set_value. rewrite E1, E2.
    destruct (in_dec Nat.eq_dec n (vs_nodes s)) as [Hi|Hi]; destruct (in_dec Nat.eq_dec n (vs_nodes s')) as [Hj|Hj]; auto.
    - exfalso. apply Hj. eapply Permutation_in; eassumption.
    - exfalso. apply Hi. eapply Permutation_in; [symmetry|]; eassumption. }
  rewrite Q. apply IH.
Qed.

(** The reflected condition, run on one node of a three-dimensional mesh. *)
Lemma reflected_exact vars n :
  (3 <= length vars)%nat -> (exists d, (d < 3)%nat /\ nth d vars 0 <> 0) ->
  ((forall v, exists v', reflected_velocity 3 vars n v = Some v' /\
      (forall d, (d < 3)%nat -> v' n d = remove_normal (fun d => nth d vars 0) (v n) d) /\
      (forall n' d, n' <> n -> v' n' d = v n' d))
   <-> exists k, (k < 3)%nat /\ forall d, (d < 3)%nat -> nth d vars 0 = unit_axis k d).
Proof.
  intros Hl Hd. rewrite <- (@reflected_iff vars Hl Hd). split.
  - intros H v d Hdd. destruct (H (fun _ => v)) as (v' & E & A & _).
    destruct (@velocity_fn_spec 3 ReflectedVel vars 0 n (fun _ => v)) as (v2 & E2 & A2 & _); [cbn; auto|].
    cbn [velocity_fn] in E2. rewrite E in E2. injection E2 as <-. specialize (A2 d Hdd). rewrite <- A2, A by assumption.
    reflexivity.
  - intros H v. destruct (@velocity_fn_spec 3 ReflectedVel vars 0 n v) as (v' & E & A & B); [cbn; auto|].
    exists v'. split; [exact E|]. split.
    + intros d Hdd. rewrite A by assumption. apply (H (v n) d Hdd).
    + intros n' d Hn. apply B. now left.
Qed.

Lemma reflected_wrong_sign n v : exists v', reflected_velocity 3 [-1; 0; 0] n v = Some v' /\ v' n 0%nat = 2 * v n 0%nat.
Proof.
  destruct (@velocity_fn_spec 3 ReflectedVel [-1; 0; 0] 0 n v) as (v' & E & A & _).
  { cbn [bc_defined length]. split; [lia|]. exists 0%nat. split; [lia|]. unfold dvec; cbn [nth]. lra. }
  exists v'. split; [exact E|]. rewrite A by lia. cbn [bc_component]. unfold norm2, dvec. cbn [sumn nth]. field.
Qed.

Lemma reflected_oblique n v : exists v', reflected_velocity 3 [1; 1; 0] n v = Some v' /\
  v' n 0%nat = v n 0%nat / 2 /\ v' n 1%nat = v n 1%nat / 2.
Proof.
  destruct (@velocity_fn_spec 3 ReflectedVel [1; 1; 0] 0 n v) as (v' & E & A & _).
  { cbn [bc_defined length]. split; [lia|]. exists 0%nat. split; [lia|]. unfold dvec; cbn [nth]. lra. }
  exists v'. split; [exact E|]. rewrite !A by lia. cbn [bc_component]. unfold norm2, dvec. cbn [sumn nth]. split; field.
Qed.

(** Piston: in the time window the component along a (positively oriented) axis is prescribed, the others slide. *)
Lemma piston_axis k c v0 v1 v2 ts te t n v : (k < 3)%nat -> 0 < c -> ts <= t <= te ->
  exists v', piston_velocity 3 [c * unit_axis k 0; c * unit_axis k 1; c * unit_axis k 2; v0; v1; v2; ts; te] t n v = Some v' /\
    (forall d, (d < 3)%nat -> v' n d = if Nat.eqb d k then v0 + v1 * (t - ts) + / 2 * v2 * (t - ts) ^ 2 else v n d) /\
    (forall n' d, n' <> n -> v' n' d = v n' d).
Proof.
  intros Hk Hc Ht. set (vars := [_; _; _; _; _; _; _; _]).
  assert (Hd : exists d, (d < 3)%nat /\ dvec vars d <> 0).
  { exists k. split; [exact Hk|]. unfold dvec, vars, unit_axis.
    destruct k as [|[|[|k]]]; try lia; cbn [nth Nat.eqb]; lra. }
  destruct (@velocity_fn_spec 3 PistonVel vars t n v) as (v' & E & A & B).
  { cbn [bc_defined]. unfold vars at 1 2. cbn [length]. repeat split; try lia. exact Hd. }
  exists v'. split; [exact E|]. split.
  - intros d Hdd. rewrite A by assumption. cbn [bc_component].
    change (dvec vars 3) with v0. change (dvec vars 4) with v1. change (dvec vars 5) with v2.
    change (dvec vars 6) with ts. change (dvec vars 7) with te.
    rewrite (proj2 (rleb_true ts t)), (proj2 (rleb_true t te)) by lra. cbn [andb].
    assert (P := @pushed_iff vars). destruct P as [_ P]; [unfold vars; cbn [length]; lia|exact Hd|].
    rewrite (P ltac:(exists k, c; split; [exact Hk|]; split; [exact Hc|]; intros i Hi;
       destruct i as [|[|[|i]]]; [reflexivity|reflexivity|reflexivity|lia]) (v n)) by assumption.
    assert (D : forall i, (i < 3)%nat -> dvec vars i = c * unit_axis k i).
    { intros i Hi. destruct i as [|[|[|i]]]; try lia; reflexivity. }
    assert (D1 : dot3 (dvec vars) (dvec vars) = c * c).
    { unfold dot3. rewrite !D by lia. unfold unit_axis. destruct k as [|[|[|k]]]; try lia; cbn [Nat.eqb]; ring. }
    assert (D2 : dot3 (v n) (dvec vars) = c * v n k).
    { unfold dot3. rewrite !D by lia. unfold unit_axis. destruct k as [|[|[|k]]]; try lia; cbn [Nat.eqb]; ring. }
    unfold impose_normal, remove_normal. rewrite D1, D2, sqrt_square, D by (lra || assumption). unfold unit_axis.
    replace 0.5 with (/ 2) by lra.
    destruct (Nat.eqb_spec d k) as [->|]; field; lra.
  - intros n' d Hn. apply B. now left.
Qed.

Lemma piston_outside vars t n v : (8 <= length vars)%nat ->
  t < nth 6 vars 0 \/ nth 7 vars 0 < t -> piston_velocity 3 vars t n v = Some v.
Proof.
  intros Hl Ht. unfold piston_velocity. rewrite !var_some by lia. cbn [obind].
  destruct (rleb (nth 6 vars 0) t && rleb t (nth 7 vars 0)) eqn:Q; [|reflexivity].
  apply andb_true_iff in Q as [Q1 Q2]. apply rleb_true in Q1, Q2. lra.
Qed.

Lemma piston_wrong_sign n v : exists v', piston_velocity 3 [-1; 0; 0; 5; 0; 0; 0; 1] 0 n v = Some v' /\
  v' n 0%nat = 2 * v n 0%nat - 5.
Proof.
  destruct (@velocity_fn_spec 3 PistonVel [-1; 0; 0; 5; 0; 0; 0; 1] 0 n v) as (v' & E & A & _).
  { cbn [bc_defined length]. split; [lia|]. split; [lia|]. exists 0%nat. split; [lia|]. unfold dvec; cbn [nth]. lra. }
  exists v'. split; [exact E|]. rewrite A by lia. cbn [bc_component]. unfold pushed, norm2, dvec. cbn [sumn nth].
  rewrite (proj2 (rleb_true 0 0)), (proj2 (rleb_true 0 1)) by lra. cbn [andb].
  replace (0 + -1 * -1 + 0 * 0 + 0 * 0) with 1 by ring. rewrite sqrt_1. field.
Qed.

(** The stored sets of a solver. *)
Lemma sets_of_solver_spec solver blocks id :
  In id (sets_of_solver solver blocks) <-> nth_error blocks id = Some (solver, true).
Proof.
  unfold sets_of_solver.
  enough (G : forall lo blocks, In id (map fst (filter (fun '(_, (s, has)) => Nat.eqb s solver && (has : bool))
                  (combine (seq lo (length blocks)) blocks))) <-> (lo <= id)%nat /\ nth_error blocks (id - lo) = Some (solver, true)).
  { rewrite G. rewrite Nat.sub_0_r. split; [tauto|]. split; [lia|assumption]. }
  intros lo bl. revert lo. induction bl as [|[s has] bl IH]; intros lo.
  - cbn. split; [intros []|]. intros [_ H]. destruct (id - lo)%nat; discriminate.
  - cbn [length seq combine filter].
    destruct (Nat.eq_dec id lo) as [->|Hne].
    + rewrite Nat.sub_diag. cbn [nth_error]. destruct (Nat.eqb_spec s solver) as [->|]; destruct has; cbn [andb map fst In].
      * split; [intros _; split; [lia|reflexivity]|intros _; now left].
      * rewrite IH. split; [lia|]. intros [_ E]; discriminate.
      * rewrite IH. split; [lia|]. intros [_ E]; injection E; intros; contradiction.
      * rewrite IH. split; [lia|]. intros [_ E]; discriminate.
    + assert (Q : (S lo <= id)%nat /\ nth_error bl (id - S lo) = Some (solver, true) <->
                  (lo <= id)%nat /\ nth_error ((s, has) :: bl) (id - lo) = Some (solver, true)).
      { split; intros [H1 H2].
        - split; [lia|]. replace (id - lo)%nat with (S (id - S lo)) by lia. exact H2.
        - split; [lia|]. replace (id - lo)%nat with (S (id - S lo)) in H2 by lia. exact H2. }
      rewrite <- Q, <- (IH (S lo)).
      destruct (Nat.eqb s solver && has); [|reflexivity]. cbn [map fst In]. split; [intros [->|H]; [lia|exact H]|tauto].
Qed.

Lemma sets_of_solver_sorted solver blocks : StronglySorted lt (sets_of_solver solver blocks).
Proof.
  unfold sets_of_solver. generalize 0%nat as lo. induction blocks as [|b bl IH]; intros lo; cbn [length seq combine filter map].
  - constructor.
  - destruct b as [s has]. destruct (Nat.eqb s solver && has); [|apply IH]. cbn [map fst]. constructor; [apply IH|].
    apply Forall_forall. intros i Hi. apply in_map_iff in Hi as ([j c] & <- & Hi). apply filter_In in Hi as [Hi _].
    apply in_combine_l, in_seq in Hi. cbn. lia.
Qed.

(** ** A concrete boundary: the six faces of one hexahedron (nodes 0-3 bottom, 4-7 top, counter-clockwise, outward). *)
Definition cube_faces (p l : nat) : nat :=
  nth l (nth p [[0;3;2;1];[4;5;6;7];[0;1;5;4];[1;2;6;5];[2;3;7;6];[3;0;4;7]]%nat []) 0%nat.
Definition cube_bdy : bmesh := mkBmesh 3 8 4 cube_faces [0;1;2;3;4;5]%nat.
Definition cube_x (n d : nat) : R :=
  nth d (nth n [[0;0;0];[1;0;0];[1;1;0];[0;1;0];[0;0;1];[1;0;1];[1;1;1];[0;1;1]] []) 0.

Lemma cube_closed : closed_surface (map (patch_nodes cube_bdy) (bm_bdy cube_bdy)).
Proof.
  exists [(0,3);(3,2);(2,1);(1,0);(4,5);(5,6);(6,7);(7,4);(1,5);(2,6);(3,7);(0,4)]%nat.
  apply NoDup_Permutation_bis.
  - match goal with |- NoDup ?l => replace l with (nodup natpair_dec l) by (vm_compute; reflexivity) end. apply NoDup_nodup.
  - vm_compute. lia.
  - intros e He. vm_compute in He. repeat (destruct He as [<-|He]; [vm_compute; tauto|]). destruct He.
Qed.

Lemma cube_area : vector_area cube_x (patch_nodes cube_bdy 3) 0 = 1.
Proof.
  unfold vector_area. change (patch_nodes cube_bdy 3) with [1;2;6;5]%nat.
  cbn [polygon_edges edges_from lsum fold_right]. unfold cross3, cube_x. cbn [nth]. field.
Qed.

Lemma cube_indices p l : In p (bm_bdy cube_bdy) -> (l < 4)%nat -> (bm_nip cube_bdy p l < bm_nodes cube_bdy)%nat.
Proof.
  cbn [bm_bdy bm_nip bm_nodes cube_bdy In]. intros Hp Hl.
  repeat (destruct Hp as [<-|Hp]; [destruct l as [|[|[|[|l]]]]; try lia; cbn; lia|]). destruct Hp.
Qed.

Lemma boundary_stress_nodal m x t sets f n d : (d < 3)%nat ->
  boundary_stress m x sets t f n d = f n d +
    lsum (fun s => lsum (fun p => lsum (fun l => if Nat.eqb (bm_nip m p l) n then 1 else 0) (seq 0 (bm_npp m)) *
        sumn 3 (fun j => applied_stress (ss_bc s) (ss_vars s) t d j *
                         (/ 4 * vector_area x (patch_nodes m p) j))) (ss_patches s)) sets.
Proof.
  intros Hd. rewrite boundary_stress_at by assumption. f_equal.
  change (@lsum stress_set) with (@suml stress_set). apply suml_ext. intros s _. unfold set_force.
  change (@lsum nat) with (@suml nat). apply suml_ext. intros p _. unfold inc. f_equal.
  rewrite stress_fn_applied by assumption. apply sumn_ext. intros j Hj. now rewrite corner_normal_area.
Qed.
