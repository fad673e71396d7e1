From Verif Require Import SetupModel SetupSpec.

Lemma for_each_flat {A B S} (g : A -> list B) (body : B -> S -> option S) l : forall s,
  for_each l (fun x s => for_each (g x) body s) s = for_each (flat_map g l) body s.
Proof.
  induction l as [|x l IH]; intros s; [reflexivity|]. cbn [for_each flat_map]. rewrite for_each_app.
  destruct (for_each (g x) body s); cbn; [apply IH|reflexivity].
Qed.
Lemma for_each_mapped {A B S} (g : A -> B) (body : B -> S -> option S) l : forall s, for_each (map g l) body s = for_each l (fun x => body (g x)) s.
Proof. induction l as [|x l IH]; intros s; [reflexivity|]. cbn. destruct (body (g x) s); cbn; [apply IH|reflexivity]. Qed.

Lemma setup_pairs f : material_state_setup f = for_each (all_slots f) (fun p st => setup_slot f (fst p) (snd p) st) (store0 f).
Proof.
  unfold material_state_setup, all_slots, for_up. rewrite <- for_each_flat. apply for_each_ext. intros e s _. now rewrite for_each_mapped.
Qed.

Definition mine (f : fills) (m : nat) (l : list (nat * nat)) : list (nat * nat) := filter (fun p => Nat.eqb (in_mat f (fst p) (snd p)) m) l.
Lemma mine_app f m l1 l2 : mine f m (l1 ++ l2) = mine f m l1 ++ mine f m l2.
Proof. apply filter_app. Qed.

Lemma in_all_slots f e a : In (e, a) (all_slots f) <-> used f e a.
Proof.
  unfold all_slots, used. rewrite in_flat_map. split.
  - intros (x & Hx & H). apply in_map_iff in H as (y & E & Hy). injection E as -> ->. apply in_seq in Hx, Hy. lia.
  - intros [A B]. exists e. split; [apply in_seq; lia|]. apply in_map, in_seq. lia.
Qed.

Lemma NoDup_app_disj {A} (l1 l2 : list A) : NoDup l1 -> NoDup l2 -> (forall x, In x l1 -> ~ In x l2) -> NoDup (l1 ++ l2).
Proof.
  induction l1 as [|a l1 IH]; intros N1 N2 D; [exact N2|]. inversion N1 as [|? ? P1 P2]; subst. cbn. constructor.
  - intros X. apply in_app_or in X as [X|X]; [contradiction|]. apply (D a (or_introl eq_refl) X).
  - apply IH; [exact P2|exact N2|]. intros x Hx. apply D. now right.
Qed.

Lemma NoDup_flat_pairs (g : nat -> nat) l : NoDup l -> NoDup (flat_map (fun e => map (pair e) (seq 0 (g e))) l).
Proof.
  induction l as [|e l IH]; intros N; [constructor|]. inversion N as [|? ? N1 N2]; subst. cbn [flat_map]. apply NoDup_app_disj.
  - apply FinFun.Injective_map_NoDup; [intros x y E; congruence|apply seq_NoDup].
  - now apply IH.
  - intros x Hx Hy. apply in_map_iff in Hx as (a & <- & _). apply in_flat_map in Hy as (e' & He & H). apply in_map_iff in H as (b & E & _). injection E as -> _. contradiction.
Qed.

Lemma all_slots_nodup f : NoDup (all_slots f).
Proof. apply NoDup_flat_pairs, seq_NoDup. Qed.

Lemma num_saved_mine f m : num_saved f m = length (mine f m (all_slots f)).
Proof.
  unfold num_saved, mine, all_slots. induction (seq 0 (in_ne f)) as [|e l IH]; [reflexivity|]. cbn [map flat_map]. rewrite filter_app, app_length.
  change (list_sum (?a :: ?b)) with (a + list_sum b)%nat. rewrite <- IH. f_equal.
  induction (seq 0 (in_num f e)) as [|a k IHk]; [reflexivity|]. cbn [filter map fst snd]. destruct (Nat.eqb (in_mat f e a) m); cbn [length]; now rewrite IHk.
Qed.

(** ** The loop over gauss points *)
Lemma gauss_loop f e a mat sid pts ls : (e < in_ne f)%nat -> (a < in_max f)%nat -> (mat < rrows pts)%nat ->
  forall n, (n <= in_ng f)%nat -> (sid + n <= rsize pts mat)%nat ->
  exists pts' ls', for_up 0 n (setup_gauss f e a mat sid) (pts, ls) = Some (pts', ls') /\ rrows pts' = rrows pts /\ (forall m, rsize pts' m = rsize pts m) /\
  (forall m t, rdat pts' m t = if (Nat.eqb m mat && Nat.leb sid t && Nat.ltb t (sid + n))%bool then Some (setup_point f e a (e + (t - sid))) else rdat pts m t) /\
  (forall x, ls' x = if (Nat.leb e x && Nat.ltb x (e + n))%bool then fmin (ls x) (in_ls f x a) else ls x).
Proof.
  intros He Ha Hm. induction n as [|n IH]; intros Hn Hs.
  - exists pts, ls. split; [reflexivity|]. split; [reflexivity|]. split; [reflexivity|]. split.
    + intros m t. destruct (Nat.eqb m mat); [|reflexivity]. destruct (Nat.leb_spec sid t); [|reflexivity]. destruct (Nat.ltb_spec t (sid + 0)); [lia|reflexivity].
    + intros x. destruct (Nat.leb_spec e x); [|reflexivity]. destruct (Nat.ltb_spec x (e + 0)); [lia|reflexivity].
  - destruct IH as (p1 & l1 & E & R & S1 & D & L); [lia|lia|]. unfold for_up in *. rewrite seq_S, for_each_app, E. cbn [obind for_each plus].
    unfold setup_gauss. rewrite (proj2 (Nat.ltb_lt (e + n) (in_ne f * in_ng f))) by nia. rewrite (proj2 (Nat.ltb_lt a (in_max f)) Ha). cbn [andb].
    unfold rset. rewrite R, S1. rewrite (proj2 (Nat.ltb_lt mat (rrows pts)) Hm). rewrite (proj2 (Nat.ltb_lt (sid + n) (rsize pts mat))) by lia. cbn [andb obind].
    do 2 eexists. split; [reflexivity|]. cbn [rrows rsize rdat]. split; [reflexivity|]. split; [exact S1|]. split.
    + intros m t. rewrite D. destruct (Nat.eqb_spec m mat) as [->|N]; cbn [andb]; [|reflexivity].
      destruct (Nat.eqb_spec t (sid + n)) as [->|N].
      * rewrite (proj2 (Nat.leb_le sid (sid + n))) by lia. rewrite (proj2 (Nat.ltb_lt (sid + n) (sid + S n))) by lia. cbn [andb]. do 2 f_equal. lia.
      * destruct (Nat.leb_spec sid t); cbn [andb]; [|reflexivity]. destruct (Nat.ltb_spec t (sid + n)); destruct (Nat.ltb_spec t (sid + S n)); try lia; reflexivity.
    + intros x. destruct (Nat.eqb_spec x (e + n)) as [->|N].
      * rewrite L. rewrite (proj2 (Nat.leb_le e (e + n))) by lia. rewrite (proj2 (Nat.ltb_lt (e + n) (e + S n))) by lia.
        destruct (Nat.ltb_spec (e + n) (e + n)); [lia|]. reflexivity.
      * rewrite L. destruct (Nat.leb_spec e x); cbn [andb]; [|reflexivity]. destruct (Nat.ltb_spec x (e + n)); destruct (Nat.ltb_spec x (e + S n)); try lia; reflexivity.
Qed.

(** ** Invariant *)
Definition point_at (f : fills) (q : list (nat * nat)) (t : nat) : option point :=
  if (Nat.ltb 0 (length q) && Nat.ltb t (length q - 1 + in_ng f))%bool
  then option_map (fun p => setup_point f (fst p) (snd p) (fst p + (t - Nat.min t (length q - 1)))) (nth_error q (Nat.min t (length q - 1)))
  else None.
Definition ls_at (f : fills) (l : list (nat * nat)) (x : nat) : R :=
  fold_left (fun v p => if (Nat.leb (fst p) x && Nat.ltb x (fst p + in_ng f))%bool then fmin v (in_ls f x (snd p)) else v) l 1e32.

Record inv (f : fills) (l : list (nat * nat)) (st : store) : Prop := {
  iv_saved : forall m, st_saved st m = length (mine f m l);
  iv_rows : rrows (st_elem st) = in_mats f /\ rrows (st_point st) = in_mats f;
  iv_size : forall m, rsize (st_elem st) m = num_saved f m /\ rsize (st_point st) m = num_points f m;
  iv_slots : nrow (st_slot st) = in_ne f /\ ncol (st_slot st) = in_max f;
  iv_elem : forall m s, rdat (st_elem st) m s = option_map fst (nth_error (mine f m l) s);
  iv_slot : forall l1 e a l2, l = l1 ++ (e, a) :: l2 -> dat (st_slot st) e a = Some (length (mine f (in_mat f e a) l1));
  iv_point : forall m t, rdat (st_point st) m t = point_at f (mine f m l) t;
  iv_ls : forall x, st_ls st x = ls_at f l x }.

Lemma inv0 f : inv f [] (store0 f).
Proof.
  split; try reflexivity; try (split; reflexivity).
  - intros m s. cbn. destruct s; reflexivity.
  - intros l1 e a l2 H. destruct l1; discriminate.
Qed.

Lemma inv_step f l e a l2 st : well_formed f -> all_slots f = l ++ (e, a) :: l2 -> inv f l st ->
  exists st', setup_slot f e a st = Some st' /\ inv f (l ++ [(e, a)]) st'.
Proof.
  intros [Hg W] HA [I1 [I2 I2'] I3 [I4 I4'] I5 I6 I7 I8].
  assert (U : used f e a) by (apply in_all_slots; rewrite HA; apply in_or_app; right; now left).
  assert (N := all_slots_nodup f). rewrite HA in N.
  assert (NI : ~ In (e, a) l). { intros X. apply NoDup_remove_2 in N. apply N, in_or_app. now left. }
  destruct (W e a U) as [Wa Wm]. destruct U as [Ue Ua].
  set (mat := in_mat f e a) in *. set (q := mine f mat l) in *.
  assert (Q : (length q < num_saved f mat)%nat).
  { rewrite num_saved_mine, HA, mine_app, app_length. cbn [mine filter fst snd]. fold mat. rewrite Nat.eqb_refl. cbn. fold q. lia. }
  assert (QP : (length q + in_ng f <= num_points f mat)%nat) by (unfold num_points; nia).
  assert (MA : forall m, mine f m (l ++ [(e, a)]) = if Nat.eqb m mat then q ++ [(e, a)] else mine f m l).
  { intros m. rewrite mine_app. cbn [mine filter fst snd]. fold mat. destruct (Nat.eqb_spec m mat) as [->|X].
    - now rewrite Nat.eqb_refl.
    - destruct (Nat.eqb_spec mat m); [congruence|]. now rewrite app_nil_r. }
  destruct (gauss_loop f e a mat (length q) (st_point st) (st_ls st) Ue Wa) with (n := in_ng f) as (pts & ls & G & GR & GS & GD & GL);
    [lia|lia|destruct (I3 mat) as [_ ->]; exact QP|].
  unfold setup_slot. rewrite (proj2 (Nat.ltb_lt a (in_max f)) Wa). fold mat. rewrite (proj2 (Nat.ltb_lt mat (in_mats f)) Wm).
  rewrite (I1 mat). fold q. unfold rset at 1. rewrite I2. destruct (I3 mat) as [E1 E2]. rewrite E1.
  rewrite (proj2 (Nat.ltb_lt mat (in_mats f)) Wm), (proj2 (Nat.ltb_lt (length q) (num_saved f mat)) Q). cbn [andb obind].
  unfold aset. rewrite I4, I4'. rewrite (proj2 (Nat.ltb_lt e (in_ne f)) Ue), (proj2 (Nat.ltb_lt a (in_max f)) Wa). cbn [andb obind].
  rewrite G. cbn [obind]. eexists. split; [reflexivity|]. split; cbn [st_saved st_elem st_slot st_point st_ls rrows rsize rdat nrow ncol dat].
  - intros m. rewrite MA. destruct (Nat.eqb_spec m mat) as [->|X]; [|apply I1]. rewrite I1. fold q. rewrite app_length. cbn. lia.
  - split; [reflexivity|]. now rewrite GR.
  - intros m. rewrite GS. split; [apply I3|apply I3].
  - split; reflexivity.
  - intros m s. rewrite MA. destruct (Nat.eqb_spec m mat) as [->|X]; cbn [andb].
    + destruct (Nat.eqb_spec s (length q)) as [->|Y].
      * rewrite nth_error_app2, Nat.sub_diag by lia. reflexivity.
      * rewrite I5. fold q. destruct (Nat.lt_ge_cases s (length q)) as [Z|Z]; [now rewrite nth_error_app1|].
        rewrite (proj2 (nth_error_None q s)) by lia. rewrite (proj2 (nth_error_None (q ++ [(e, a)]) s)) by (rewrite app_length; cbn; lia). reflexivity.
    + apply I5.
  - intros l1 e' a' l3 E. destruct l3 as [|p l3 _] using rev_ind.
    + apply app_inj_tail in E as [-> E]. injection E as <- <-. rewrite !Nat.eqb_refl. reflexivity.
    + rewrite app_comm_cons, app_assoc in E. apply app_inj_tail in E as [E <-].
      assert (X : (e', a') <> (e, a)). { intros X. apply NI. rewrite E, <- X. apply in_or_app. right. now left. }
      destruct (Nat.eqb_spec e' e) as [->|]; cbn [andb]; [destruct (Nat.eqb_spec a' a) as [->|]; [congruence|]|]; now apply (I6 _ _ _ l3).
  - intros m t. rewrite GD, I7, MA. destruct (Nat.eqb_spec m mat) as [->|X]; cbn [andb]; [|reflexivity]. fold q. unfold point_at. rewrite app_length. cbn [length].
    rewrite (proj2 (Nat.ltb_lt 0 (length q + 1))) by lia. cbn [andb]. replace (length q + 1 - 1)%nat with (length q) by lia.
    destruct (Nat.leb_spec (length q) t) as [L|L]; cbn [andb].
    + replace (Nat.min t (length q)) with (length q) by lia. rewrite nth_error_app2, Nat.sub_diag by lia. cbn [nth_error option_map fst snd].
      destruct (Nat.ltb_spec t (length q + in_ng f)); [reflexivity|]. 
      destruct (Nat.ltb_spec 0 (length q)); cbn [andb]; [|reflexivity]. destruct (Nat.ltb_spec t (length q - 1 + in_ng f)); [lia|reflexivity].
    + rewrite (proj2 (Nat.ltb_lt t (length q + in_ng f))) by lia. replace (Nat.min t (length q)) with t by lia. replace (Nat.min t (length q - 1)) with t by lia.
      rewrite nth_error_app1 by lia. rewrite (proj2 (Nat.ltb_lt 0 (length q))) by lia. rewrite (proj2 (Nat.ltb_lt t (length q - 1 + in_ng f))) by lia. reflexivity.
  - intros x. rewrite GL, I8. unfold ls_at. rewrite fold_left_app. cbn [fold_left fst snd]. reflexivity.
Qed.

Lemma inv_loop f : well_formed f -> forall l2 l1 st, all_slots f = l1 ++ l2 -> inv f l1 st ->
  exists st', for_each l2 (fun p st => setup_slot f (fst p) (snd p) st) st = Some st' /\ inv f (all_slots f) st'.
Proof.
  intros W. induction l2 as [|[e a] l2 IH]; intros l1 st E I.
  - rewrite app_nil_r in E. exists st. split; [reflexivity|]. now rewrite E.
  - destruct (inv_step f l1 e a l2 st W E I) as (st1 & E1 & I1). cbn [for_each fst snd]. rewrite E1. cbn [obind].
    apply (IH (l1 ++ [(e, a)])); [rewrite <- app_assoc; exact E|exact I1].
Qed.

Lemma setup_inv f : well_formed f -> exists st, material_state_setup f = Some st /\ inv f (all_slots f) st.
Proof. intros W. rewrite setup_pairs. apply (inv_loop f W (all_slots f) []); [reflexivity|apply inv0]. Qed.

(** Bad material numbers or too many slots are out of bounds. *)
Lemma slot_none f e a st : (in_max f <= a \/ in_mats f <= in_mat f e a)%nat -> setup_slot f e a st = None.
Proof.
  intros H. unfold setup_slot. destruct (Nat.ltb_spec a (in_max f)); [|reflexivity]. destruct (Nat.ltb_spec (in_mat f e a) (in_mats f)); [lia|reflexivity].
Qed.

Lemma for_each_none {A S} (body : A -> S -> option S) x : (forall s, body x s = None) -> forall l s, In x l -> for_each l body s = None.
Proof.
  intros H. induction l as [|y l IH]; intros s Hin; [destruct Hin|]. cbn. destruct Hin as [->|Hin]; [now rewrite H|]. destruct (body y s); cbn; [now apply IH|reflexivity].
Qed.

Lemma setup_defined_iff f : (0 < in_ng f)%nat -> ((exists st, material_state_setup f = Some st) <-> well_formed f).
Proof.
  intros Hg. split; [|intros W; destruct (setup_inv f W) as (st & E & _); eauto]. intros [st H]. split; [exact Hg|]. intros e a U.
  destruct (Nat.lt_ge_cases a (in_max f)) as [A|A]; [destruct (Nat.lt_ge_cases (in_mat f e a) (in_mats f)) as [B|B]; [split; assumption|]|]; exfalso;
  rewrite setup_pairs in H; rewrite (for_each_none _ (e, a)) in H; try discriminate; try (now apply in_all_slots); intros s; apply slot_none; cbn [fst snd]; auto.
Qed.

(** ** The maps *)
Definition get_slot (st : store) (e a : nat) : option nat := aget (st_slot st) e a.

Lemma slot_to_elem f st e a : well_formed f -> material_state_setup f = Some st -> used f e a ->
  exists s, aget (st_slot st) e a = Some s /\ (s < num_saved f (in_mat f e a))%nat /\ rget (st_elem st) (in_mat f e a) s = Some e /\
            nth_error (slots_of f (in_mat f e a)) s = Some (e, a).
Proof.
  intros W H U. destruct (setup_inv f W) as (st' & E & [I1 [I2 I2'] I3 [I4 I4'] I5 I6 I7 I8]). assert (st' = st) by congruence. subst st'.
  destruct (proj2 W e a U) as [Wa Wm]. assert (U' := proj2 (in_all_slots f e a) U). apply in_split in U'. destruct U' as (l1 & l2 & HA).
  set (m := in_mat f e a) in *. exists (length (mine f m l1)).
  assert (NE : nth_error (slots_of f m) (length (mine f m l1)) = Some (e, a)).
  { unfold slots_of. fold (mine f m (all_slots f)). rewrite HA, mine_app, nth_error_app2, Nat.sub_diag by lia. cbn [mine filter fst snd]. fold m. rewrite Nat.eqb_refl. reflexivity. }
  assert (L : (length (mine f m l1) < num_saved f m)%nat). { rewrite num_saved_mine. apply nth_error_Some. unfold slots_of in NE. unfold mine at 1. rewrite NE. discriminate. }
  split; [|split; [exact L|split; [|exact NE]]].
  - unfold aget. rewrite I4, I4'. destruct U as [Ue _]. rewrite (proj2 (Nat.ltb_lt e (in_ne f)) Ue), (proj2 (Nat.ltb_lt a (in_max f)) Wa). cbn [andb].
    exact (I6 l1 e a l2 HA).
  - unfold rget. rewrite I2. destruct (I3 m) as [-> _]. rewrite (proj2 (Nat.ltb_lt m (in_mats f)) Wm), (proj2 (Nat.ltb_lt _ _) L). cbn [andb].
    rewrite I5. fold (slots_of f m) in NE. unfold slots_of in NE. unfold mine at 1. rewrite NE. reflexivity.
Qed.

Lemma slots_of_in f m e a : In (e, a) (slots_of f m) <-> used f e a /\ in_mat f e a = m.
Proof. unfold slots_of. rewrite filter_In, in_all_slots. cbn [fst snd]. now rewrite Nat.eqb_eq. Qed.

Lemma slots_of_nodup f m : NoDup (slots_of f m).
Proof. apply NoDup_filter, all_slots_nodup. Qed.

Lemma elem_to_slot f st m s : well_formed f -> material_state_setup f = Some st -> (m < in_mats f)%nat -> (s < num_saved f m)%nat ->
  exists e a, used f e a /\ in_mat f e a = m /\ aget (st_slot st) e a = Some s /\ rget (st_elem st) m s = Some e /\
  forall e' a', used f e' a' -> in_mat f e' a' = m -> aget (st_slot st) e' a' = Some s -> e' = e /\ a' = a.
Proof.
  intros W H Hm Hs. rewrite num_saved_mine in Hs. destruct (nth_error (slots_of f m) s) as [[e a]|] eqn:NE.
  2:{ apply nth_error_None in NE. unfold slots_of in NE. unfold mine in Hs. lia. }
  assert (U := nth_error_In _ _ NE). apply slots_of_in in U as [U M].
  assert (UQ : forall e' a', used f e' a' -> in_mat f e' a' = m -> forall s', aget (st_slot st) e' a' = Some s' -> nth_error (slots_of f m) s' = Some (e', a')).
  { intros e' a' U' M' s' G. destruct (slot_to_elem f st e' a' W H U') as (s2 & G2 & _ & _ & N2). rewrite M' in N2. congruence. }
  destruct (slot_to_elem f st e a W H U) as (s2 & G2 & L2 & R2 & N2). rewrite M in *.
  assert (s2 = s). { apply (proj1 (NoDup_nth_error _) (slots_of_nodup f m)); [apply nth_error_Some; congruence|congruence]. } subst s2.
  exists e, a. split; [exact U|]. split; [exact M|]. split; [exact G2|]. split; [exact R2|].
  intros e' a' U' M' G'. assert (X := UQ e' a' U' M' s G'). rewrite NE in X. split; congruence.
Qed.

(** elements of a material are stored in increasing order *)
Lemma sorted_flat (g : nat -> nat) n k : forall i j p q, (i < j)%nat -> nth_error (flat_map (fun e => map (pair e) (seq 0 (g e))) (seq k n)) i = Some p ->
  nth_error (flat_map (fun e => map (pair e) (seq 0 (g e))) (seq k n)) j = Some q -> (fst p < fst q \/ fst p = fst q /\ snd p < snd q)%nat.
Proof.
  revert k. induction n as [|n IH]; intros k i j p q Hij Hi Hj; [destruct i; discriminate|]. cbn [seq flat_map] in *.
  assert (LM : length (map (pair k) (seq 0 (g k))) = g k) by now rewrite map_length, seq_length.
  assert (HD : forall i p, nth_error (map (pair k) (seq 0 (g k))) i = Some p -> p = (k, i)).
  { intros i' p' X. assert (i' < g k)%nat by (rewrite <- LM; apply nth_error_Some; congruence).
    rewrite nth_error_map in X. rewrite (nth_error_nth' (seq 0 (g k)) 0%nat) in X by (rewrite seq_length; lia). cbn in X. rewrite seq_nth in X by lia. cbn in X. congruence. }
  destruct (Nat.lt_ge_cases j (g k)) as [A|A].
  - rewrite nth_error_app1 in Hi, Hj by lia. rewrite (HD _ _ Hi), (HD _ _ Hj). cbn. lia.
  - rewrite nth_error_app2, LM in Hj by lia. destruct (Nat.lt_ge_cases i (g k)) as [B|B].
    + rewrite nth_error_app1 in Hi by lia. rewrite (HD _ _ Hi). apply nth_error_In, in_flat_map in Hj as (e & He & Hq). apply in_seq in He.
      apply in_map_iff in Hq as (b & <- & _). cbn. lia.
    + rewrite nth_error_app2, LM in Hi by lia. apply (IH (S k) (i - g k)%nat (j - g k)%nat p q); [lia|exact Hi|exact Hj].
Qed.

Lemma filter_sorted {A} (P : A -> bool) (Rel : A -> A -> Prop) l : (forall i j p q, (i < j)%nat -> nth_error l i = Some p -> nth_error l j = Some q -> Rel p q) ->
  forall i j p q, (i < j)%nat -> nth_error (filter P l) i = Some p -> nth_error (filter P l) j = Some q -> Rel p q.
Proof.
  induction l as [|x l IH]; intros H i j p q Hij Hi Hj; [destruct i; discriminate|].
  assert (H' : forall i j p q, (i < j)%nat -> nth_error l i = Some p -> nth_error l j = Some q -> Rel p q).
  { intros i' j' p' q' L X Y. apply (H (S i') (S j') p' q'); [lia|exact X|exact Y]. }
  cbn [filter] in *. destruct (P x); [|now apply (IH H' i j)].
  destruct j as [|j]; [lia|]. cbn in Hj. destruct i as [|i].
  - cbn in Hi. injection Hi as <-. apply nth_error_In, filter_In in Hj as [Hj _]. apply In_nth_error in Hj as [k Hk]. apply (H 0%nat (S k)); [lia|reflexivity|exact Hk].
  - cbn in Hi. apply (IH H' i j); [lia|exact Hi|exact Hj].
Qed.

Lemma elem_get f st m s e : well_formed f -> material_state_setup f = Some st -> rget (st_elem st) m s = Some e -> exists a, nth_error (slots_of f m) s = Some (e, a).
Proof.
  intros W H G. destruct (setup_inv f W) as (st' & E & [I1 [I2 I2'] I3 I4 I5 I6 I7 I8]). assert (st' = st) by congruence. subst st'.
  unfold rget in G. destruct (_ && _)%bool; [|discriminate]. rewrite I5 in G. unfold slots_of. unfold mine in G. destruct (nth_error _ s) as [[e' a]|]; [|discriminate]. cbn in G. exists a. congruence.
Qed.

Lemma elem_sorted f st m s s' e e' : well_formed f -> material_state_setup f = Some st -> (s < s')%nat -> rget (st_elem st) m s = Some e -> rget (st_elem st) m s' = Some e' ->
  (e < e' \/ e = e' /\ exists a a', (a < a')%nat /\ in_mat f e a = m /\ in_mat f e a' = m)%nat.
Proof.
  intros W H L G G'. destruct (elem_get f st m s e W H G) as [a A]. destruct (elem_get f st m s' e' W H G') as [a' A'].
  assert (X := filter_sorted _ (fun p q => fst p < fst q \/ fst p = fst q /\ snd p < snd q)%nat (all_slots f)
    (fun i j p q => sorted_flat (in_num f) (in_ne f) 0 i j p q) s s' _ _ L A A'). cbn in X.
  destruct X as [X|[X Y]]; [now left|right]. split; [exact X|]. exists a, a'. split; [exact Y|].
  apply nth_error_In, slots_of_in in A, A'. destruct A as [_ A]. destruct A' as [_ A']. split; [exact A|]. now rewrite X.
Qed.

(** ** Points *)
Lemma point_get f st m t : well_formed f -> material_state_setup f = Some st -> (m < in_mats f)%nat -> (t < num_points f m)%nat -> rget (st_point st) m t = point_at f (slots_of f m) t.
Proof.
  intros W H Hm Ht. destruct (setup_inv f W) as (st' & E & [I1 [I2 I2'] I3 I4 I5 I6 I7 I8]). assert (st' = st) by congruence. subst st'.
  unfold rget. rewrite I2'. destruct (I3 m) as [_ ->]. rewrite (proj2 (Nat.ltb_lt _ _) Hm), (proj2 (Nat.ltb_lt _ _) Ht). cbn [andb]. apply I7.
Qed.

Lemma slots_of_length f m : length (slots_of f m) = num_saved f m.
Proof. now rewrite num_saved_mine. Qed.

Lemma point_of_slot f st e a s : well_formed f -> in_ng f = 1%nat -> material_state_setup f = Some st -> used f e a -> aget (st_slot st) e a = Some s ->
  rget (st_point st) (in_mat f e a) s = Some (setup_point f e a e).
Proof.
  intros W G1 H U G. destruct (slot_to_elem f st e a W H U) as (s2 & G2 & L & _ & N). assert (s2 = s) by congruence. subst s2.
  destruct (proj2 W e a U) as [_ Wm]. rewrite (point_get f st _ s W H Wm) by (unfold num_points; rewrite G1; lia).
  unfold point_at. rewrite slots_of_length, G1. rewrite (proj2 (Nat.ltb_lt 0 (num_saved f (in_mat f e a)))) by lia.
  rewrite (proj2 (Nat.ltb_lt s (num_saved f (in_mat f e a) - 1 + 1))) by lia. cbn [andb].
  replace (Nat.min s (num_saved f (in_mat f e a) - 1)) with s by lia. rewrite N, Nat.sub_diag. cbn [option_map fst snd]. now rewrite Nat.add_0_r.
Qed.

(** Several gauss points: entry t holds gauss point 0 of slot t, or for the last slot of the material its point t - last. *)
Lemma points_overwritten f st e a s g : well_formed f -> material_state_setup f = Some st -> used f e a -> aget (st_slot st) e a = Some s ->
  (S s < num_saved f (in_mat f e a))%nat -> (0 < g < in_ng f)%nat -> (s + g < num_saved f (in_mat f e a))%nat ->
  exists e' a', nth_error (slots_of f (in_mat f e a)) (s + g) = Some (e', a') /\ rget (st_point st) (in_mat f e a) (s + g) = Some (setup_point f e' a' e').
Proof.
  intros W H U G Ls Hg Lg. destruct (proj2 W e a U) as [_ Wm]. set (m := in_mat f e a) in *.
  destruct (nth_error (slots_of f m) (s + g)) as [[e' a']|] eqn:NE; [|apply nth_error_None in NE; rewrite slots_of_length in NE; lia].
  exists e', a'. split; [reflexivity|]. rewrite (point_get f st m (s + g) W H Wm) by (unfold num_points; nia).
  unfold point_at. rewrite slots_of_length. rewrite (proj2 (Nat.ltb_lt 0 (num_saved f m))) by lia. rewrite (proj2 (Nat.ltb_lt (s + g) (num_saved f m - 1 + in_ng f))) by lia. cbn [andb].
  replace (Nat.min (s + g) (num_saved f m - 1)) with (s + g)%nat by lia. rewrite NE, Nat.sub_diag. cbn [option_map fst snd]. now rewrite Nat.add_0_r.
Qed.

(** ** Totals *)
Lemma sumn_nth {A} (l : list A) (d : A) (h : A -> R) : sumn (length l) (fun i => h (nth i l d)) = suml h l.
Proof.
  induction l as [|x l IH]; [reflexivity|]. rewrite suml_cons, <- IH. cbn [length]. rewrite <- (Nat.add_1_l (length l)), sumn_split.
  f_equal. cbn [sumn nth]. ring.
Qed.

Lemma material_mass f st m : well_formed f -> in_ng f = 1%nat -> material_state_setup f = Some st -> (m < in_mats f)%nat ->
  sumn (num_points f m) (stored_mass st m) = suml (fun p => slot_mass f (fst p) (snd p)) (slots_of f m).
Proof.
  intros W G1 H Hm. rewrite <- (sumn_nth (slots_of f m) (0, 0)%nat). rewrite slots_of_length. unfold num_points. rewrite G1, Nat.mul_1_r. apply sumn_ext. intros s Hs.
  destruct (nth_error (slots_of f m) s) as [[e a]|] eqn:NE; [|apply nth_error_None in NE; rewrite slots_of_length in NE; lia].
  rewrite (nth_error_nth _ _ (0, 0)%nat NE). cbn [fst snd]. assert (U := nth_error_In _ _ NE). apply slots_of_in in U as [U M].
  destruct (slot_to_elem f st e a W H U) as (s2 & G2 & _ & _ & N2). rewrite M in N2.
  assert (s2 = s). { apply (proj1 (NoDup_nth_error _) (slots_of_nodup f m)); [apply nth_error_Some; congruence|congruence]. } subst s2.
  assert (P := point_of_slot f st e a s W G1 H U G2). rewrite M in P. unfold stored_mass. rewrite P. reflexivity.
Qed.

Lemma suml_filter_all {A} (h : A -> R) (key : A -> nat) n l : (forall x, In x l -> (key x < n)%nat) ->
  sumn n (fun m => suml h (filter (fun x => Nat.eqb (key x) m) l)) = suml h l.
Proof.
  induction l as [|x l IH]; intros H.
  - cbn [filter]. rewrite (sumn_ext n _ (fun _ => 0)) by (intros; reflexivity). rewrite sumn_const. change (suml h []) with 0. ring.
  - rewrite suml_cons. rewrite <- IH by (intros y Hy; apply H; now right).
    rewrite (sumn_ext n _ (fun m => (if Nat.eqb m (key x) then h x else 0) + suml h (filter (fun x => Nat.eqb (key x) m) l))).
    + rewrite sumn_plus. f_equal. apply (sumn_delta n (key x) (h x)). apply H. now left.
    + intros m _. cbn [filter]. rewrite (Nat.eqb_sym m). destruct (Nat.eqb (key x) m); [now rewrite suml_cons|ring].
Qed.

Lemma suml_all_slots f (h : nat -> nat -> R) : suml (fun p => h (fst p) (snd p)) (all_slots f) = sumn (in_ne f) (fun e => sumn (in_num f e) (h e)).
Proof.
  unfold all_slots. rewrite <- suml_seq. induction (seq 0 (in_ne f)) as [|e l IH]; [reflexivity|]. cbn [flat_map]. rewrite suml_app, suml_cons, IH. f_equal.
  rewrite <- suml_seq. rewrite suml_map. reflexivity.
Qed.

Lemma total_mass f st : well_formed f -> in_ng f = 1%nat -> material_state_setup f = Some st ->
  sumn (in_mats f) (fun m => sumn (num_points f m) (stored_mass st m)) = sumn (in_ne f) (fun e => sumn (in_num f e) (slot_mass f e)).
Proof.
  intros W G1 H. rewrite (sumn_ext _ _ (fun m => suml (fun p => slot_mass f (fst p) (snd p)) (slots_of f m))) by (intros m Hm; now apply material_mass).
  unfold slots_of. rewrite (suml_filter_all _ (fun p => in_mat f (fst p) (snd p))).
  - apply suml_all_slots.
  - intros [e a] X. apply in_all_slots in X. apply (proj2 W e a X).
Qed.

(** ** Level set *)
Lemma ls_fold f x l : forall v, let r := fold_left (fun v p => if (Nat.leb (fst p) x && Nat.ltb x (fst p + in_ng f))%bool then fmin v (in_ls f x (snd p)) else v) l v in
  r <= v /\ (forall e a, In (e, a) l -> (e <= x < e + in_ng f)%nat -> r <= in_ls f x a) /\ (r = v \/ exists e a, In (e, a) l /\ (e <= x < e + in_ng f)%nat /\ r = in_ls f x a).
Proof.
  induction l as [|[e a] l IH]; intros v; cbn zeta in *; cbn [fold_left fst snd].
  - split; [lra|]. split; [intros e a []|now left].
  - set (b := (Nat.leb e x && Nat.ltb x (e + in_ng f))%bool) in *. set (w := if b then fmin v (in_ls f x a) else v).
    destruct (IH w) as (A & B & C).
    assert (BT : b = true <-> (e <= x < e + in_ng f)%nat) by (unfold b; rewrite andb_true_iff, Nat.leb_le, Nat.ltb_lt; tauto).
    assert (WV : w <= v /\ (b = true -> w <= in_ls f x a) /\ (w = v \/ b = true /\ w = in_ls f x a)).
    { unfold w. destruct b; [|split; [lra|split; [discriminate|now left]]]. unfold fmin, Rmin. destruct (Rle_dec v (in_ls f x a)).
      - split; [lra|]. split; [intros _; lra|now left].
      - split; [lra|]. split; [intros _; lra|right; split; reflexivity]. }
    destruct WV as (W1 & W2 & W3). split; [lra|]. split.
    + intros e' a' [E|Hin] Hx; [injection E as -> ->; apply BT in Hx; apply W2 in Hx; lra|now apply B with e'].
    + destruct C as [C|(e' & a' & Hin & Hx & C)]; [|right; exists e', a'; split; [now right|split; assumption]].
      destruct W3 as [W3|[W3 W4]]; [left; congruence|right]. exists e, a. split; [now left|]. split; [now apply BT|congruence].
Qed.

Lemma level_set_min f st e : well_formed f -> in_ng f = 1%nat -> material_state_setup f = Some st -> (e < in_ne f)%nat ->
  st_ls st e <= 1e32 /\ (forall a, (a < in_num f e)%nat -> st_ls st e <= in_ls f e a) /\
  (st_ls st e = 1e32 \/ exists a, (a < in_num f e)%nat /\ st_ls st e = in_ls f e a).
Proof.
  intros W G1 H He. destruct (setup_inv f W) as (st' & E & I). assert (st' = st) by congruence. subst st'. rewrite (iv_ls _ _ _ I).
  destruct (ls_fold f e (all_slots f) 1e32) as (A & B & C). fold (ls_at f (all_slots f) e) in *. split; [exact A|]. split.
  - intros a Ha. apply (B e a); [apply in_all_slots; split; assumption|lia].
  - destruct C as [C|(e' & a & Hin & Hx & C)]; [now left|right]. assert (e' = e) by lia. subst e'. apply in_all_slots in Hin as [_ Ha]. exists a. split; assumption.
Qed.
