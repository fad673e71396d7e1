(* Proofs about the checkpoints. *)
From Coq Require Import Reals List Arith ZArith Bool Lia Lra Sorted Permutation.
From Verif Require Import CkptModel CkptSpec.
Import ListNotations.
Local Open Scope nat_scope.

Lemma last_ck_app l c : last_ck (l ++ [c]) = Some c.
Proof. unfold last_ck. rewrite rev_app_distr. reflexivity. Qed.
Lemma last_ck_inv l c : last_ck l = Some c -> exists l', l = l' ++ [c].
Proof. unfold last_ck. destruct (rev l) as [|d r] eqn:E; intros Q; inversion Q; subst. exists (rev r). rewrite <- (rev_involutive l), E. reflexivity. Qed.
Lemma insert_end c l : (forall d, In d l -> ck_step d < ck_step c) -> insert_ck c l = l ++ [c].
Proof.
  induction l as [|d r IH]; intros Hl; [reflexivity|]. cbn [insert_ck app].
  pose proof (Hl d (or_introl eq_refl)) as Hd. destruct (Nat.ltb_spec (ck_step c) (ck_step d)); [lia|]. destruct (Nat.ltb_spec (ck_step d) (ck_step c)); [|lia].
  rewrite IH; [reflexivity|]. intros e He. apply Hl. right; exact He.
Qed.

Definition sorted (l : list ck) : Prop := StronglySorted lt (map ck_step l).
Lemma sorted_app l1 l2 : sorted (l1 ++ l2) <-> sorted l1 /\ sorted l2 /\ (forall a b, In a l1 -> In b l2 -> ck_step a < ck_step b).
Proof.
  unfold sorted. induction l1 as [|a r IH]; cbn [app map].
  - split; [intros Hs; repeat split; [constructor|exact Hs|intros a b []]|tauto].
  - split.
    + intros Hs. apply StronglySorted_inv in Hs. destruct Hs as [Hs Hf]. apply IH in Hs. destruct Hs as (H1 & H2 & H3). rewrite map_app in Hf. apply Forall_app in Hf. destruct Hf as [Hf1 Hf2].
      split; [constructor; assumption|]. split; [exact H2|]. intros x y [<- | Hx] Hy; [|apply H3; assumption]. rewrite Forall_forall in Hf2. apply Hf2, in_map, Hy.
    + intros (H1 & H2 & H3). apply StronglySorted_inv in H1. destruct H1 as [H1 Hf]. constructor.
      * apply IH. repeat split; [exact H1|exact H2|]. intros x y Hx. apply H3. right; exact Hx.
      * rewrite map_app. apply Forall_app. split; [exact Hf|]. rewrite Forall_forall. intros k Hk. apply in_map_iff in Hk. destruct Hk as (y & <- & Hy). apply H3; [left; reflexivity|exact Hy].
Qed.
Lemma sorted_one c : sorted [c]. Proof. unfold sorted. cbn [map]. repeat constructor. Qed.
Lemma filter_all {A} (f : A -> bool) l : (forall a, In a l -> f a = true) -> filter f l = l.
Proof. induction l as [|a r IH]; intros Hl; [reflexivity|]. cbn [filter]. rewrite (Hl a (or_introl eq_refl)), IH; [reflexivity|]. intros b Hb. apply Hl. right; exact Hb. Qed.
Lemma erase_mid l1 d l2 : sorted (l1 ++ d :: l2) -> erase_ck d (l1 ++ d :: l2) = l1 ++ l2.
Proof.
  intros Hs. apply sorted_app in Hs. destruct Hs as (_ & H2 & H3). change (d :: l2) with ([d] ++ l2) in H2. apply sorted_app in H2. destruct H2 as (_ & _ & H2).
  unfold erase_ck. rewrite filter_app. cbn [filter]. rewrite Nat.eqb_refl. cbn [negb].
  rewrite !filter_all; [reflexivity| |].
  - intros a Ha. apply negb_true_iff, Nat.eqb_neq. specialize (H2 d a (or_introl eq_refl) Ha). lia.
  - intros a Ha. apply negb_true_iff, Nat.eqb_neq. specialize (H3 a d Ha (or_introl eq_refl)). lia.
Qed.

Definition vectors {X} (s : store X) : list nat := map ck_buf (cks s) ++ cached s.
Record shape {X} (K m : nat) (s : store X) : Prop := Shape {
  sh_begin : exists b rest, cks s = b :: rest /\ ck_step b = 0 /\ active s = length rest;
  sh_sorted : sorted (cks s);
  sh_last : exists l c, cks s = l ++ [c] /\ ck_step c = m;
  sh_nodup : NoDup (vectors s);
  sh_bound : forall b, In b (vectors s) -> b <= K;
  sh_active : active s <= K }.

Lemma shape_le {X} K m (s : store X) : shape K m s -> forall c, In c (cks s) -> ck_step c <= m.
Proof.
  intros Hs c Hc. destruct (sh_last K m s Hs) as (l & e & E & Em). pose proof (sh_sorted K m s Hs) as Ho. rewrite E in Ho, Hc. apply sorted_app in Ho. destruct Ho as (_ & _ & Ho).
  apply in_app_or in Hc. destruct Hc as [Hc | [-> | []]]; [|lia]. specialize (Ho c e Hc (or_introl eq_refl)). lia.
Qed.
Lemma shape_within {X} K m (s : store X) : shape K m s -> within K s.
Proof.
  intros Hs. split; [|split; [exact (sh_nodup K m s Hs)|exact (sh_bound K m s Hs)]].
  destruct (sh_begin K m s Hs) as (b & rest & E & _ & Ea). pose proof (sh_active K m s Hs). rewrite E. cbn [length]. lia.
Qed.

(* What a recorded step does: the new checkpoint is the last, the others were there and hold what
   they held. *)
Definition recorded {X} (m : nat) (x : X) (t dt : R) (s s' : store X) : Prop :=
  exists l c, cks s' = l ++ [c] /\ ck_step c = m /\ ck_time c = t /\ ck_dt c = dt /\ mem s' (ck_buf c) = x /\
    forall e, In e l -> In e (cks s) /\ mem s' (ck_buf e) = mem s (ck_buf e).

Lemma put_same {X} (m : nat -> X) b x : put m b x b = x. Proof. unfold put. rewrite Nat.eqb_refl. reflexivity. Qed.
Lemma put_other {X} (m : nat -> X) b x i : i <> b -> put m b x i = m i. Proof. intros Hi. unfold put. apply Nat.eqb_neq in Hi. rewrite Hi. reflexivity. Qed.

(* one more checkpoint in a vector that is not in use *)
Lemma add_ok {X} K m (s : store X) (x : X) t dt b rest r rl bb :
  shape K m s -> active s < K -> Permutation (b :: map ck_buf (cks s) ++ rest) (b :: vectors s) \/ Permutation (map ck_buf (cks s) ++ b :: rest) (vectors s) ->
  (~ In b (vectors s) /\ b <= K /\ rest = cached s) \/ cached s = b :: rest ->
  let s' := Store (insert_ck (Ck (m + 1) 0 b t dt) (cks s)) (put (mem s) b x) rest (S (active s)) r rl bb in
  shape K (m + 1) s' /\ recorded (m + 1) x t dt s s' /\ cks s' = cks s ++ [Ck (m + 1) 0 b t dt].
Proof.
  intros Hs Ha _ Hb. cbv zeta. set (c := Ck (m + 1) 0 b t dt).
  assert (Hi : insert_ck c (cks s) = cks s ++ [c]). { apply insert_end. intros d Hd. unfold c. cbn [ck_step]. pose proof (shape_le K m s Hs d Hd). lia. }
  assert (Hp : Permutation (map ck_buf (cks s ++ [c]) ++ rest) (map ck_buf (cks s) ++ b :: rest)). { rewrite map_app. unfold c. cbn [map ck_buf]. rewrite <- app_assoc. reflexivity. }
  assert (Hn : NoDup (map ck_buf (cks s) ++ b :: rest) /\ (forall v, In v (map ck_buf (cks s) ++ b :: rest) -> v <= K)).
  { destruct Hb as [(Hb & HbK & ->) | Hb].
    - split.
      + apply (Permutation_NoDup (Permutation_middle (map ck_buf (cks s)) (cached s) b)). constructor; [exact Hb|exact (sh_nodup K m s Hs)].
      + intros v Hv. apply (Permutation_in v (Permutation_sym (Permutation_middle _ _ _))) in Hv. destruct Hv as [<- | Hv]; [exact HbK|]. apply (sh_bound K m s Hs). exact Hv.
    - rewrite <- Hb. split; [exact (sh_nodup K m s Hs)|exact (sh_bound K m s Hs)]. }
  destruct Hn as [Hn HnK].
  split; [|split].
  - destruct (sh_begin K m s Hs) as (b0 & r0 & E & E0 & Ea). constructor; cbn [cks active].
    + exists b0, (r0 ++ [c]). rewrite Hi, E. split; [reflexivity|]. split; [exact E0|]. rewrite app_length. cbn [length]. lia.
    + rewrite Hi. apply sorted_app. split; [exact (sh_sorted K m s Hs)|]. split; [apply sorted_one|]. intros a e Hae [<- | []]. unfold c. cbn [ck_step]. pose proof (shape_le K m s Hs a Hae). lia.
    + exists (cks s), c. split; [exact Hi|reflexivity].
    + unfold vectors. cbn [cks cached]. rewrite Hi. apply (Permutation_NoDup (Permutation_sym Hp)). exact Hn.
    + unfold vectors. cbn [cks cached]. rewrite Hi. intros v Hv. apply HnK. apply (Permutation_in v Hp). exact Hv.
    + lia.
  - exists (cks s), c. cbn [cks mem]. unfold c at 2 3 4 5. cbn [ck_step ck_time ck_dt ck_buf]. split; [exact Hi|]. do 3 (split; [reflexivity|]). split; [apply put_same|].
    intros e He. split; [exact He|]. apply put_other. intros E. apply NoDup_remove_2 in Hn. apply Hn. apply in_or_app. left. rewrite <- E. apply in_map, He.
  - exact Hi.
Qed.

(* the vector of a checkpoint after the first is used again *)
Lemma replace_ok {X} K m (s : store X) (x : X) t dt l1 d l2 lvl r rl bb :
  shape K m s -> cks s = l1 ++ d :: l2 -> l1 <> [] ->
  let s' := Store (insert_ck (Ck (m + 1) lvl (ck_buf d) t dt) (erase_ck d (cks s))) (put (mem s) (ck_buf d) x) (cached s) (active s) r rl bb in
  shape K (m + 1) s' /\ recorded (m + 1) x t dt s s' /\ exists l, cks s' = l ++ [Ck (m + 1) lvl (ck_buf d) t dt].
Proof.
  intros Hs E Hl1. cbv zeta. set (c := Ck (m + 1) lvl (ck_buf d) t dt). pose proof (sh_sorted K m s Hs) as Ho.
  assert (He : erase_ck d (cks s) = l1 ++ l2). { rewrite E. apply erase_mid. rewrite <- E. exact Ho. }
  assert (Hle : forall a, In a (l1 ++ l2) -> In a (cks s)). { intros a Ha. rewrite E. apply in_app_or in Ha. apply in_or_app. destruct Ha as [Ha | Ha]; [left; exact Ha|right; right; exact Ha]. }
  assert (Hi : insert_ck c (erase_ck d (cks s)) = (l1 ++ l2) ++ [c]). { rewrite He. apply insert_end. intros a Ha. unfold c. cbn [ck_step]. pose proof (shape_le K m s Hs a (Hle a Ha)). lia. }
  assert (Hp : Permutation (map ck_buf ((l1 ++ l2) ++ [c]) ++ cached s) (vectors s)).
  { unfold vectors. rewrite E. apply Permutation_app_tail. rewrite !map_app. unfold c. cbn [map ck_buf]. rewrite <- app_assoc. apply Permutation_app_head. apply Permutation_sym. apply Permutation_cons_append. }
  split; [|split].
  - destruct (sh_begin K m s Hs) as (b0 & r0 & E0 & E1 & Ea). destruct l1 as [|b1 r1]; [congruence|]. rewrite E in E0. cbn [app] in E0. inversion E0; subst b1 r0.
    constructor; cbn [cks active].
    + exists b0, ((r1 ++ l2) ++ [c]). rewrite Hi. split; [reflexivity|]. split; [exact E1|]. rewrite Ea, !app_length. cbn [length]. lia.
    + rewrite Hi. rewrite E in Ho. apply sorted_app in Ho. destruct Ho as (Q1 & Q2 & Q3). change (d :: l2) with ([d] ++ l2) in Q2. apply sorted_app in Q2. destruct Q2 as (_ & Q2 & _).
      apply sorted_app. split; [|split; [apply sorted_one|]].
      * apply sorted_app. split; [exact Q1|]. split; [exact Q2|]. intros a e Ha Hae. apply Q3; [exact Ha|right; exact Hae].
      * intros a e Ha [<- | []]. unfold c. cbn [ck_step]. pose proof (shape_le K m s Hs a (Hle a Ha)). lia.
    + exists ((b0 :: r1) ++ l2), c. split; [exact Hi|reflexivity].
    + unfold vectors. cbn [cks cached]. rewrite Hi. apply (Permutation_NoDup (Permutation_sym Hp)). exact (sh_nodup K m s Hs).
    + unfold vectors. cbn [cks cached]. rewrite Hi. intros v Hv. apply (sh_bound K m s Hs). apply (Permutation_in v Hp). exact Hv.
    + exact (sh_active K m s Hs).
  - exists (l1 ++ l2), c. cbn [cks mem]. unfold c at 2 3 4 5. cbn [ck_step ck_time ck_dt ck_buf]. split; [exact Hi|]. do 3 (split; [reflexivity|]). split; [apply put_same|].
    intros e Hee. split; [apply Hle, Hee|]. apply put_other. intros Eb. pose proof (sh_nodup K m s Hs) as Hn. unfold vectors in Hn. rewrite E, map_app in Hn. cbn [map] in Hn. rewrite <- app_assoc in Hn. cbn [app] in Hn.
    apply NoDup_remove_2 in Hn. apply Hn. rewrite <- Eb. apply in_app_or in Hee. apply in_or_app. destruct Hee as [Hee | Hee]; [left; apply in_map, Hee|right; apply in_or_app; left; apply in_map, Hee].
  - exists (l1 ++ l2). exact Hi.
Qed.

Lemma dispensable_in l r lvl d : dispensable l r lvl = Some d -> In d (tl l).
Proof. unfold dispensable. intros E. apply find_some in E. destruct E as [E _]. apply in_rev in E. apply filter_In in E. apply E. Qed.
Lemma after_begin (l : list ck) d : In d (tl l) -> exists l1 l2, l = l1 ++ d :: l2 /\ l1 <> [].
Proof. destruct l as [|b r]; cbn [tl]; [intros []|]. intros Hd. apply in_split in Hd. destruct Hd as (l1 & l2 & ->). exists (b :: l1), l2. split; [reflexivity|discriminate]. Qed.

(* a step recorded when all vectors are in use *)
Lemma record_full {X} again K m (s : store X) (x : X) t dt r :
  1 <= K -> shape K m s -> active s = K -> raised s = Some r ->
  exists s' r', record again K (m + 1) x t dt s = Some s' /\ shape K (m + 1) s' /\ recorded (m + 1) x t dt s s' /\ cached s' = cached s /\ active s' = active s /\ raised s' = Some r' /\ (r' = r \/ r' = m + 1) /\
    (1 <= r -> before_begin s' = before_begin s).
Proof.
  intros HK Hs Ha Hr. unfold record. replace (active s <? K) with false by (symmetry; apply Nat.ltb_ge; lia). rewrite Hr.
  set (ab := match cks s with [] => false | b :: _ => r =? ck_step b end).
  assert (Hab : 1 <= r -> (before_begin s || ab)%bool = before_begin s).
  { intros H1. unfold ab. destruct (sh_begin K m s Hs) as (b & rest & -> & E0 & _). rewrite E0. destruct r; [lia|]. cbn [Nat.eqb]. apply orb_false_r. }
  destruct (if ab then None else dispensable (cks s) r (raised_level s)) as [d|] eqn:Ed.
  - assert (Hd : In d (tl (cks s))). { destruct ab; [discriminate|]. apply (dispensable_in _ _ _ _ Ed). }
    destruct (after_begin _ _ Hd) as (l1 & l2 & E & Hl1).
    destruct (replace_ok K m s x t dt l1 d l2 0%Z (Some r) (raised_level s) (before_begin s || ab)%bool Hs E Hl1) as (Q1 & Q2 & _).
    eexists. exists r. split; [reflexivity|]. split; [exact Q1|]. split; [exact Q2|]. cbn [cached active raised before_begin]. split; [reflexivity|]. split; [reflexivity|]. split; [reflexivity|]. split; [left; reflexivity|exact Hab].
  - destruct (sh_last K m s Hs) as (l & c & E & Ec). assert (El : last_ck (cks s) = Some c) by (rewrite E; apply last_ck_app). rewrite El.
    assert (Hl : l <> []). { intros ->. destruct (sh_begin K m s Hs) as (b & rest & E1 & _ & E2). rewrite E in E1. cbn [app] in E1. inversion E1; subst. cbn [length] in E2. lia. }
    destruct (replace_ok K m s x t dt l c [] (ck_level c + 1)%Z (Some (m + 1)) (ck_level c + 1)%Z (before_begin s || ab)%bool Hs E Hl) as (Q1 & Q2 & (l' & Q3)).
    cbn [cks] in Q3. cbv zeta. rewrite Q3, last_ck_app. cbn [option_map ck_step]. rewrite <- Q3.
    eexists. exists (m + 1). split; [reflexivity|]. split; [exact Q1|]. split; [exact Q2|]. cbn [cached active raised before_begin]. split; [reflexivity|]. split; [reflexivity|]. split; [reflexivity|]. split; [right; reflexivity|exact Hab].
Qed.

Lemma recorded_true {X H} (p : problem X H) l0 m x t dt s s' :
  recorded (m + 1) x t dt s s' -> kept_true p l0 s -> x = state_at p l0 (m + 1) -> t = time_at p l0 (m + 1) -> dt = led_by p l0 (m + 1) -> kept_true p l0 s'.
Proof.
  intros (l & c & E & E1 & E2 & E3 & E4 & Hl) Hk -> -> ->. intros e He. rewrite E in He. apply in_app_or in He. destruct He as [He | [<- | []]].
  - destruct (Hl e He) as [Hi Hm]. rewrite Hm. apply Hk, Hi.
  - rewrite E1, E2, E3, E4. auto.
Qed.

(* ---------- the forward solution ---------- *)

Definition dense {X} (m : nat) (s : store X) : Prop := map ck_step (cks s) = seq 0 (S m).
Record going {X} (K m : nat) (s : store X) : Prop := Going {
  go_shape : shape K m s;
  go_cached : cached s = [];
  go_low : active s < K -> forall b, In b (map ck_buf (cks s)) -> b <= active s;
  go_raised : 1 <= active s -> exists r, raised s = Some r /\ 1 <= r;
  go_dense : active s = K \/ dense m s;
  go_fine : before_begin s = false }.

Lemma record_forward {X} K m (s : store X) (x : X) t dt : 1 <= K -> going K m s ->
  exists s', record false K (m + 1) x t dt s = Some s' /\ going K (m + 1) s' /\ recorded (m + 1) x t dt s s'.
Proof.
  intros HK [Hs Hc Hlow Hr Hd Hf]. destruct (Nat.ltb_spec (active s) K) as [Ha | Ha].
  - unfold record. replace (active s <? K) with true by (symmetry; apply Nat.ltb_lt; exact Ha).
    assert (Hb : ~ In (S (active s)) (vectors s)). { unfold vectors. rewrite Hc, app_nil_r. intros Q. apply (Hlow Ha) in Q. lia. }
    cbv zeta.
    destruct (add_ok K m s x t dt (S (active s)) (cached s) (Some (m + 1)) (raised_level s) (before_begin s) Hs Ha (or_introl (Permutation_refl _)) (or_introl (conj Hb (conj Ha eq_refl)))) as (Q1 & Q2 & Q3).
    cbn [cks] in Q3. rewrite Q3, last_ck_app. cbn [option_map ck_step]. rewrite <- Q3. eexists. split; [reflexivity|]. split; [|exact Q2].
    constructor; cbn [cks cached active raised before_begin]; [exact Q1|exact Hc| | | |exact Hf].
    + intros _ b. rewrite Q3, map_app. cbn [map ck_buf]. intros Hin. apply in_app_or in Hin. destruct Hin as [Hin | [<- | []]]; [|lia]. apply (Hlow Ha) in Hin. lia.
    + intros _. exists (m + 1). split; [reflexivity|lia].
    + right. unfold dense. cbn [cks]. rewrite Q3, map_app. cbn [map ck_step]. destruct Hd as [Hd | Hd]; [lia|]. unfold dense in Hd. rewrite Hd. replace (m + 1) with (S m) by lia. rewrite (seq_S (S m) 0). reflexivity.
  - assert (Hk : active s = K) by (pose proof (sh_active K m s Hs); lia). destruct (Hr ltac:(lia)) as (r & Er & Hr1).
    destruct (record_full false K m s x t dt r HK Hs Hk Er) as (s' & r' & E & Q1 & Q2 & Q3 & Q4 & Q5 & Q6 & Q7).
    exists s'. split; [exact E|]. split; [|exact Q2]. constructor; [exact Q1|rewrite Q3; exact Hc|intros; lia| |left; lia|rewrite Q7; assumption].
    intros _. exists r'. split; [exact Q5|]. destruct Q6; lia.
Qed.

Lemma going_first {X H} K (l0 : loop X H) m0 : going K 0 (first_store l0 m0).
Proof.
  unfold first_store. constructor; cbn [cks cached active raised before_begin]; [|reflexivity| | |right; reflexivity|reflexivity].
  - constructor; unfold vectors; cbn [cks active cached map app ck_buf].
    + eexists. exists []. repeat split.
    + apply sorted_one.
    + exists []. eexists. repeat split.
    + constructor; [intros []|constructor].
    + intros b [<- | []]. lia.
    + lia.
  - intros _ b [<- | []]. cbn [ck_buf]. lia.
  - lia.
Qed.
Lemma true_first {X H} (p : problem X H) l0 m0 : kept_true p l0 (first_store l0 m0).
Proof. intros c [<- | []]. cbn [ck_buf ck_step ck_time ck_dt first_store mem]. rewrite put_same. repeat split. Qed.

Lemma step_led {X H} again (p : problem X H) c l : snd (cycle_step again p c l) = timestep p l.
Proof. unfold cycle_step. destruct (evolve p (timestep p l) (lx l) (lh l)). cbv zeta. destruct (written _ _ _ _); reflexivity. Qed.

(* every forward run: what it keeps is right, and it ends at its bound or at the final time *)
Lemma forward_ok {X H} (p : problem X H) K l0 todo : 1 <= K -> forall m s, going K m s -> kept_true p l0 s ->
  exists last k s', forward p K todo m (history p l0 m) s = Some (last, history p l0 k, s') /\ going K k s' /\ kept_true p l0 s' /\
    ((last = k /\ k = m + todo /\ (forall j, m < j <= k -> (time_at p l0 j < p_final p)%R)) \/
     (k = last + 1 /\ m < k <= m + todo /\ (p_final p <= time_at p l0 k)%R /\ (forall j, m < j < k -> (time_at p l0 j < p_final p)%R))).
Proof.
  intros HK. induction todo as [|todo IH]; intros m s Hg Ht.
  - exists m, m, s. cbn [forward]. split; [reflexivity|]. split; [exact Hg|]. split; [exact Ht|]. left. split; [reflexivity|]. split; [lia|]. intros; lia.
  - cbn [forward]. pose proof (step_led false p m (history p l0 m)) as Hl. assert (Hh : fst (cycle_step false p m (history p l0 m)) = history p l0 (m + 1)) by (rewrite Nat.add_1_r; reflexivity).
    destruct (cycle_step false p m (history p l0 m)) as [l' dt]. cbn [fst snd] in Hl, Hh. subst l' dt.
    destruct (record_forward K m s (lx (history p l0 (m + 1))) (lt_ (history p l0 (m + 1))) (timestep p (history p l0 m)) HK Hg) as (s' & E & Hg' & Hrec). rewrite E.
    assert (Ht' : kept_true p l0 s'). { apply (recorded_true p l0 m _ _ _ s s' Hrec Ht); [reflexivity|reflexivity|]. rewrite Nat.add_1_r. reflexivity. }
    destruct (Rle_dec (p_final p) (lt_ (history p l0 (m + 1)))) as [Hle | Hle].
    + exists m, (m + 1), s'. split; [reflexivity|]. split; [exact Hg'|]. split; [exact Ht'|]. right. split; [reflexivity|]. split; [lia|]. split; [exact Hle|]. intros; lia.
    + apply Rnot_le_lt in Hle. destruct (IH (m + 1) s' Hg' Ht') as (last & k & s2 & E2 & Q1 & Q2 & Q3). exists last, k, s2. split; [exact E2|]. split; [exact Q1|]. split; [exact Q2|].
      destruct Q3 as [(A1 & A2 & A3) | (A1 & A2 & A3 & A4)].
      * left. split; [exact A1|]. split; [lia|]. intros j Hj. destruct (Nat.eq_dec j (m + 1)) as [-> | Hn]; [exact Hle|]. apply A3. lia.
      * right. split; [exact A1|]. split; [lia|]. split; [exact A3|]. intros j Hj. destruct (Nat.eq_dec j (m + 1)) as [-> | Hn]; [exact Hle|]. apply A4. lia.
Qed.

(* ---------- quiet runs ---------- *)

Local Open Scope R_scope.
Lemma step_time {X H} again (p : problem X H) c l : lt_ (fst (cycle_step again p c l)) = lt_ l + timestep p l.
Proof. unfold cycle_step. destruct (evolve p (timestep p l) (lx l) (lh l)). cbv zeta. destruct (written _ _ _ _); reflexivity. Qed.
Lemma step_state {X H} again (p : problem X H) c l : lx (fst (cycle_step again p c l)) = fst (evolve p (timestep p l) (lx l) (lh l)).
Proof. unfold cycle_step. destruct (evolve p (timestep p l) (lx l) (lh l)). cbv zeta. destruct (written _ _ _ _); reflexivity. Qed.
Definition free_step {X H} (p : problem X H) (l : loop X H) : R := if Rlt_dec (limit p (lx l)) (ld l * (11 / 10)) then limit p (lx l) else ld l * (11 / 10).
Lemma timestep_quiet {X H} (p : problem X H) l : p_final p < lg l -> 0 <= p_fuzz p -> timestep p l = Rmin (free_step p l) (p_final p - lt_ l).
Proof. intros Hg Hf. unfold timestep. cbv zeta. fold (free_step p l). rewrite <- Rmin_assoc. f_equal. apply Rmin_right. lra. Qed.
Lemma free_pos {X H} (p : problem X H) l : 0 < ld l -> (forall x, 0 < limit p x) -> 0 < free_step p l.
Proof. intros Hd Hl. unfold free_step. destruct (Rlt_dec _ _); [apply Hl|lra]. Qed.
Lemma not_written {X H} (p : problem X H) k t g n : (S k < n)%nat -> (n <= p_cyc p)%nat -> t < p_final p -> p_final p < g -> written p k t g = false.
Proof.
  intros Hk Hn Ht Hg. unfold written. rewrite Nat.mod_small by lia. replace (k + 1 =? 0)%nat with false by (symmetry; apply Nat.eqb_neq; lia). cbn [andb orb].
  destruct (Rle_dec (p_final p) t); [lra|]. destruct (Rle_dec g t); [lra|]. reflexivity.
Qed.

Lemma quiet_history {X H} (p : problem X H) l0 n : before_end p l0 n -> quiet p l0 n ->
  forall k, (k < n)%nat -> 0 <= time_at p l0 k /\ ld (history p l0 k) = led_by p l0 k /\ 0 < led_by p l0 k /\ lg (history p l0 k) = lg l0.
Proof.
  intros He (Q1 & Q2 & Q3 & Q4 & Q5 & Q6 & Q7). induction k as [|k IH]; intros Hk.
  - unfold time_at. cbn [history led_by]. auto.
  - destruct IH as (I1 & I2 & I3 & I4); [lia|]. pose proof (He k ltac:(lia)) as Ht. pose proof (He (S k) Hk) as Ht'. unfold time_at in Ht, Ht', I1 |- *.
    assert (Hp : 0 < timestep p (history p l0 k)).
    { rewrite timestep_quiet; [|rewrite I4; exact Q2|exact Q3]. apply Rmin_glb_lt; [|lra]. apply free_pos; [rewrite I2; exact I3|exact Q7]. }
    cbn [history led_by] in *. rewrite step_time in *.
    assert (Hw : written p k (lt_ (history p l0 k) + timestep p (history p l0 k)) (lg (history p l0 k)) = false). { apply (not_written p k _ _ n); [exact Hk|exact Q4|exact Ht'|rewrite I4; exact Q2]. }
    unfold cycle_step. destruct (evolve p (timestep p (history p l0 k)) (lx (history p l0 k)) (lh (history p l0 k))) as [x h]. cbv zeta. rewrite Hw. cbn [fst ld lg]. repeat split; [lra|exact Hp|exact I4].
Qed.

(* the state of the loop that solves again, beside the forward one *)
Definition sync {X H} (p : problem X H) (l0 l : loop X H) (m : nat) : Prop := lx l = state_at p l0 m /\ lt_ l = time_at p l0 m /\ ld l = led_by p l0 m /\ p_final p < lg l.
Lemma sync_step {X H} (p : problem X H) l0 n l m : before_end p l0 n -> quiet p l0 n -> self_contained p -> (S m < n)%nat -> sync p l0 l m ->
  let l' := fst (cycle_step true p m l) in sync p l0 l' (m + 1) /\ timestep p l = led_by p l0 (m + 1).
Proof.
  intros He Hq Hsc Hm (S1 & S2 & S3 & S4). cbv zeta. destruct (quiet_history p l0 n He Hq m ltac:(lia)) as (_ & I2 & _ & I4). pose proof Hq as (Q1 & Q2 & Q3 & Q4 & _).
  assert (Et : timestep p l = timestep p (history p l0 m)).
  { rewrite !timestep_quiet; [|rewrite I4; exact Q2|exact Q3|exact S4|exact Q3]. unfold free_step. unfold state_at, time_at in S1, S2. rewrite S1, S2, S3, I2. reflexivity. }
  rewrite Nat.add_1_r. split; [|exact Et].
  pose proof (He (S m) Hm) as Ht. unfold time_at in Ht. cbn [history] in Ht. rewrite step_time in Ht.
  assert (Hw : written p m (lt_ l + timestep p l) (lg l) = false). { apply (not_written p m _ _ n); [exact Hm|exact Q4|unfold time_at in S2; rewrite S2, Et; exact Ht|exact S4]. }
  split; [|split; [|split]].
  - unfold state_at. cbn [history]. rewrite !step_state, Et. unfold state_at in S1. rewrite S1. apply Hsc.
  - unfold time_at. cbn [history]. rewrite !step_time, Et. unfold time_at in S2. rewrite S2. reflexivity.
  - cbn [led_by]. rewrite <- Et. unfold cycle_step. destruct (evolve p (timestep p l) (lx l) (lh l)). cbv zeta. rewrite Hw. reflexivity.
  - unfold cycle_step. destruct (evolve p (timestep p l) (lx l) (lh l)). cbv zeta. rewrite Hw. exact S4.
Qed.

Local Open Scope nat_scope.
Lemma record_again {X} K m (s : store X) (x : X) t dt r : 1 <= K -> shape K m s -> length (cached s) + active s = K -> raised s = Some r ->
  exists s' r', record true K (m + 1) x t dt s = Some s' /\ shape K (m + 1) s' /\ recorded (m + 1) x t dt s s' /\ length (cached s') + active s' = K /\ raised s' = Some r'.
Proof.
  intros HK Hs Hc Hr. destruct (Nat.ltb_spec (active s) K) as [Ha | Ha].
  - destruct (cached s) as [|b rest] eqn:Eb; [cbn [length] in Hc; lia|]. unfold record. replace (active s <? K) with true by (symmetry; apply Nat.ltb_lt; exact Ha). rewrite Eb.
    destruct (add_ok K m s x t dt b rest (raised s) (raised_level s) (before_begin s) Hs Ha) as (Q1 & Q2 & _); [|right; exact Eb|].
    { right. unfold vectors. rewrite Eb. apply Permutation_refl. }
    eexists. exists r. split; [reflexivity|]. split; [exact Q1|]. split; [exact Q2|]. cbn [cached active raised]. cbn [length] in Hc. split; [lia|exact Hr].
  - assert (Hk : active s = K) by (pose proof (sh_active K m s Hs); lia).
    destruct (record_full true K m s x t dt r HK Hs Hk Hr) as (s' & r' & E & Q1 & Q2 & Q3 & Q4 & Q5 & _). exists s', r'. rewrite Q3, Q4. auto.
Qed.

Lemma again_ok {X H} (p : problem X H) l0 n K : 1 <= K -> before_end p l0 n -> quiet p l0 n -> self_contained p ->
  forall todo m l s r, shape K m s -> kept_true p l0 s -> length (cached s) + active s = K -> raised s = Some r -> sync p l0 l m -> m + todo < n ->
  exists l' s', again_loop p K todo m l s = Some (l', s') /\ shape K (m + todo) s' /\ kept_true p l0 s' /\ length (cached s') + active s' = K.
Proof.
  intros HK He Hq Hsc. induction todo as [|todo IH]; intros m l s r Hs Ht Hc Hr Hy Hm.
  - exists l, s. rewrite Nat.add_0_r. auto.
  - cbn [again_loop]. destruct (sync_step p l0 n l m He Hq Hsc ltac:(lia) Hy) as [Hy' Et]. pose proof (step_led true p m l) as El.
    destruct (cycle_step true p m l) as [l' dt]. cbn [fst snd] in Hy', El. subst dt.
    destruct (record_again K m s (lx l') (lt_ l') (timestep p l) r HK Hs Hc Hr) as (s' & r' & E & Q1 & Q2 & Q3 & Q4). rewrite E.
    assert (Ht' : kept_true p l0 s'). { apply (recorded_true p l0 m _ _ _ s s' Q2 Ht); [apply Hy'|apply Hy'|exact Et]. }
    destruct (Rle_dec (p_final p) (lt_ l')) as [Hle | _].
    { exfalso. destruct Hy' as (_ & Y & _). rewrite Y in Hle. pose proof (He (m + 1) ltac:(lia)). lra. }
    destruct (IH (m + 1) l' s' r' Q1 Ht' Q3 Q4 Hy' ltac:(lia)) as (l2 & s2 & E2 & R1 & R2 & R3). exists l2, s2. replace (m + S todo) with (m + 1 + todo) by lia. auto.
Qed.

Lemma restore_sync {X H} (p : problem X H) l0 n c (s : store X) (h : H) : before_end p l0 n -> quiet p l0 n -> kept_true p l0 s -> In c (cks s) -> ck_step c < n ->
  sync p l0 (restore p c (mem s (ck_buf c)) h) (ck_step c).
Proof.
  intros He Hq Ht Hc Hn. destruct (Ht c Hc) as (T1 & T2 & T3). unfold sync, restore. cbn [lx lt_ ld lg]. split; [exact T1|]. split; [exact T2|]. split; [exact T3|].
  destruct (quiet_history p l0 n He Hq _ Hn) as (I1 & _). pose proof (He _ Hn) as I2. destruct Hq as (Q1 & _). rewrite <- T2 in I1, I2.
  assert (E : Int_part (ck_time c / p_ival p) = 0%Z).
  { assert (0 <= ck_time c / p_ival p)%R by (apply Rmult_le_pos; [lra|left; apply Rinv_0_lt_compat; lra]). assert (ck_time c / p_ival p < 1)%R by (apply (Rmult_lt_reg_r (p_ival p)); [lra|]; unfold Rdiv; rewrite Rmult_assoc, Rinv_l by lra; lra).
    destruct (base_Int_part (ck_time c / p_ival p)) as [B1 B2]. assert (IZR (Int_part (ck_time c / p_ival p)) < 1)%R by lra. assert (-1 < IZR (Int_part (ck_time c / p_ival p)))%R by lra.
    apply lt_IZR in H3. apply lt_IZR in H2. lia. }
  rewrite E. lra.
Qed.

Lemma pop_shape {X} K m l c (s : store X) r rl bb : shape K (S m) s -> cks s = l ++ [c] -> exists l1 c1,
  l = l1 ++ [c1] /\ ck_step c1 <= m /\ erase_ck c (cks s) = l /\ active s = S (pred (active s)) /\
  shape K (ck_step c1) (Store l (mem s) (ck_buf c :: cached s) (pred (active s)) r rl bb).
Proof.
  intros Hs E. destruct (sh_last K _ s Hs) as (l' & c' & E' & Ec). rewrite E in E'. apply app_inj_tail in E'. destruct E' as [<- <-].
  destruct (sh_begin K _ s Hs) as (b & rest & E1 & Eb & Ea).
  destruct l as [|b' r0] eqn:El. { rewrite E in E1. cbn [app] in E1. inversion E1; subst. lia. }
  rewrite E in E1. cbn [app] in E1. inversion E1; subst b' rest. destruct (exists_last (l := b :: r0) ltac:(discriminate)) as (l1 & c1 & E2). exists l1, c1.
  pose proof (sh_sorted K _ s Hs) as Ho. rewrite E in Ho. pose proof Ho as Ho2. apply sorted_app in Ho. destruct Ho as (O1 & _ & O3).
  split; [exact E2|]. split. { assert (ck_step c1 < ck_step c); [|lia]. apply O3; [rewrite E2; apply in_or_app; right; left; reflexivity|left; reflexivity]. }
  split. { rewrite E. rewrite (erase_mid (b :: r0) c [] Ho2). apply app_nil_r. }
  rewrite app_length in Ea. cbn [length] in Ea. split; [lia|].
  assert (Ev : vectors (Store (b :: r0) (mem s) (ck_buf c :: cached s) (pred (active s)) r rl bb) = vectors s).
  { unfold vectors. rewrite E. cbn [cks cached]. rewrite map_app. cbn [map]. rewrite <- app_assoc. reflexivity. }
  constructor; try rewrite Ev; cbn [cks active].
  - exists b, r0. split; [reflexivity|]. split; [exact Eb|]. lia.
  - exact O1.
  - exists l1, c1. split; [exact E2|reflexivity].
  - exact (sh_nodup K _ s Hs).
  - exact (sh_bound K _ s Hs).
  - pose proof (sh_active K _ s Hs). lia.
Qed.

Lemma first_raised_some (l : list ck) b rest : l = b :: rest -> exists r, first_raised l = Some r.
Proof. intros ->. unfold first_raised. cbn [tl hd_error option_map]. destruct (filter _ rest); eexists; reflexivity. Qed.

Lemma cycle_ok {X H} (p : problem X H) l0 n K : 1 <= K -> before_end p l0 n -> quiet p l0 n -> self_contained p ->
  forall m h s, m < n -> shape K (S m) s -> kept_true p l0 s -> length (cached s) + active s = K \/ dense (S m) s ->
  exists h2 s2, adjoint_cycle p K m h s = Some (View (state_at p l0 (S m)) (led_by p l0 (S m)) (state_at p l0 m) (time_at p l0 m), h2, s2) /\
      shape K m s2 /\ kept_true p l0 s2 /\ (length (cached s2) + active s2 = K \/ dense m s2).
Proof.
  intros HK He Hq Hsc m h s Hm Hs Ht Hd.
destruct (sh_last K _ s Hs) as (l & c & E & Ec).
    destruct (pop_shape K m l c s (raised s) (raised_level s) (before_begin s) Hs E) as (l1 & c1 & El & Hc1 & Ee & Ea & Hs1).
    set (s1 := Store l (mem s) (ck_buf c :: cached s) (pred (active s)) (raised s) (raised_level s) (before_begin s)) in *.
    assert (Ht1 : kept_true p l0 s1). { intros e Hee. apply Ht. rewrite E. apply in_or_app. left. exact Hee. }
    assert (Hin : In c (cks s)) by (rewrite E; apply in_or_app; right; left; reflexivity).
    destruct (Ht c Hin) as (T1 & T2 & T3). rewrite Ec in T1, T2, T3.
      assert (Elast : last_ck (cks s) = Some c) by (rewrite E; apply last_ck_app).
      assert (Elast1 : last_ck l = Some c1) by (rewrite El; apply last_ck_app).
      assert (Hfin : forall s2, shape K m s2 -> kept_true p l0 s2 -> exists c2, last_ck (cks s2) = Some c2 /\ mem s2 (ck_buf c2) = state_at p l0 m /\ ck_time c2 = time_at p l0 m).
      { intros s2 Hs2 Ht2. destruct (sh_last K _ s2 Hs2) as (l2 & c2 & E2 & Ec2). exists c2. split; [rewrite E2; apply last_ck_app|]. destruct (Ht2 c2) as (U1 & U2 & _); [rewrite E2; apply in_or_app; right; left; reflexivity|]. rewrite Ec2 in U1, U2. auto. }
      unfold adjoint_cycle. rewrite Elast. cbv zeta. rewrite Ee. fold s1. change (cks s1) with l. rewrite Elast1.
      destruct (Nat.eqb_spec (ck_step c1) m) as [Em | Em].
      - rewrite Em in Hs1. destruct (Hfin s1 Hs1 Ht1) as (c2 & F1 & F2 & F3). change (cks s1) with l in F1. change (cks s1) with l. rewrite F1. exists h, s1. rewrite F2, F3, T1, T3. split; [reflexivity|]. split; [exact Hs1|]. split; [exact Ht1|].
        destruct Hd as [Hd | Hd]; [left|right]; unfold s1; cbn [cached active length].
        + lia.
        + unfold dense in *. cbn [cks]. rewrite E, map_app, (seq_S (S m) 0) in Hd. cbn [map] in Hd. apply app_inj_tail in Hd. apply Hd.
      - assert (Hc : length (cached s1) + active s1 = K).
        { destruct Hd as [Hd | Hd]; [unfold s1; cbn [cached active length]; lia|]. exfalso. apply Em. unfold dense in Hd. rewrite E, El, !map_app, (seq_S (S m) 0) in Hd. cbn [map] in Hd. apply app_inj_tail in Hd. destruct Hd as [Hd _]. rewrite (seq_S m 0) in Hd. apply app_inj_tail in Hd. destruct Hd as [_ Hd]. exact Hd. }
        unfold checkpoint_solve. destruct (sh_begin K _ s1 Hs1) as (b & rest & Eb & _). destruct (first_raised_some _ b rest Eb) as [r Er].
        set (s1' := Store (cks s1) (mem s1) (cached s1) (active s1) (first_raised (cks s1)) 0%Z (before_begin s1)).
        assert (Hs1' : shape K (ck_step c1) s1'). { destruct Hs1 as [G1 G2 G3 G4 G5 G6]. constructor; assumption. }
        assert (Hin1 : In c1 (cks s1)). { unfold s1. cbn [cks]. rewrite El. apply in_or_app. right. left. reflexivity. }
        destruct (again_ok p l0 n K HK He Hq Hsc (m - ck_step c1) (ck_step c1) (restore p c1 (mem s1 (ck_buf c1)) h) s1' r Hs1' Ht1 Hc Er (restore_sync p l0 n c1 s1 h He Hq Ht1 Hin1 ltac:(lia)) ltac:(lia)) as (l' & s2 & A1 & A2 & A3 & A4).
        rewrite A1. replace (ck_step c1 + (m - ck_step c1)) with m in A2 by lia. destruct (Hfin s2 A2 A3) as (c2 & F1 & F2 & F3). rewrite F1. exists (lh l'), s2. rewrite F2, F3, T1, T3. auto.
Qed.

Lemma adjoint_ok {X H} (p : problem X H) l0 n K touch : 1 <= K -> before_end p l0 n -> quiet p l0 n -> self_contained p ->
  forall m h s, m <= n -> shape K m s -> kept_true p l0 s -> length (cached s) + active s = K \/ dense m s ->
  (exists s', adjoint p K touch m h s = Some (all_kept p l0 m, s') /\ shape K 0 s' /\ kept_true p l0 s') /\
  (forall some, some <= m -> exists s', after_cycles p K touch some m h s = Some s' /\ shape K (m - some) s' /\ kept_true p l0 s').
Proof.
  intros HK He Hq Hsc. induction m as [|m IH]; intros h s Hm Hs Ht Hd.
  - split; [exists s; auto|]. intros some Hsome. exists s. destruct some; auto.
  - destruct (cycle_ok p l0 n K HK He Hq Hsc m h s ltac:(lia) Hs Ht Hd) as (h2 & s2 & A1 & A2 & A3 & A4).
    destruct (IH (touch (View (state_at p l0 (S m)) (led_by p l0 (S m)) (state_at p l0 m) (time_at p l0 m)) h2) s2 ltac:(lia) A2 A3 A4) as ((s' & B1 & B2) & B3). split.
    + cbn [adjoint]. rewrite A1, B1. exists s'. split; [reflexivity|exact B2].
    + intros [|some] Hsome; cbn [after_cycles].
      * exists s. auto.
      * rewrite A1. destruct (B3 some ltac:(lia)) as (s3 & C1 & C2). exists s3. split; [exact C1|exact C2].
Qed.

(* the cycle past the last one: the state that was popped is solved for again *)
Lemma cycle_past {X H} (p : problem X H) l0 n K : 1 <= K -> before_end p l0 n -> quiet p l0 n -> self_contained p ->
  forall m h s, S m < n -> shape K (S m) s -> kept_true p l0 s -> length (cached s) + active s = K ->
  exists h2 s2, adjoint_cycle p K (S m) h s = Some (View (state_at p l0 (S m)) (led_by p l0 (S m)) (state_at p l0 (S m)) (time_at p l0 (S m)), h2, s2) /\
      shape K (S m) s2 /\ kept_true p l0 s2 /\ length (cached s2) + active s2 = K.
Proof.
  intros HK He Hq Hsc m h s Hm Hs Ht Hd.
  destruct (sh_last K _ s Hs) as (l & c & E & Ec).
  destruct (pop_shape K m l c s (raised s) (raised_level s) (before_begin s) Hs E) as (l1 & c1 & El & Hc1 & Ee & Ea & Hs1).
  set (s1 := Store l (mem s) (ck_buf c :: cached s) (pred (active s)) (raised s) (raised_level s) (before_begin s)) in *.
  assert (Ht1 : kept_true p l0 s1). { intros e Hee. apply Ht. rewrite E. apply in_or_app. left. exact Hee. }
  assert (Hin : In c (cks s)) by (rewrite E; apply in_or_app; right; left; reflexivity).
  destruct (Ht c Hin) as (T1 & T2 & T3). rewrite Ec in T1, T2, T3.
  assert (Elast : last_ck (cks s) = Some c) by (rewrite E; apply last_ck_app).
  assert (Elast1 : last_ck l = Some c1) by (rewrite El; apply last_ck_app).
  unfold adjoint_cycle. rewrite Elast. cbv zeta. rewrite Ee. fold s1. change (cks s1) with l. rewrite Elast1.
  destruct (Nat.eqb_spec (ck_step c1) (S m)) as [Em | Em]; [lia|].
  assert (Hc : length (cached s1) + active s1 = K) by (unfold s1; cbn [cached active length]; lia).
  unfold checkpoint_solve. destruct (sh_begin K _ s1 Hs1) as (b & rest & Eb & _). destruct (first_raised_some _ b rest Eb) as [r Er].
  set (s1' := Store (cks s1) (mem s1) (cached s1) (active s1) (first_raised (cks s1)) 0%Z (before_begin s1)).
  assert (Hs1' : shape K (ck_step c1) s1'). { destruct Hs1 as [G1 G2 G3 G4 G5 G6]. constructor; assumption. }
  assert (Hin1 : In c1 (cks s1)). { unfold s1. cbn [cks]. rewrite El. apply in_or_app. right. left. reflexivity. }
  destruct (again_ok p l0 n K HK He Hq Hsc (S m - ck_step c1) (ck_step c1) (restore p c1 (mem s1 (ck_buf c1)) h) s1' r Hs1' Ht1 Hc Er (restore_sync p l0 n c1 s1 h He Hq Ht1 Hin1 ltac:(lia)) ltac:(lia)) as (l' & s2 & A1 & A2 & A3 & A4).
  rewrite A1. replace (ck_step c1 + (S m - ck_step c1)) with (S m) in A2 by lia. destruct (sh_last K _ s2 A2) as (l2 & c2 & E2 & Ec2).
  assert (F1 : last_ck (cks s2) = Some c2) by (rewrite E2; apply last_ck_app). destruct (A3 c2) as (U1 & U2 & _); [rewrite E2; apply in_or_app; right; left; reflexivity|]. rewrite Ec2 in U1, U2.
  rewrite F1. exists (lh l'), s2. rewrite U1, U2, T1, T3. auto.
Qed.
