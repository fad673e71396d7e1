(* C139: the adjoint pass sees, from a few checkpoints, the forward solution of every cycle. *)
From Coq Require Import Reals List Arith ZArith Bool Lia Lra Sorted.
From Verif Require Import CkptModel CkptSpec CkptProofs.
Import ListNotations.
Local Open Scope R_scope.

(* Any forward solution, with at least one checkpoint allowed, whatever its steps and outputs:
   what is kept is right, is the start and the end among at most K + 1 states, and no vector is
   used twice. *)
Theorem C139_forward {X H} (p : problem X H) (K cycle_stop : nat) (l0 : loop X H) (m0 : nat -> X) : (1 <= K)%nat ->
  exists last k s, forward p K cycle_stop 0 l0 (first_store l0 m0) = Some (last, history p l0 k, s) /\
    (last = k \/ k = last + 1)%nat /\ (k <= cycle_stop)%nat /\
    kept_true p l0 s /\ within K s /\ before_begin s = false /\
    StronglySorted lt (map ck_step (cks s)) /\ hd_error (map ck_step (cks s)) = Some 0%nat /\ (exists l, map ck_step (cks s) = l ++ [k]) /\
    ((k <= K)%nat -> map ck_step (cks s) = seq 0 (S k)) /\ ((K <= k)%nat -> length (cks s) = S K).
Proof.
  intros HK. destruct (forward_ok p K l0 cycle_stop HK 0 (first_store l0 m0) (going_first K l0 m0) (true_first p l0 m0)) as (last & k & s & E & Hg & Ht & Hend).
  exists last, k, s. pose proof (go_shape K k s Hg) as Hs. destruct (sh_begin K k s Hs) as (b & rest & Eb & E0 & Ea).
  split; [exact E|]. split; [destruct Hend as [[-> _] | [-> _]]; auto|]. split; [destruct Hend as [(_ & -> & _) | (_ & Hk & _)]; lia|]. split; [exact Ht|]. split; [apply (shape_within K k), Hs|]. split; [exact (go_fine K k s Hg)|].
  split; [exact (sh_sorted K k s Hs)|]. split; [rewrite Eb; cbn [map hd_error]; rewrite E0; reflexivity|].
  split. { destruct (sh_last K k s Hs) as (l & c & El & <-). exists (map ck_step l). rewrite El, map_app. reflexivity. }
  split.
  - intros Hk. destruct (go_dense K k s Hg) as [Ha | Hd]; [|exact Hd].
    (* K steps in increasing order among 1 .. k <= K *)
    assert (Hlen : length (map ck_step (cks s)) = S K) by (rewrite map_length, Eb; cbn [length]; lia).
    assert (Hall : forall x, In x (map ck_step (cks s)) -> (x <= k)%nat). { intros x Hx. apply in_map_iff in Hx. destruct Hx as (c & <- & Hc). apply (shape_le K k s Hs c Hc). }
    pose proof (sh_sorted K k s Hs) as Ho. unfold sorted in Ho.
    assert (Hfit : forall l a, StronglySorted lt l -> (forall x, In x l -> (a <= x <= k)%nat) -> (S k - a <= length l)%nat -> l = seq a (S k - a)).
    { induction l as [|x l IH]; intros a Hl Hin Hle.
      - cbn [length] in Hle. replace (S k - a)%nat with 0%nat by lia. reflexivity.
      - apply StronglySorted_inv in Hl. destruct Hl as [Hl Hf]. rewrite Forall_forall in Hf. pose proof (Hin x (or_introl eq_refl)) as Hx.
        assert (Hlow : (length l <= k - x)%nat).
        { clear - Hl Hf Hin. revert x Hl Hf Hin. induction l as [|y l IHl]; intros x Hl Hf Hin; [cbn [length]; lia|]. apply StronglySorted_inv in Hl. destruct Hl as [Hl Hfy]. rewrite Forall_forall in Hfy.
          assert (x < y)%nat by (apply Hf; left; reflexivity). assert (a <= y <= k)%nat by (apply Hin; right; left; reflexivity). specialize (IHl y Hl Hfy). cbn [length].
          assert (length l <= k - y)%nat; [|lia]. apply IHl. intros z Hz. apply Hin. right. exact Hz. }
        cbn [length] in Hle. assert (x = a) by lia. subst x. replace (S k - a)%nat with (S (S k - S a)) by lia. cbn [seq]. f_equal. apply IH; [exact Hl| |lia].
        intros z Hz. pose proof (Hf z Hz). pose proof (Hin z (or_intror Hz)). lia. }
    rewrite (Hfit _ 0%nat Ho); [f_equal; lia| |rewrite Hlen; lia]. intros x Hx. pose proof (Hall x Hx). lia.
  - intros Hk. destruct (go_dense K k s Hg) as [Ha | Hd]; [rewrite Eb; cbn [length]; lia|].
    unfold dense in Hd. assert (Hl : length (map ck_step (cks s)) = S k) by (rewrite Hd; apply seq_length). rewrite map_length in Hl. pose proof (sh_active K k s Hs). rewrite Eb in *. cbn [length] in *. lia.
Qed.
Print Assumptions C139_forward.

(* A run that ends at the final time, without outputs on the way, of a problem whose step depends
   on the checkpointed state alone: the adjoint pass sees at each cycle the state after it, its
   time step, the state before it and its time, as if every state had been kept; and it never
   keeps more than the K + 1 states. *)
Theorem C139_adjoint {X H} (p : problem X H) (K cycle_stop n : nat) (touch : view X -> H -> H) (l0 : loop X H) (m0 : nat -> X) :
  (1 <= K)%nat -> (1 <= n <= cycle_stop)%nat -> ends_at p l0 n -> quiet p l0 n -> self_contained p ->
  exists l s, forward p K cycle_stop 0 l0 (first_store l0 m0) = Some ((n - 1)%nat, l, s) /\
    (exists s', optimization_run p K cycle_stop touch l0 m0 = Some (all_kept p l0 n, s')) /\
    (forall some, (some <= n)%nat -> exists s', after_cycles p K touch some n (lh l) s = Some s' /\ kept_true p l0 s' /\ within K s').
Proof.
  intros HK Hn [He Hend] Hq Hsc.
  destruct (forward_ok p K l0 cycle_stop HK 0 (first_store l0 m0) (going_first K l0 m0) (true_first p l0 m0)) as (last & k & s & E & Hg & Ht & Hcase).
  assert (Hkn : k = n /\ last = (n - 1)%nat).
  { destruct Hcase as [(A1 & A2 & A3) | (A1 & A2 & A3 & A4)].
    - exfalso. assert (time_at p l0 n < p_final p) by (apply A3; lia). lra.
    - assert (k = n); [|lia]. destruct (Nat.lt_trichotomy k n) as [Hlt | [Heq | Hgt]]; [|exact Heq|].
      + pose proof (He k Hlt). lra.
      + assert (time_at p l0 n < p_final p) by (apply A4; lia). lra. }
  destruct Hkn as [-> ->]. cbn [history] in E.
  assert (Hd : (length (cached s) + active s = K)%nat \/ dense n s). { rewrite (go_cached K n s Hg). cbn [length Nat.add]. exact (go_dense K n s Hg). }
  destruct (adjoint_ok p l0 n K touch HK He Hq Hsc n (lh (history p l0 n)) s (Nat.le_refl n) (go_shape K n s Hg) Ht Hd) as ((s' & A1 & _) & A2).
  exists (history p l0 n), s. split; [exact E|]. split.
  - exists s'. unfold optimization_run. rewrite E. replace (n - 1 + 1)%nat with n by lia. exact A1.
  - intros some Hsome. destruct (A2 some Hsome) as (s2 & B1 & B2 & B3). exists s2. split; [exact B1|]. split; [exact B3|]. apply (shape_within K (n - some)), B2.
Qed.
Print Assumptions C139_adjoint.

(* As it is: a run stopped by its number of cycles goes back one cycle too many.  The first cycle
   of the adjoint has the last state on both sides. *)
Theorem C139_stop_refuted {X H} (p : problem X H) (K N : nat) (touch : view X -> H -> H) (l0 : loop X H) (m0 : nat -> X) :
  (1 <= K <= N)%nat -> before_end p l0 (S N) -> quiet p l0 (S N) -> self_contained p ->
  exists s', optimization_run p K N touch l0 m0 = Some (View (state_at p l0 N) (led_by p l0 N) (state_at p l0 N) (time_at p l0 N) :: all_kept p l0 N, s').
Proof.
  intros HK He Hq Hsc. assert (HK1 : (1 <= K)%nat) by lia.
  destruct (forward_ok p K l0 N HK1 0 (first_store l0 m0) (going_first K l0 m0) (true_first p l0 m0)) as (last & k & s & E & Hg & Ht & Hcase).
  assert (Hkn : k = N /\ last = N).
  { destruct Hcase as [(A1 & A2 & A3) | (A1 & A2 & A3 & A4)]; [lia|]. exfalso. pose proof (He k ltac:(lia)). lra. }
  destruct Hkn as [-> ->]. cbn [history] in E. pose proof (go_shape K N s Hg) as Hs.
  assert (Hc : (length (cached s) + active s = K)%nat).
  { rewrite (go_cached K N s Hg). cbn [length Nat.add]. destruct (go_dense K N s Hg) as [Ha | Hd]; [exact Ha|]. unfold dense in Hd. assert (Hl : length (map ck_step (cks s)) = S N) by (rewrite Hd; apply seq_length). rewrite map_length in Hl.
    destruct (sh_begin K N s Hs) as (b & rest & Eb & _ & Ea). rewrite Eb in Hl. cbn [length] in Hl. pose proof (sh_active K N s Hs). lia. }
  destruct N as [|m]; [lia|].
  destruct (cycle_past p l0 (S (S m)) K HK1 He Hq Hsc m (lh (history p l0 (S m))) s ltac:(lia) Hs Ht Hc) as (h2 & s2 & A1 & A2 & A3 & A4).
  destruct (adjoint_ok p l0 (S (S m)) K touch HK1 He Hq Hsc (S m) (touch (View (state_at p l0 (S m)) (led_by p l0 (S m)) (state_at p l0 (S m)) (time_at p l0 (S m))) h2) s2 ltac:(lia) A2 A3 (or_introl A4)) as ((s' & B1 & _) & _).
  exists s'. unfold optimization_run. rewrite E. rewrite Nat.add_1_r. change (adjoint p K touch (S (S m)) (lh (history p l0 (S m))) s) with
    (match adjoint_cycle p K (S m) (lh (history p l0 (S m))) s with None => None | Some (v, h', s') => match adjoint p K touch (S m) (touch v h') s' with Some (vs, s'') => Some (v :: vs, s'') | None => None end end).
  rewrite A1, B1. reflexivity.
Qed.
Print Assumptions C139_stop_refuted.

(* ---------- small problems ---------- *)

(* one number that moves with time; no stable limit to speak of *)
Definition drift (final ival : R) (cyc : nat) : problem R unit := Problem (fun dt x h => (x + dt, h)) (fun _ => 1000) 0 final ival cyc false.
Definition start : loop R unit := Loop 0 tt 0 1 100.
Lemma step_eq {H} (a a' c c' d d' g g' e e' : R) (h : H) : a = a' -> c = c' -> d = d' -> g = g' -> e = e' -> (Loop a h c d g, e) = (Loop a' h c' d' g', e').
Proof. intros -> -> -> -> ->. reflexivity. Qed.
Ltac one_step v :=
  unfold cycle_step;
  match goal with |- context [timestep ?p ?l] => let E := fresh in assert (E : timestep p l = v) by (unfold timestep, drift; cbv zeta; cbn [ld limit lx lg lt_ p_fuzz p_final]; unfold Rmin; repeat destruct (Rle_dec _ _); repeat destruct (Rlt_dec _ _); lra); rewrite E; clear E end;
  cbn [evolve drift lx lh lt_ ld lg]; cbv zeta; unfold written; cbn [p_cyc p_final p_write_final p_ival drift Nat.add Nat.modulo Nat.divmod snd Nat.sub Nat.eqb Nat.ltb Nat.leb andb orb];
  rewrite ?andb_false_r; cbn [orb];
  repeat match goal with |- context [Rle_dec ?a ?b] => destruct (Rle_dec a b); [try (exfalso; lra)|try (exfalso; lra)] end;
  cbn [orb]; apply step_eq; lra.

(* A quiet run of three steps. *)
Definition calm := drift 3 10 5.
Lemma calm_1 b : cycle_step b calm 0 start = (Loop (11 / 10) tt (11 / 10) (11 / 10) 100, 11 / 10).
Proof. unfold calm, start. one_step (11 / 10). Qed.
Lemma calm_2 b : cycle_step b calm 1 (Loop (11 / 10) tt (11 / 10) (11 / 10) 100) = (Loop (231 / 100) tt (231 / 100) (121 / 100) 100, 121 / 100).
Proof. unfold calm. one_step (121 / 100). Qed.
Lemma calm_3 b : cycle_step b calm 2 (Loop (231 / 100) tt (231 / 100) (121 / 100) 100) = (Loop 3 tt 3 (69 / 100) 100, 69 / 100).
Proof. unfold calm. one_step (69 / 100). Qed.
Lemma calm_history : history calm start 1 = Loop (11 / 10) tt (11 / 10) (11 / 10) 100 /\ history calm start 2 = Loop (231 / 100) tt (231 / 100) (121 / 100) 100 /\ history calm start 3 = Loop 3 tt 3 (69 / 100) 100.
Proof. cbn [history]. rewrite calm_1. cbn [fst]. rewrite calm_2. cbn [fst]. rewrite calm_3. repeat split. Qed.
Lemma calm_quiet n : (n <= 5)%nat -> quiet calm start n.
Proof. intros Hn. unfold quiet, calm, drift, start. cbn [p_final p_ival lg p_fuzz p_cyc lt_ ld limit]. repeat split; try lra; [exact Hn|intros; lra]. Qed.
Lemma calm_self : self_contained calm. Proof. intros dt x h h'. reflexivity. Qed.
Lemma calm_before : before_end calm start 3.
Proof. destruct calm_history as (H1 & H2 & _). intros k Hk. unfold time_at. assert (Ek : k = 0%nat \/ k = 1%nat \/ k = 2%nat) by lia. destruct Ek as [-> | [-> | ->]]; [|rewrite H1|rewrite H2]; unfold start, calm, drift; cbn [history lt_ p_final]; lra. Qed.

(* One checkpoint beside the first: the adjoint of three steps solves two of them again. *)
Example C139_met : ends_at calm start 3 /\ quiet calm start 3 /\ self_contained calm /\ before_end calm start 3 /\
  exists s, optimization_run calm 1 7 (fun _ h => h) start (fun _ => 0) = Some ([View 3 (69 / 100) (231 / 100) (231 / 100); View (231 / 100) (121 / 100) (11 / 10) (11 / 10); View (11 / 10) (11 / 10) 0 0], s).
Proof.
  destruct calm_history as (H1 & H2 & H3).
  assert (He : ends_at calm start 3). { split; [exact calm_before|]. unfold time_at. rewrite H3. unfold calm, drift. cbn [lt_ p_final]. lra. }
  split; [exact He|]. split; [apply calm_quiet; lia|]. split; [exact calm_self|]. split; [exact calm_before|].
  destruct (C139_adjoint calm 1 7 3 (fun _ h => h) start (fun _ => 0) ltac:(lia) ltac:(lia) He (calm_quiet 3 ltac:(lia)) calm_self) as (l & s & _ & (s' & E) & _).
  exists s'. rewrite E. do 2 f_equal. cbn [all_kept led_by]. unfold state_at, time_at. rewrite H1, H2, H3.
  assert (T : forall k l d, snd (cycle_step false calm k l) = d -> timestep calm l = d) by (intros k l1 d <-; symmetry; apply step_led).
  change (history calm start 0) with start. rewrite (T 0%nat start (11 / 10)), (T 1%nat (Loop (11 / 10) tt (11 / 10) (11 / 10) 100) (121 / 100)), (T 2%nat (Loop (231 / 100) tt (231 / 100) (121 / 100) 100) (69 / 100)); [reflexivity|rewrite calm_3; reflexivity|rewrite calm_2; reflexivity|rewrite calm_1; reflexivity].
Qed.

(* one cycle at a time *)
Ltac run := cbv [record first_store cks mem cached active raised raised_level before_begin insert_ck erase_ck last_ck rev app filter negb Nat.eqb Nat.ltb Nat.leb Nat.add Nat.sub ck_step ck_level ck_buf ck_time ck_dt option_map dispensable find tl hd_error first_raised lx lt_ lh ld orb pred Z.eqb Z.add Z.ltb Z.compare start]; reflexivity.
Lemma forward_go {X H} (p : problem X H) K todo c l s l' dt s' out : cycle_step false p c l = (l', dt) -> record false K (c + 1) (lx l') (lt_ l') dt s = Some s' -> lt_ l' < p_final p ->
  forward p K todo (c + 1) l' s' = out -> forward p K (S todo) c l s = out.
Proof. intros E1 E2 Hlt <-. cbn [forward]. rewrite E1, E2. destruct (Rle_dec _ _); [lra|reflexivity]. Qed.
Lemma forward_end {X H} (p : problem X H) K todo c l s l' dt s' : cycle_step false p c l = (l', dt) -> record false K (c + 1) (lx l') (lt_ l') dt s = Some s' -> p_final p <= lt_ l' ->
  forward p K (S todo) c l s = Some (c, l', s').
Proof. intros E1 E2 Hlt. cbn [forward]. rewrite E1, E2. destruct (Rle_dec _ _); [reflexivity|lra]. Qed.
Lemma again_go {X H} (p : problem X H) K todo c l s l' dt s' out : cycle_step true p c l = (l', dt) -> record true K (c + 1) (lx l') (lt_ l') dt s = Some s' -> lt_ l' < p_final p ->
  again_loop p K todo (c + 1) l' s' = out -> again_loop p K (S todo) c l s = out.
Proof. intros E1 E2 Hlt <-. cbn [again_loop]. rewrite E1, E2. destruct (Rle_dec _ _); [lra|reflexivity]. Qed.
Lemma adjoint_go {X H} (p : problem X H) K touch c h s v h' s' vs s'' : adjoint_cycle p K c h s = Some (v, h', s') -> adjoint p K touch c (touch v h') s' = Some (vs, s'') -> adjoint p K touch (S c) h s = Some (v :: vs, s'').
Proof. intros E1 E2. cbn [adjoint]. rewrite E1, E2. reflexivity. Qed.
Lemma cycle_near {X H} (p : problem X H) K c h s c0 c1 : last_ck (cks s) = Some c0 -> last_ck (erase_ck c0 (cks s)) = Some c1 -> ck_step c1 = c ->
  adjoint_cycle p K c h s = Some (View (mem s (ck_buf c0)) (ck_dt c0) (mem s (ck_buf c1)) (ck_time c1), h, Store (erase_ck c0 (cks s)) (mem s) (ck_buf c0 :: cached s) (pred (active s)) (raised s) (raised_level s) (before_begin s)).
Proof. intros E1 E2 E3. unfold adjoint_cycle. rewrite E1. cbv zeta. cbn [cks]. rewrite E2. rewrite (proj2 (Nat.eqb_eq _ _) E3). cbn [cks mem]. rewrite E2. reflexivity. Qed.
Lemma cycle_far {X H} (p : problem X H) K c h s c0 c1 l2 s2 c2 : last_ck (cks s) = Some c0 -> last_ck (erase_ck c0 (cks s)) = Some c1 -> ck_step c1 <> c ->
  again_loop p K (c - ck_step c1) (ck_step c1) (restore p c1 (mem s (ck_buf c1)) h)
    (Store (erase_ck c0 (cks s)) (mem s) (ck_buf c0 :: cached s) (pred (active s)) (first_raised (erase_ck c0 (cks s))) 0%Z (before_begin s)) = Some (l2, s2) -> last_ck (cks s2) = Some c2 ->
  adjoint_cycle p K c h s = Some (View (mem s (ck_buf c0)) (ck_dt c0) (mem s2 (ck_buf c2)) (ck_time c2), lh l2, s2).
Proof. intros E1 E2 E3 E4 E5. unfold adjoint_cycle. rewrite E1. cbv zeta. cbn [cks]. rewrite E2. rewrite (proj2 (Nat.eqb_neq _ _) E3). unfold checkpoint_solve. cbn [cks mem cached active before_begin]. rewrite E4, E5. reflexivity. Qed.
Lemma restore_start {H} (p : problem R H) x h : restore p (Ck 0 int_max 0 0 1) x h = Loop x h 0 1 (p_ival p).
Proof. unfold restore. cbn [ck_time ck_dt]. replace (0 / p_ival p) with (INR 0) by (cbn [INR]; unfold Rdiv; ring). rewrite Int_part_INR. f_equal. cbn [Z.of_nat IZR]. ring. Qed.

(* With one checkpoint beside the first, solving two steps again moves an iterator before the
   first element of the set, which C++ does not define. *)
Lemma calm_again1 : cycle_step true calm 0 (Loop 0 tt 0 1 10) = (Loop (11 / 10) tt (11 / 10) (11 / 10) 10, 11 / 10).
Proof. unfold calm. one_step (11 / 10). Qed.
Lemma calm_again2 : cycle_step true calm 1 (Loop (11 / 10) tt (11 / 10) (11 / 10) 10) = (Loop (231 / 100) tt (231 / 100) (121 / 100) 10, 121 / 100).
Proof. unfold calm. one_step (121 / 100). Qed.
Ltac times := unfold calm, drift; cbn [lt_ p_final]; lra.
Theorem C139_decrement_refuted : exists vs s, optimization_run calm 1 7 (fun _ h => h) start (fun _ => 0) = Some (vs, s) /\ before_begin s = true.
Proof.
  eexists. eexists. split.
  - unfold optimization_run. erewrite forward_go; [|apply calm_1|run|times|eapply forward_go; [apply calm_2|run|times|eapply forward_end; [apply calm_3|run|times]]].
    eapply adjoint_go.
    { eapply cycle_far; [run|run|discriminate| |].
      + rewrite restore_start. eapply again_go; [apply calm_again1|run|times|]. eapply again_go; [apply calm_again2|run|times|]. reflexivity.
      + run. }
    eapply adjoint_go.
    { eapply cycle_far; [run|run|discriminate| |].
      + rewrite restore_start. eapply again_go; [apply calm_again1|run|times|]. reflexivity.
      + run. }
    eapply adjoint_go. { apply cycle_near; run. }
    reflexivity.
  - reflexivity.
Qed.
Print Assumptions C139_decrement_refuted.

(* With an output on the way the second solution goes on with another time step: after the output
   the forward solution takes up the step before it, the second one does not. *)
Definition noted := drift (4851 / 1000) 100 1.
Lemma noted_1 b : cycle_step b noted 0 start = (Loop (11 / 10) tt (11 / 10) (11 / 10) 100, 11 / 10).
Proof. unfold noted, start. one_step (11 / 10). Qed.
Lemma noted_2 b : cycle_step b noted 1 (Loop (11 / 10) tt (11 / 10) (11 / 10) 100) = (Loop (231 / 100) tt (231 / 100) (if b then 121 / 100 else 11 / 10) (231 / 100 + 100), 121 / 100).
Proof. unfold noted. destruct b; one_step (121 / 100). Qed.
Lemma noted_3 : cycle_step false noted 2 (Loop (231 / 100) tt (231 / 100) (11 / 10) (231 / 100 + 100)) = (Loop (352 / 100) tt (352 / 100) (121 / 100) (231 / 100 + 100), 121 / 100).
Proof. unfold noted. one_step (121 / 100). Qed.
Lemma noted_3_again : cycle_step true noted 2 (Loop (231 / 100) tt (231 / 100) (121 / 100) (231 / 100 + 100)) = (Loop (3641 / 1000) tt (3641 / 1000) (1331 / 1000) (231 / 100 + 100), 1331 / 1000).
Proof. unfold noted. one_step (1331 / 1000). Qed.
Lemma noted_4 : cycle_step false noted 3 (Loop (352 / 100) tt (352 / 100) (121 / 100) (231 / 100 + 100)) = (Loop (4851 / 1000) tt (4851 / 1000) (121 / 100) (4851 / 1000 + 100), 1331 / 1000).
Proof. unfold noted. one_step (1331 / 1000). Qed.
Ltac times2 := unfold noted, drift; cbn [lt_ p_final]; lra.
Theorem C139_write_refuted : exists p : problem R unit, self_contained p /\ ends_at p start 4 /\ p_final p < p_ival p /\
  exists v vs s, optimization_run p 1 9 (fun _ h => h) start (fun _ => 0) = Some (v :: vs, s) /\ v_current v <> state_at p start 3 /\ v_time v <> time_at p start 3.
Proof.
  exists noted. split; [intros dt x h h'; reflexivity|].
  assert (H1 : history noted start 1 = Loop (11 / 10) tt (11 / 10) (11 / 10) 100) by (cbn [history]; rewrite noted_1; reflexivity).
  assert (H2 : history noted start 2 = Loop (231 / 100) tt (231 / 100) (11 / 10) (231 / 100 + 100)) by (change (history noted start 2) with (fst (cycle_step false noted 1 (history noted start 1))); rewrite H1, noted_2; reflexivity).
  assert (H3 : history noted start 3 = Loop (352 / 100) tt (352 / 100) (121 / 100) (231 / 100 + 100)) by (change (history noted start 3) with (fst (cycle_step false noted 2 (history noted start 2))); rewrite H2, noted_3; reflexivity).
  assert (H4 : history noted start 4 = Loop (4851 / 1000) tt (4851 / 1000) (121 / 100) (4851 / 1000 + 100)) by (change (history noted start 4) with (fst (cycle_step false noted 3 (history noted start 3))); rewrite H3, noted_4; reflexivity).
  split. { split.
    - intros k Hk. unfold time_at. assert (Ek : k = 0%nat \/ k = 1%nat \/ k = 2%nat \/ k = 3%nat) by lia. destruct Ek as [-> | [-> | [-> | ->]]]; [|rewrite H1|rewrite H2|rewrite H3]; unfold start, noted, drift; cbn [history lt_ p_final]; lra.
    - unfold time_at. rewrite H4. times2. }
  split; [unfold noted, drift; cbn [p_final p_ival]; lra|].
  eexists. eexists. eexists. split.
  - unfold optimization_run. erewrite forward_go; [|apply noted_1|run|times2|eapply forward_go; [apply noted_2|run|times2|eapply forward_go; [apply noted_3|run|times2|eapply forward_end; [apply noted_4|run|times2]]]].
    eapply adjoint_go.
    { eapply cycle_far; [run|run|discriminate| |].
      + rewrite restore_start. eapply again_go; [apply noted_1|run|times2|]. eapply again_go; [apply noted_2|run|times2|]. eapply again_go; [apply noted_3_again|run|times2|]. reflexivity.
      + run. }
    eapply adjoint_go.
    { eapply cycle_far; [run|run|discriminate| |].
      + rewrite restore_start. eapply again_go; [apply noted_1|run|times2|]. eapply again_go; [apply noted_2|run|times2|]. reflexivity.
      + run. }
    eapply adjoint_go.
    { eapply cycle_far; [run|run|discriminate| |].
      + rewrite restore_start. eapply again_go; [apply noted_1|run|times2|]. reflexivity.
      + run. }
    eapply adjoint_go. { apply cycle_near; run. }
    reflexivity.
  - unfold state_at, time_at. rewrite H3. cbn [v_current v_time mem ck_buf ck_time lx lt_]. rewrite ?put_same. split; lra.
Qed.
Print Assumptions C139_write_refuted.

(* What is carried beside the checkpoint, such as the stress of a hypoelastic material, is not put
   back: the second solution starts from what the first one ended with. *)
Definition aging : problem R R := Problem (fun dt x h => (x + dt * h, h + 1)) (fun _ => 1000) 0 (231 / 100) 10 5 false.
Definition young : loop R R := Loop 0 1 0 1 100.
Ltac one_aging v :=
  unfold cycle_step;
  match goal with |- context [timestep ?p ?l] => let E := fresh in assert (E : timestep p l = v) by (unfold timestep, aging; cbv zeta; cbn [ld limit lx lg lt_ p_fuzz p_final]; unfold Rmin; repeat destruct (Rle_dec _ _); repeat destruct (Rlt_dec _ _); lra); rewrite E; clear E end;
  cbn [evolve aging lx lh lt_ ld lg]; cbv zeta; unfold written; cbn [p_cyc p_final p_write_final p_ival aging Nat.add Nat.modulo Nat.divmod snd Nat.sub Nat.eqb Nat.ltb Nat.leb andb orb];
  rewrite ?andb_false_r; cbn [orb];
  repeat match goal with |- context [Rle_dec ?a ?b] => destruct (Rle_dec a b); [try (exfalso; lra)|try (exfalso; lra)] end;
  cbn [orb]; apply step_eq; lra.
Lemma aging_1 : cycle_step false aging 0 young = (Loop (11 / 10) (1 + 1) (11 / 10) (11 / 10) 100, 11 / 10).
Proof. unfold young. one_aging (11 / 10). Qed.
Lemma aging_2 : cycle_step false aging 1 (Loop (11 / 10) (1 + 1) (11 / 10) (11 / 10) 100) = (Loop (352 / 100) (1 + 1 + 1) (231 / 100) (121 / 100) 100, 121 / 100).
Proof. one_aging (121 / 100). Qed.
Lemma aging_1_again : cycle_step true aging 0 (Loop 0 (1 + 1 + 1) 0 1 10) = (Loop (33 / 10) (1 + 1 + 1 + 1) (11 / 10) (11 / 10) 10, 11 / 10).
Proof. one_aging (11 / 10). Qed.
Ltac times3 := unfold aging; cbn [lt_ p_final]; lra.
Theorem C139_carried_refuted : exists p : problem R R, ends_at p young 2 /\ quiet p young 2 /\
  exists v vs s, optimization_run p 1 9 (fun _ h => h) young (fun _ => 0) = Some (v :: vs, s) /\ v_current v <> state_at p young 1.
Proof.
  exists aging.
  assert (H1 : history aging young 1 = Loop (11 / 10) (1 + 1) (11 / 10) (11 / 10) 100) by (cbn [history]; rewrite aging_1; reflexivity).
  assert (H2 : history aging young 2 = Loop (352 / 100) (1 + 1 + 1) (231 / 100) (121 / 100) 100) by (change (history aging young 2) with (fst (cycle_step false aging 1 (history aging young 1))); rewrite H1, aging_2; reflexivity).
  split. { split.
    - intros k Hk. unfold time_at. assert (Ek : k = 0%nat \/ k = 1%nat) by lia. destruct Ek as [-> | ->]; [|rewrite H1]; unfold young, aging; cbn [history lt_ p_final]; lra.
    - unfold time_at. rewrite H2. times3. }
  split. { unfold quiet, aging, young. cbn [p_final p_ival lg p_fuzz p_cyc lt_ ld limit]. repeat split; try lra; [lia|intros; lra]. }
  eexists. eexists. eexists. split.
  - unfold optimization_run. erewrite forward_go; [|apply aging_1|unfold young; run|times3|eapply forward_end; [apply aging_2|run|times3]].
    eapply adjoint_go.
    { eapply cycle_far; [run|run|discriminate| |].
      + rewrite restore_start. eapply again_go; [apply aging_1_again|run|times3|]. reflexivity.
      + run. }
    eapply adjoint_go. { apply cycle_near; run. }
    reflexivity.
  - unfold state_at. rewrite H1. cbn [v_current mem ck_buf lx]. rewrite ?put_same. lra.
Qed.
Print Assumptions C139_carried_refuted.
