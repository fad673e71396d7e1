(* The list of boundary conditions, regions and multimaterial options. *)
From Coq Require Import List Ascii String Arith Bool ZArith Lia Sorted.
From Verif Require Import YamlModel YamlSpec YamlProofs YamlLaws InputModel InputSpec InputProofs InputReaders InputOut InputIds InputBc.
Import ListNotations.
Local Open Scope nat_scope.

Lemma gives_dec sec k : gives sec k \/ ~ gives sec k.
Proof. unfold gives. destruct (in_dec (list_eq_dec ascii_dec) k (map fst (map_of sec))); auto. Qed.

(* ---------- sequences of states ---------- *)

Lemma trace_sets (tr : nat -> nat -> list nat) (c : nat -> Prop) (sid : nat -> nat) n : (forall i, c i \/ ~ c i) ->
  (forall i, i < n -> (c i -> tr (S i) = add_set (tr i) (sid i) i) /\ (~ c i -> tr (S i) = tr i)) ->
  forall s, exists l, tr n s = tr 0 s ++ l /\ (forall i, In i l <-> i < n /\ c i /\ sid i = s) /\
    forall a b i j, nth_error l a = Some i -> nth_error l b = Some j -> a < b -> i < j.
Proof.
  intros DC. induction n as [|n IH]; intros H s.
  - exists []. split; [rewrite app_nil_r; reflexivity|]. split; [intros i; split; [intros []|lia]|]. intros [|a]; discriminate.
  - destruct (IH (fun i I => H i (Nat.lt_lt_succ_r _ _ I)) s) as (l & E & M & O). destruct (H n (Nat.lt_succ_diag_r n)) as [Y N].
    assert (K : forall i, i < S n /\ c i /\ sid i = s <-> (i < n /\ c i /\ sid i = s) \/ i = n /\ c n /\ sid n = s).
    { intros i. split; [intros (A & B & C); destruct (Nat.eq_dec i n) as [->|Q]; [right; auto|left; split; [lia|auto]]|].
      intros [(A & B & C)|(-> & B & C)]; repeat split; auto. }
    destruct (DC n) as [C|C].
    + specialize (Y C). destruct (Nat.eq_dec (sid n) s) as [Q|Q].
      * exists (l ++ [n]). rewrite Y. unfold add_set. rewrite Q, Nat.eqb_refl, E, app_assoc. split; [reflexivity|]. split.
        -- intros i. rewrite K, in_app_iff, M. cbn [In]. split; [intros [A|[<-|[]]]; auto|intros [A|(-> & _)]; auto].
        -- intros a b i j A B L.
           assert (LB : b < List.length (l ++ [n])) by (apply nth_error_Some; rewrite B; discriminate). rewrite app_length in LB. cbn in LB.
           rewrite nth_error_app1 in A by lia. destruct (Nat.eq_dec b (List.length l)) as [Z|Z].
           ++ subst b. rewrite nth_error_app2, Nat.sub_diag in B by lia. inversion B; subst j. apply nth_error_In, M in A. lia.
           ++ rewrite nth_error_app1 in B by lia. eapply O; eassumption.
      * exists l. rewrite Y. unfold add_set. rewrite (proj2 (Nat.eqb_neq s (sid n))) by congruence. split; [exact E|]. split; [|exact O].
        intros i. rewrite K, M. tauto.
    + exists l. rewrite (N C). split; [exact E|]. split; [|exact O]. intros i. rewrite K, M. tauto.
Qed.

Lemma trace_last {T} (tr : nat -> T) (c : nat -> Prop) (val : nat -> T) n : (forall i, c i \/ ~ c i) ->
  (forall i, i < n -> (c i -> tr (S i) = val i) /\ (~ c i -> tr (S i) = tr i)) -> set_by_last n c val (tr 0) (tr n).
Proof.
  intros DC. induction n as [|n IH]; intros H.
  - left. split; [lia|reflexivity].
  - destruct (H n (Nat.lt_succ_diag_r n)) as [Y N]. destruct (DC n) as [C|C].
    + right. exists n. split; [lia|]. split; [exact C|]. split; [lia|exact (Y C)].
    + rewrite (N C). destruct (IH (fun i I => H i (Nat.lt_lt_succ_r _ _ I))) as [[A B]|(i & A & B & E & F)].
      * left. split; [|exact B]. intros i I. destruct (Nat.eq_dec i n) as [->|Q]; [exact C|apply A; lia].
      * right. exists i. split; [lia|]. split; [exact B|]. split; [|exact F]. intros j J K. destruct (Nat.eq_dec j n) as [->|Q]; [exact C|apply E; lia].
Qed.

Lemma trace_on (tr : nat -> bool) (c : nat -> Prop) n :
  (forall i, i < n -> (tr (S i) = true <-> tr i = true \/ c i)) -> (tr n = true <-> tr 0 = true \/ exists i, i < n /\ c i).
Proof.
  induction n as [|n IH]; intros H.
  - split; [auto|]. intros [A|(i & I & _)]; [exact A|lia].
  - rewrite (H n) by lia. rewrite IH by (intros i I; apply H; lia). split.
    + intros [[A|(i & I & C)]|C]; [left; exact A|right; exists i; auto|right; exists n; auto].
    + intros [A|(i & I & C)]; [auto|]. destruct (Nat.eq_dec i n) as [->|Q]; [right; exact C|left; right; exists i; split; [lia|exact C]].
Qed.

Section Bcs.
Context {D : Type} (dbl : str -> D) (stod : str -> option D) (zero : D).

Lemma bc_solver_done sec n ws id0 r : NoDup ws -> bc_solver sec n ws id0 = Done r ->
  (~ In (lit "solver_id") ws -> r = id0) /\
  (In (lit "solver_id") ws -> exists i, to_int (text_at sec (lit "solver_id")) = Z.of_nat i /\ i < n /\ r = Some i).
Proof.
  revert id0. induction ws as [|w ws IH]; intros id0 N H; cbn [bc_solver] in H.
  - inversion H; subst. split; [auto|intros []].
  - inversion N as [|? ? NW N']; subst. destruct (str_eqb w (lit "solver_id")) eqn:E.
    + apply str_eqb_eq in E. subst w. apply obnd_done in H. destruct H as (z & A & H). apply nums_done in A.
      destruct ((z <? 0)%Z || (Z.of_nat n <=? z)%Z) eqn:B; [discriminate|]. apply orb_false_iff in B. destruct B as [B1 B2]. apply Z.ltb_ge in B1. apply Z.leb_gt in B2.
      apply IH in H; [|exact N']. rewrite (proj1 H NW). split; [intros X; destruct X; left; reflexivity|]. intros _. exists (Z.to_nat z).
      unfold text_at. rewrite <- A. repeat split; lia.
    + apply IH in H; [|exact N']. assert (W : w <> lit "solver_id") by (intros ->; rewrite str_eqb_refl in E; discriminate). cbn [In].
      split; [intros X; apply (proj1 H); tauto|]. intros [X|X]; [contradiction|exact (proj2 H X)].
Qed.

(* What reading condition [id] in section [sec] does. *)
Definition entry_rel (nsolvers : nat) (b0 : @bc D) (sec : node) (id : nat) (st st' : bcsets) (b : @bc D) : Prop :=
  is_map sec = true /\ gives sec (lit "solver_id") /\ gives sec (lit "surface") /\ container (get_key sec (lit "surface")) /\
  bc_says dbl stod zero sec b0 b /\
  exists sid, to_int (text_at sec (lit "solver_id")) = Z.of_nat sid /\ sid < nsolvers /\
    ((gives sec (lit "velocity_model") -> vel_sets st' = add_set (vel_sets st) sid id) /\ (~ gives sec (lit "velocity_model") -> vel_sets st' = vel_sets st)) /\
    ((gives sec (lit "temperature_model") -> temp_sets st' = add_set (temp_sets st) sid id) /\ (~ gives sec (lit "temperature_model") -> temp_sets st' = temp_sets st)) /\
    ((gives sec (lit "stress_model") -> str_sets st' = add_set (str_sets st) sid id) /\ (~ gives sec (lit "stress_model") -> str_sets st' = str_sets st)) /\
    ((gives sec (lit "stress_model") -> switch_rel id (switches st) (get_key sec (lit "stress_model")) (switches st')) /\ (~ gives sec (lit "stress_model") -> switches st' = switches st)) /\
    ((gives sec (lit "contact_bc_vars") -> node_size (get_key sec (lit "contact_bc_vars")) = 2 /\
        caps st' = (to_size (as_string (get_index (get_key sec (lit "contact_bc_vars")) 0)), to_size (as_string (get_index (get_key sec (lit "contact_bc_vars")) 1)))) /\
     (~ gives sec (lit "contact_bc_vars") -> caps st' = caps st)).

Lemma bc_entry_done n b0 id e st st' b : regular (get_key e (lit "boundary_condition")) ->
  bc_entry dbl stod zero n b0 id e st = Done (st', b) -> entry_rel n b0 (get_key e (lit "boundary_condition")) id st st' b.
Proof.
  unfold bc_entry. set (sec := get_key e (lit "boundary_condition")). clearbody sec. intros R H.
  apply obnd_done in H. destruct H as (ws & V & H). apply validate_inv in V. destruct V as (C & -> & Q).
  assert (T : In (lit "solver_id") (word_list sec)) by (apply Q; left; reflexivity).
  assert (T2 : In (lit "surface") (word_list sec)) by (apply Q; right; left; reflexivity).
  destruct (needs_map _ _ C (lit_ne _ _) T) as [m E].
  apply obnd_done in H. destruct H as (r & F & O). apply bc_solver_done in F; [|exact (word_nodup _ m R E)].
  destruct (proj2 F T) as (sid & A1 & A2 & ->). apply word_gives in T, T2; try discriminate. clear F Q C.
  split; [rewrite E; reflexivity|]. split; [exact T|]. split; [exact T2|].
  assert (SF : container (get_key sec (lit "surface")) /\ surf_says dbl stod zero (get_key sec (lit "surface")) b0 b).
  { pose proof (regular_get sec (lit "surface") R) as RS.
    destruct (sec_rel _ sec (st, b0) (st', b) m E R O (fun s => place (snd s)) "surface"
      (fun old v new => regular v -> container v /\ forall x y, place x = old -> place y = new -> surf_says dbl stod zero v x y)) as [X _].
    - intros s v s' S RV. destruct (bc_surface _ _ _ _ _ _ _ _ S RV) as (_ & X & Y). split; [exact Y|]. intros x y PX PY. eapply says_place; [symmetry; exact PX|symmetry; exact PY|exact X].
    - intros s w v s' S N. eapply bc_same; eassumption.
    - destruct (X T2 RS) as [X1 X2]. split; [exact X1|]. apply X2; reflexivity. }
  split; [exact (proj1 SF)|].
  split.
  - split; [intros k K; exact (sec_each _ sec (st, b0) (st', b) m E R O _ (bc_allowed dbl stod zero id sid) k K)|]. split; [exact (proj2 SF)|].
    pose proof (sec_rel _ sec _ _ m E R O (fun s => b_vel (snd s)) "velocity_model" (fun _ v x => In (as_string v, x) vel_map /\ x <> None) (h_vel dbl stod zero id sid) (m_vel dbl stod zero id sid)) as [V1 V2].
    pose proof (sec_rel _ sec _ _ m E R O (fun s => b_temp (snd s)) "temperature_model" temp_rel (h_temp dbl stod zero id sid) (m_temp dbl stod zero id sid)) as [T1 T3].
    pose proof (sec_rel _ sec _ _ m E R O (fun s => b_stress (snd s)) "stress_model" str_rel (h_str dbl stod zero id sid) (m_str dbl stod zero id sid)) as [S1 S2].
    cbn [snd] in V1, V2, T1, T3, S1, S2. cbv beta in V1, V2, T1, T3, S1, S2. cbn [snd] in V1, V2, T1, T3, S1, S2.
    split; [split; [intros G; exact (proj1 (V1 G))|exact V2]|]. split; [intros G; exact (proj2 (V1 G))|].
    split; [exact T1|]. split; [exact T3|]. split; [exact S1|]. split; [exact S2|].
    split; [exact (sec_choice _ sec _ _ m E R O (fun s => b_host (snd s)) "location" (some_fst loc_map) (h_host dbl stod zero id sid) (m_host dbl stod zero id sid))|].
    split; [exact (sec_rel _ sec _ _ m E R O (fun s => b_velv (snd s)) "velocity_bc_global_vars" (val_rel dbl) (h_velv dbl stod zero id sid) (m_velv dbl stod zero id sid))|].
    split; [exact (sec_rel _ sec _ _ m E R O (fun s => b_tempv (snd s)) "temperature_bc_global_vars" (val_rel dbl) (h_tempv dbl stod zero id sid) (m_tempv dbl stod zero id sid))|].
    exact (sec_rel _ sec _ _ m E R O (fun s => b_strv (snd s)) "stress_bc_global_vars" (val_rel dbl) (h_strv dbl stod zero id sid) (m_strv dbl stod zero id sid)).
  - exists sid. split; [exact A1|]. split; [exact A2|].
    split; [exact (sec_rel _ sec _ _ m E R O (fun s => vel_sets (fst s)) "velocity_model" (fun old _ new => new = add_set old sid id) (s_vel dbl stod zero id sid) (n_vel dbl stod zero id sid))|].
    split; [exact (sec_rel _ sec _ _ m E R O (fun s => temp_sets (fst s)) "temperature_model" (fun old _ new => new = add_set old sid id) (s_temp dbl stod zero id sid) (n_temp dbl stod zero id sid))|].
    split; [exact (sec_rel _ sec _ _ m E R O (fun s => str_sets (fst s)) "stress_model" (fun old _ new => new = add_set old sid id) (s_str dbl stod zero id sid) (n_str dbl stod zero id sid))|].
    split; [exact (sec_rel _ sec _ _ m E R O (fun s => switches (fst s)) "stress_model" (switch_rel id) (s_switch dbl stod zero id sid) (n_switch dbl stod zero id sid))|].
    exact (sec_rel _ sec _ _ m E R O (fun s => caps (fst s)) "contact_bc_vars"
      (fun _ v new => node_size v = 2 /\ new = (to_size (as_string (get_index v 0)), to_size (as_string (get_index v 1)))) (s_caps dbl stod zero id sid) (n_caps dbl stod zero id sid)).
Qed.

Lemma bc_trace n b0 sec a k st st' bs : regular sec -> bc_loop dbl stod zero n b0 sec (seq a k) st = Done (st', bs) ->
  List.length bs = k /\ exists tr : nat -> bcsets, tr a = st /\ tr (a + k) = st' /\
    forall i, i < k -> exists b, nth_error bs i = Some b /\
      entry_rel n b0 (get_key (get_index sec (a + i)) (lit "boundary_condition")) (a + i) (tr (a + i)) (tr (S (a + i))) b.
Proof.
  intros R. revert a st bs. induction k as [|k IH]; intros a st bs H; cbn [seq bc_loop] in H.
  - inversion H; subst. split; [reflexivity|]. exists (fun _ => st'). split; [reflexivity|]. split; [reflexivity|]. lia.
  - apply obnd_done in H. destruct H as ([st1 b] & E & H). apply obnd_done in H. destruct H as ([st2 q] & L & H). cbn [fst snd] in *. inversion H; subst.
    apply bc_entry_done in E; [|apply regular_get, regular_index; exact R]. destruct (IH (S a) st1 q L) as (LQ & tr & T1 & T2 & T3).
    split; [cbn; lia|]. exists (fun j => if Nat.eqb j a then st else tr j). rewrite Nat.eqb_refl. split; [reflexivity|].
    split; [rewrite (proj2 (Nat.eqb_neq (a + S k) a)) by lia; rewrite <- Nat.add_succ_comm; exact T2|].
    intros [|i] I.
    + exists b. split; [reflexivity|]. rewrite Nat.add_0_r, Nat.eqb_refl, (proj2 (Nat.eqb_neq (S a) a)) by lia. rewrite T1. exact E.
    + destruct (T3 i ltac:(lia)) as (b' & B1 & B2). exists b'. split; [exact B1|]. rewrite <- Nat.add_succ_comm.
      rewrite (proj2 (Nat.eqb_neq (S a + i) a)), (proj2 (Nat.eqb_neq (S (S a + i)) a)) by lia. exact B2.
Qed.

Lemma bcs_done n b0 root st0 st bs : regular root -> parse_bcs dbl stod zero n b0 root st0 = Done (st, bs) ->
  let k := node_size (get_key root (lit "boundary_conditions")) in let sec := bc_sec root in
  List.length bs = k /\
  (forall i b, nth_error bs i = Some b -> is_map (sec i) = true /\ gives (sec i) (lit "solver_id") /\ gives (sec i) (lit "surface") /\
     container (get_key (sec i) (lit "surface")) /\ (0 <= to_int (text_at (sec i) (lit "solver_id")) < Z.of_nat n)%Z /\ bc_says dbl stod zero (sec i) b0 b) /\
  ((forall s, vel_sets st0 s = []) -> forall s, chosen root "velocity_model" k s (vel_sets st s)) /\
  ((forall s, temp_sets st0 s = []) -> forall s, chosen root "temperature_model" k s (temp_sets st s)) /\
  ((forall s, str_sets st0 s = []) -> forall s, chosen root "stress_model" k s (str_sets st s)) /\
  (allow_contact st = true <-> allow_contact st0 = true \/ exists i, i < k /\ stress_is (sec i) [lit "global_contact"; lit "preload_contact"]) /\
  (allow_preload st = true <-> allow_preload st0 = true \/ exists i, i < k /\ stress_is (sec i) [lit "preload_contact"]) /\
  (allow_fracture st = true <-> allow_fracture st0 = true \/ exists i, i < k /\ stress_is (sec i) [lit "fracture"]) /\
  set_by_last k (fun i => stress_is (sec i) [lit "fracture"]) Z.of_nat (fracture_id st0) (fracture_id st) /\
  set_by_last k (fun i => gives (sec i) (lit "contact_bc_vars"))
    (fun i => (to_size (as_string (get_index (get_key (sec i) (lit "contact_bc_vars")) 0)), to_size (as_string (get_index (get_key (sec i) (lit "contact_bc_vars")) 1))))
    (max_local st0, max_global st0) (max_local st, max_global st).
Proof.
  intros R H. cbv zeta. unfold parse_bcs in H. set (l := get_key root (lit "boundary_conditions")) in *. set (k := node_size l) in *.
  destruct (bc_trace n b0 l 0 k st0 st bs (regular_get _ _ R) H) as (L & tr & T0 & T1 & T). cbn [Nat.add] in *.
  assert (TE : forall i, i < k -> exists b, nth_error bs i = Some b /\ entry_rel n b0 (bc_sec root i) i (tr i) (tr (S i)) b) by exact T. clear T.
  split; [exact L|]. split.
  { intros i b B. assert (I : i < k) by (rewrite <- L; apply nth_error_Some; rewrite B; discriminate).
    destruct (TE i I) as (b' & B' & E). rewrite B in B'. inversion B'; subst b'. destruct E as (E1 & E2 & E3 & E4 & E5 & sid & E6 & E7 & _).
    repeat (split; [assumption|]). split; [rewrite E6; lia|exact E5]. }
  assert (SETS : forall (get : bcsets -> nat -> list nat) key,
    (forall i, i < k -> forall b, entry_rel n b0 (bc_sec root i) i (tr i) (tr (S i)) b -> exists sid, to_int (text_at (bc_sec root i) (lit "solver_id")) = Z.of_nat sid /\
      (gives (bc_sec root i) (lit key) -> get (tr (S i)) = add_set (get (tr i)) sid i) /\ (~ gives (bc_sec root i) (lit key) -> get (tr (S i)) = get (tr i))) ->
    (forall s, get st0 s = []) -> forall s, chosen root key k s (get st s)).
  { intros get key HG Z s.
    destruct (trace_sets (fun i => get (tr i)) (fun i => gives (bc_sec root i) (lit key)) (fun i => Z.to_nat (to_int (text_at (bc_sec root i) (lit "solver_id")))) k) with (s := s) as (q & Q1 & Q2 & Q3).
    - intros i. apply gives_dec.
    - intros i I. destruct (TE i I) as (b & _ & E). destruct (HG i I b E) as (sid & S1 & S2 & S3). rewrite S1, Nat2Z.id. split; assumption.
    - rewrite T0, Z, T1 in Q1. cbn [app] in Q1. rewrite Q1. split; [|exact Q3]. intros i. rewrite Q2. fold (bc_sec root i).
      split; intros (I & G & X); (split; [exact I|]; split; [exact G|]); destruct (TE i I) as (b & _ & E); destruct (HG i I b E) as (sid & S1 & _); rewrite S1 in *; [rewrite Nat2Z.id in X; congruence|rewrite Nat2Z.id; lia]. }
  split; [apply SETS; intros i I b E; destruct E as (_ & _ & _ & _ & _ & sid & A & _ & V & _); exists sid; auto|].
  split; [apply SETS; intros i I b E; destruct E as (_ & _ & _ & _ & _ & sid & A & _ & _ & V & _); exists sid; auto|].
  split; [apply SETS; intros i I b E; destruct E as (_ & _ & _ & _ & _ & sid & A & _ & _ & _ & V & _); exists sid; auto|].
  assert (SW : forall i, i < k -> (gives (bc_sec root i) (lit "stress_model") -> switch_rel i (switches (tr i)) (get_key (bc_sec root i) (lit "stress_model")) (switches (tr (S i)))) /\ (~ gives (bc_sec root i) (lit "stress_model") -> switches (tr (S i)) = switches (tr i))).
  { intros i I. destruct (TE i I) as (b & _ & E). destruct E as (_ & _ & _ & _ & _ & sid & _ & _ & _ & _ & _ & V & _). exact V. }
  rewrite <- T1, <- T0.
  split; [|split; [|split; [|split]]].
  - apply (trace_on (fun i => allow_contact (tr i)) (fun i => stress_is (bc_sec root i) [lit "global_contact"; lit "preload_contact"])). intros i I. destruct (SW i I) as [Y N].
    destruct (gives_dec (bc_sec root i) (lit "stress_model")) as [G|G]; [destruct (Y G) as [A _]; rewrite A; unfold stress_is, text_at, contact_words; tauto|].
    specialize (N G). unfold switches in N. inversion N as [[A B C F]]. rewrite A. unfold stress_is. tauto.
  - apply (trace_on (fun i => allow_preload (tr i)) (fun i => stress_is (bc_sec root i) [lit "preload_contact"])). intros i I. destruct (SW i I) as [Y N].
    destruct (gives_dec (bc_sec root i) (lit "stress_model")) as [G|G]; [destruct (Y G) as (_ & A & _); rewrite A; unfold stress_is, text_at; cbn [In]; intuition|].
    specialize (N G). unfold switches in N. inversion N as [[A B C F]]. rewrite B. unfold stress_is. tauto.
  - apply (trace_on (fun i => allow_fracture (tr i)) (fun i => stress_is (bc_sec root i) [lit "fracture"])). intros i I. destruct (SW i I) as [Y N].
    destruct (gives_dec (bc_sec root i) (lit "stress_model")) as [G|G]; [destruct (Y G) as (_ & _ & A & _); rewrite A; unfold stress_is, text_at; cbn [In]; intuition|].
    specialize (N G). unfold switches in N. inversion N as [[A B C F]]. rewrite C. unfold stress_is. tauto.
  - apply (trace_last (fun i => fracture_id (tr i)) (fun i => stress_is (bc_sec root i) [lit "fracture"]) Z.of_nat).
    + intros i. unfold stress_is. destruct (gives_dec (bc_sec root i) (lit "stress_model")) as [G|G]; [|right; tauto].
      destruct (in_dec (list_eq_dec ascii_dec) (text_at (bc_sec root i) (lit "stress_model")) [lit "fracture"]) as [J|J]; [left; auto|right; tauto].
    + intros i I. destruct (SW i I) as [Y N]. unfold stress_is. cbn [In]. split.
      * intros [G [J|[]]]. destruct (Y G) as (_ & _ & _ & A). unfold text_at in J. destruct A as [[_ A]|[A _]]; [exact A|congruence].
      * intros J. destruct (gives_dec (bc_sec root i) (lit "stress_model")) as [G|G].
        -- destruct (Y G) as (_ & _ & _ & A). unfold text_at in J. destruct A as [[A _]|[_ A]]; [|exact A]. destruct J. split; [exact G|left; symmetry; exact A].
        -- specialize (N G). unfold switches in N. inversion N. reflexivity.
  - apply (trace_last (fun i => (max_local (tr i), max_global (tr i))) (fun i => gives (bc_sec root i) (lit "contact_bc_vars"))).
    + intros i. apply gives_dec.
    + intros i I. destruct (TE i I) as (b & _ & E). destruct E as (_ & _ & _ & _ & _ & sid & _ & _ & _ & _ & _ & _ & V1 & V2). split; [intros G; exact (proj2 (V1 G))|exact V2].
Qed.
End Bcs.

(* ---------- regions ---------- *)

Definition region_sec (root : node) (i : nat) : node := entry root "regions" "region" i.

Lemma region_trace n l a k f f' : regular l -> region_sets n l (seq a k) f = Done f' ->
  exists tr : nat -> nat -> list nat, tr a = f /\ tr (a + k) = f' /\ forall i, i < k ->
    let s := get_key (get_index l (a + i)) (lit "region") in
    is_map s = true /\ gives s (lit "material_id") /\ gives s (lit "volume") /\
    (gives s (lit "solver_id") -> exists sid, to_int (text_at s (lit "solver_id")) = Z.of_nat sid /\ sid < n /\ tr (S (a + i)) = add_set (tr (a + i)) sid (a + i)) /\
    (~ gives s (lit "solver_id") -> tr (S (a + i)) = tr (a + i)).
Proof.
  intros R. revert a f. induction k as [|k IH]; intros a f H; cbn [seq region_sets] in H.
  - inversion H; subst. exists (fun _ => f'). split; [reflexivity|]. split; [reflexivity|]. lia.
  - set (s := get_key (get_index l a) (lit "region")) in *.
    apply obnd_done in H. destruct H as (ws & V & H). apply validate_inv in V. destruct V as (C & -> & Q).
    assert (T : In (lit "material_id") (word_list s)) by (apply Q; left; reflexivity).
    assert (T2 : In (lit "volume") (word_list s)) by (apply Q; right; left; reflexivity).
    destruct (needs_map _ _ C (lit_ne _ _) T) as [m E]. apply word_gives in T, T2; try discriminate.
    assert (X : exists f1, region_sets n l (seq (S a) k) f1 = Done f' /\
      (gives s (lit "solver_id") -> exists sid, to_int (text_at s (lit "solver_id")) = Z.of_nat sid /\ sid < n /\ f1 = add_set f sid a) /\ (~ gives s (lit "solver_id") -> f1 = f)).
    { destruct (mem (lit "solver_id") (word_list s)) eqn:M.
      - apply mem_in in M. apply word_gives in M; [|discriminate]. apply obnd_done in H. destruct H as (z & A & H). apply nums_done in A.
        destruct ((z <? 0)%Z || (Z.of_nat n <=? z)%Z) eqn:B; [discriminate|]. apply orb_false_iff in B. destruct B as [B1 B2]. apply Z.ltb_ge in B1. apply Z.leb_gt in B2.
        eexists. split; [exact H|]. split; [|tauto]. intros _. exists (Z.to_nat z). unfold text_at. rewrite <- A. repeat split; lia.
      - exists f. split; [exact H|]. split; [|reflexivity]. intros G. apply word_gives, mem_in in G; [congruence|discriminate]. }
    destruct X as (f1 & H1 & Y & N). destruct (IH (S a) f1 H1) as (tr & T3 & T4 & T5).
    exists (fun j => if Nat.eqb j a then f else tr j). rewrite Nat.eqb_refl. split; [reflexivity|].
    split; [rewrite (proj2 (Nat.eqb_neq (a + S k) a)) by lia; rewrite <- Nat.add_succ_comm; exact T4|].
    intros [|i] I; cbv zeta.
    + rewrite Nat.add_0_r, Nat.eqb_refl, (proj2 (Nat.eqb_neq (S a) a)) by lia. fold s. rewrite T3. split; [rewrite E; reflexivity|]. auto.
    + rewrite <- Nat.add_succ_comm. rewrite (proj2 (Nat.eqb_neq (S a + i) a)), (proj2 (Nat.eqb_neq (S (S a + i)) a)) by lia. exact (T5 i ltac:(lia)).
Qed.

Lemma regions_done n root f : regular root -> parse_region_sets n root = Done f ->
  let k := node_size (get_key root (lit "regions")) in
  (forall i, i < k -> is_map (region_sec root i) = true /\ gives (region_sec root i) (lit "material_id") /\ gives (region_sec root i) (lit "volume") /\
     (gives (region_sec root i) (lit "solver_id") -> (0 <= to_int (text_at (region_sec root i) (lit "solver_id")) < Z.of_nat n)%Z)) /\
  forall s, (forall i, In i (f s) <-> i < k /\ gives (region_sec root i) (lit "solver_id") /\ to_int (text_at (region_sec root i) (lit "solver_id")) = Z.of_nat s) /\
    forall a b i j, nth_error (f s) a = Some i -> nth_error (f s) b = Some j -> a < b -> i < j.
Proof.
  intros R H. cbv zeta. unfold parse_region_sets in H. set (l := get_key root (lit "regions")) in *. set (k := node_size l) in *.
  destruct (region_trace n l 0 k _ _ (regular_get _ _ R) H) as (tr & T0 & T1 & T). cbn [Nat.add] in *. cbv zeta in T.
  assert (TE : forall i, i < k -> is_map (region_sec root i) = true /\ gives (region_sec root i) (lit "material_id") /\ gives (region_sec root i) (lit "volume") /\
    (gives (region_sec root i) (lit "solver_id") -> exists sid, to_int (text_at (region_sec root i) (lit "solver_id")) = Z.of_nat sid /\ sid < n /\ tr (S i) = add_set (tr i) sid i) /\
    (~ gives (region_sec root i) (lit "solver_id") -> tr (S i) = tr i)) by exact T. clear T.
  split.
  - intros i I. destruct (TE i I) as (A & B & C & G & _). repeat (split; [assumption|]). intros Q. destruct (G Q) as (sid & E & L & _). rewrite E. lia.
  - intros s. destruct (trace_sets tr (fun i => gives (region_sec root i) (lit "solver_id")) (fun i => Z.to_nat (to_int (text_at (region_sec root i) (lit "solver_id")))) k) with (s := s) as (q & Q1 & Q2 & Q3).
    + intros i. apply gives_dec.
    + intros i I. destruct (TE i I) as (_ & _ & _ & G & N). split; [|exact N]. intros Q. destruct (G Q) as (sid & E & L & F). rewrite E, Nat2Z.id. exact F.
    + rewrite T0, T1 in Q1. cbn [app] in Q1. rewrite Q1. split; [|exact Q3]. intros i. rewrite Q2.
      split; intros (I & G & X); (split; [exact I|]; split; [exact G|]); destruct (TE i I) as (_ & _ & _ & E & _); destruct (E G) as (sid & S1 & _); rewrite S1 in *; [rewrite Nat2Z.id in X; congruence|rewrite Nat2Z.id; lia].
Qed.

(* ---------- multimaterial options ---------- *)

Ltac mm_open H := match type of H with mm_step ?s _ _ = _ => destruct s end; unfold mm_step in H; key_chain H; try clash; crack H.
Ltac mm_miss := let H := fresh "H" in let N := fresh "N" in intros ? ? ? ? H N; mm_open H; first [reflexivity|clash|congruence].

Lemma mm_geo_kept sec ws s s' : over_words mm_step sec ws s = Done s' -> mm_geo s' = mm_geo s.
Proof.
  revert s. induction ws as [|w ws IH]; intros s H; cbn [over_words] in H; [inversion H; reflexivity|]. apply obnd_done in H. destruct H as (s1 & A & B).
  rewrite (IH s1 B). mm_open A; reflexivity.
Qed.
Lemma mm_mat_word s w v s' : mm_step s w v = Done s' ->
  (w = lit "mat_equilibration_model" \/ w = lit "geo_equilibration_model" -> In (as_string v, mm_mat s') equil_map) /\
  (w <> lit "mat_equilibration_model" -> w <> lit "geo_equilibration_model" -> mm_mat s' = mm_mat s).
Proof. intros H. mm_open H; (split; [intros [E9|E9]; try (vm_compute in E9; discriminate E9)|intros N1 N2; try congruence]); first [reflexivity|assumption|(subst; discriminate)]. Qed.

Lemma over_app {St} (step : St -> str -> node -> out St) sec a b s : over_words step sec (a ++ b) s = obnd (over_words step sec a s) (over_words step sec b).
Proof. revert s. induction a as [|w a IH]; intros s; [reflexivity|]. cbn [app over_words]. destruct (step s w (get_key sec w)); cbn [obnd]; auto. Qed.

Lemma sorted_cut (ws : list str) a b : StronglySorted klt ws -> klt a b -> In b ws -> exists p q, ws = p ++ b :: q /\ ~ In a q /\ ~ In b q.
Proof.
  intros S L I. apply in_split in I. destruct I as (p & q & ->). exists p, q. split; [reflexivity|].
  assert (F : Forall (klt b) q). { induction p as [|x p IH]; cbn [app] in S; inversion S; subst; auto. }
  rewrite Forall_forall in F. split; intros X; specialize (F _ X); unfold klt in *.
  - rewrite str_cmp_opp, L in F. discriminate.
  - rewrite str_cmp_refl in F. discriminate.
Qed.

Lemma mm_mat_words sec ws s s' : over_words mm_step sec ws s = Done s' ->
  (~ In (lit "mat_equilibration_model") ws -> ~ In (lit "geo_equilibration_model") ws -> mm_mat s' = mm_mat s) /\
  (~ In (lit "mat_equilibration_model") ws -> In (lit "geo_equilibration_model") ws -> In (text_at sec (lit "geo_equilibration_model"), mm_mat s') equil_map).
Proof.
  revert s. induction ws as [|w ws IH]; intros s H; cbn [over_words] in H.
  - inversion H; subst. split; [reflexivity|intros _ []].
  - apply obnd_done in H. destruct H as (s1 & A & B). destruct (mm_mat_word _ _ _ _ A) as [V1 V2]. destruct (IH s1 B) as [I1 I2]. cbn [In]. split.
    + intros X Y. rewrite I1 by tauto. apply V2; intros ->; tauto.
    + intros X Y. destruct (in_dec (list_eq_dec ascii_dec) (lit "geo_equilibration_model") ws) as [G|G]; [apply I2; tauto|].
      rewrite I1 by tauto. destruct Y as [->|Y]; [|contradiction]. apply V1. right. reflexivity.
Qed.

Lemma mm_vars sec ws s s' : over_words mm_step sec ws s = Done s' -> forall k, k = lit "mat_equilibration_global_vars" \/ k = lit "geo_equilibration_global_vars" -> In k ws -> 2 <= node_size (get_key sec k).
Proof.
  revert s. induction ws as [|w ws IH]; intros s H k E I; [contradiction|]. cbn [over_words] in H. apply obnd_done in H. destruct H as (s1 & A & B).
  destruct I as [->|I]; [|exact (IH s1 B k E I)]. unfold mm_step in A.
  destruct (node_size (get_key sec k) <? 2) eqn:N; [exfalso|apply Nat.ltb_ge in N; exact N]. destruct E as [-> | ->]; cbn in A; discriminate.
Qed.

Lemma mm_done root o o' m : root = NMap m -> regular root -> parse_multimaterial root o = Done o' ->
  mm_geo o' = mm_geo o /\
  (~ gives root (lit "multimaterial_options") -> o' = o) /\
  (gives root (lit "multimaterial_options") -> let sec := get_key root (lit "multimaterial_options") in
     container sec /\ field sec "max_num_mats_per_element" to_size (mm_max o) (mm_max o') /\
     (gives sec (lit "mat_equilibration_model") -> In (text_at sec (lit "mat_equilibration_model"), mm_mat o') equil_map) /\
     (~ gives sec (lit "mat_equilibration_model") -> gives sec (lit "geo_equilibration_model") -> In (text_at sec (lit "geo_equilibration_model"), mm_mat o') equil_map) /\
     (~ gives sec (lit "mat_equilibration_model") -> ~ gives sec (lit "geo_equilibration_model") -> mm_mat o' = mm_mat o) /\
     (forall k, k = lit "mat_equilibration_global_vars" \/ k = lit "geo_equilibration_global_vars" -> gives sec k -> 2 <= node_size (get_key sec k))).
Proof.
  intros E R H. unfold parse_multimaterial in H. rewrite E in H. rewrite <- E in H.
  assert (GM : gives root (lit "multimaterial_options") <-> mem (lit "multimaterial_options") (map fst m) = true) by (rewrite mem_in, E; reflexivity).
  destruct (mem (lit "multimaterial_options") (map fst m)) eqn:M.
  2: { inversion H; subst o'. split; [reflexivity|]. split; [reflexivity|]. intros G. apply GM in G. discriminate. }
  assert (G : gives root (lit "multimaterial_options")) by (apply GM; reflexivity). clear GM.
  pose proof (regular_get root (lit "multimaterial_options") R) as RS. set (sec := get_key root (lit "multimaterial_options")) in *. clearbody sec.
  apply read_inv in H. destruct H as (C & _ & O). split; [eapply mm_geo_kept; exact O|]. split; [tauto|]. intros _. cbv zeta. split; [exact C|].
  destruct (container_cases sec C) as [[k K]|[k K]].
  - split; [eapply sec_field; [exact K|exact RS|exact O| |mm_miss]|].
    { intros s v s' H. mm_open H. unfold told. match goal with A : as_num _ _ = Done _ |- _ => apply nums_done in A; exact A end. }
    assert (W : word_list sec = map fst (map_of sec)) by (rewrite K; reflexivity).
    split; [|split; [|split]].
    + intros G1. unfold gives in G1. rewrite <- W in G1.
      destruct (sorted_cut (word_list sec) (lit "geo_equilibration_model") (lit "mat_equilibration_model")) as (p & q & Q & N1 & N2); [rewrite W; apply (proj1 (regular_map sec RS))|reflexivity|exact G1|].
      rewrite Q, over_app in O. apply obnd_done in O. destruct O as (s1 & _ & O). cbn [over_words] in O. apply obnd_done in O. destruct O as (s2 & A & O).
      rewrite (proj1 (mm_mat_words _ _ _ _ O) N2 N1). apply (proj1 (mm_mat_word _ _ _ _ A)). left. reflexivity.
    + intros N1 G1. unfold gives in *. rewrite <- W in *. exact (proj2 (mm_mat_words _ _ _ _ O) N1 G1).
    + intros N1 N2. unfold gives in *. rewrite <- W in *. exact (proj1 (mm_mat_words _ _ _ _ O) N1 N2).
    + intros k0 E0 G0. unfold gives in G0. rewrite <- W in G0. exact (mm_vars _ _ _ _ O k0 E0 G0).
  - rewrite K in *. apply read_nothing in O; [|intros [] v; reflexivity]. subst. unfold field, gives. cbn [map_of map In]. intuition.
Qed.
