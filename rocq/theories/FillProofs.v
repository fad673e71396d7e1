From Coq Require Import Permutation.
From Verif Require Import FillModel FillSpec.

(** ** run_list *)
Lemma run_list_app {A S} (l1 l2 : list A) (body : A -> S -> outcome S) s :
  run_list (l1 ++ l2) body s = bind (run_list l1 body s) (run_list l2 body).
Proof. revert s. induction l1 as [|a l IH]; intros s; [reflexivity|]. cbn. destruct (body a s); cbn; [apply IH|reflexivity|reflexivity]. Qed.

Lemma upd_same f e s : upd f e s e = s.
Proof. unfold upd. now rewrite Nat.eqb_refl. Qed.
Lemma upd_other f e s x : x <> e -> upd f e s x = f x.
Proof. unfold upd. intros H. destruct (Nat.eqb_spec x e); congruence. Qed.

Section Inner.
Variable step : nat -> efill -> outcome efill.
Definition ebody (e : nat) (st : nat -> efill) : outcome (nat -> efill) := bind (step e (st e)) (fun s => Ok (upd st e s)).

Lemma inner_ok l : forall st st', NoDup l -> run_list l ebody st = Ok st' ->
  (forall e, In e l -> step e (st e) = Ok (st' e)) /\ (forall e, ~ In e l -> st' e = st e).
Proof.
  induction l as [|a l IH]; intros st st' N H; cbn in H.
  - injection H as <-. split; [intros e []|reflexivity].
  - inversion N as [|? ? Na Nl]; subst. unfold ebody in H at 1. destruct (step a (st a)) as [s| |] eqn:E; cbn in H; try discriminate.
    destruct (IH _ _ Nl H) as [I1 I2]. split.
    + intros e [<-|He].
      * rewrite I2 by exact Na. now rewrite upd_same.
      * rewrite <- (I1 e He). now rewrite upd_other by congruence.
    + intros e He. rewrite I2 by (intros X; apply He; now right). apply upd_other. intros ->. apply He. now left.
Qed.

Lemma inner_exists l : forall st, NoDup l -> (forall e, In e l -> exists s, step e (st e) = Ok s) -> exists st', run_list l ebody st = Ok st'.
Proof.
  induction l as [|a l IH]; intros st N H; [eexists; reflexivity|]. inversion N as [|? ? Na Nl]; subst.
  destruct (H a (or_introl eq_refl)) as [s Hs]. cbn. unfold ebody at 1. rewrite Hs. cbn.
  apply IH; [exact Nl|]. intros e He. rewrite upd_other by congruence. apply H. now right.
Qed.
End Inner.

(** ** One element *)
Definition elem_run (rf : list region) (max : nat) (sc : scene) (fids : list nat) (e : nat) (s : efill) : outcome efill :=
  run_list fids (fun fid => fill_elem rf max sc fid e) s.

Lemma outer_ok rf max sc ne order fids : schedule ne order -> forall st st',
  run_list fids (fun fid st => run_list (order fid) (fun e st => bind (fill_elem rf max sc fid e (st e)) (fun s => Ok (upd st e s))) st) st = Ok st' ->
  (forall e, (e < ne)%nat -> elem_run rf max sc fids e (st e) = Ok (st' e)) /\ (forall e, (ne <= e)%nat -> st' e = st e).
Proof.
  intros HO. induction fids as [|f fids IH]; intros st st' H; cbn in H.
  - injection H as <-. split; reflexivity.
  - destruct (run_list (order f) _ st) as [st1| |] eqn:E; cbn in H; try discriminate.
    assert (N : NoDup (order f)) by (eapply Permutation_NoDup; [symmetry; apply HO|apply seq_NoDup]).
    destruct (inner_ok (fun e s => fill_elem rf max sc f e s) (order f) st st1 N E) as [A B].
    destruct (IH _ _ H) as [C D]. split.
    + intros e He. unfold elem_run. cbn [run_list]. rewrite (A e) by (eapply Permutation_in; [symmetry; apply HO|apply in_seq; lia]).
      cbn [bind]. apply C, He.
    + intros e He. rewrite D by exact He. apply B. intros X. apply (Permutation_in _ (HO f)), in_seq in X. lia.
Qed.

Lemma outer_exists rf max sc ne order fids : schedule ne order -> forall st,
  (forall e, (e < ne)%nat -> exists s, elem_run rf max sc fids e (st e) = Ok s) ->
  exists st', run_list fids (fun fid st => run_list (order fid) (fun e st => bind (fill_elem rf max sc fid e (st e)) (fun s => Ok (upd st e s))) st) st = Ok st'.
Proof.
  intros HO. induction fids as [|f fids IH]; intros st H; [eexists; reflexivity|]. cbn [run_list].
  assert (N : NoDup (order f)) by (eapply Permutation_NoDup; [symmetry; apply HO|apply seq_NoDup]).
  assert (M : forall e, In e (order f) <-> (e < ne)%nat).
  { intros e. split; intros X.
    - apply (Permutation_in _ (HO f)), in_seq in X. lia.
    - eapply Permutation_in; [symmetry; apply HO|apply in_seq; lia]. }
  destruct (inner_exists (fun e s => fill_elem rf max sc f e s) (order f) st N) as [st1 E].
  { intros e He. apply M in He. destruct (H e He) as [s Hs]. unfold elem_run in Hs. cbn [run_list] in Hs.
    destruct (fill_elem rf max sc f e (st e)) as [s1| |]; cbn in Hs; try discriminate. eauto. }
  assert (E' : run_list (order f) (fun e st => bind (fill_elem rf max sc f e (st e)) (fun s => Ok (upd st e s))) st = Ok st1) by exact E.
  rewrite E'. cbn [bind]. apply IH. intros e He. destruct (H e He) as [s Hs]. unfold elem_run in Hs. cbn [run_list] in Hs.
  destruct (inner_ok (fun e s => fill_elem rf max sc f e s) (order f) st st1 N E) as [A _].
  rewrite (A e (proj2 (M e) He)) in Hs. cbn [bind] in Hs. exists s. exact Hs.
Qed.

Definition elem_final (rf : list region) (max : nat) (sc : scene) (e : nat) : outcome efill := elem_run rf max sc (seq 0 (length rf)) e efill0.

Lemma fill_regions_elem rf max sc ne order st : schedule ne order -> fill_regions rf max sc order = Ok st ->
  (forall e, (e < ne)%nat -> elem_final rf max sc e = Ok (st e)) /\ (forall e, (ne <= e)%nat -> st e = efill0).
Proof. intros HO H. exact (outer_ok rf max sc ne order (seq 0 (length rf)) HO (fun _ => efill0) st H). Qed.

Lemma fill_regions_exists rf max sc ne order : schedule ne order ->
  (forall e, (e < ne)%nat -> exists s, elem_final rf max sc e = Ok s) -> exists st, fill_regions rf max sc order = Ok st.
Proof. intros HO H. apply (outer_exists rf max sc ne order (seq 0 (length rf)) HO (fun _ => efill0)). exact H. Qed.

Lemma fill_schedule rf max sc ne o1 o2 st1 : schedule ne o1 -> schedule ne o2 -> fill_regions rf max sc o1 = Ok st1 ->
  exists st2, fill_regions rf max sc o2 = Ok st2 /\ forall e, st2 e = st1 e.
Proof.
  intros H1 H2 H. destruct (fill_regions_elem _ _ _ _ _ _ H1 H) as [A B].
  destruct (fill_regions_exists rf max sc ne o2 H2) as [st2 E]; [intros e He; eexists; now apply A|].
  exists st2. split; [exact E|]. destruct (fill_regions_elem _ _ _ _ _ _ H2 E) as [C D]. intros e.
  destruct (le_lt_dec ne e) as [L|L]; [now rewrite B, D|]. assert (X := A e L). rewrite (C e L) in X. congruence.
Qed.

(** ** One fill on one element *)
Lemma fill_elem_skip rf max sc f e st s : covers rf sc f e = false -> fill_elem rf max sc f e st = Ok s -> s = st.
Proof.
  unfold covers, fill_elem. destruct (nth_error rf f) as [r|]; [|discriminate].
  destruct (fill_geometric_region _ _ _ _) as [[|[|k]]|]; try discriminate; intros _ H; congruence.
Qed.

Lemma covers_get rf sc f e : covers rf sc f e = true -> exists r, nth_error rf f = Some r /\
  fill_geometric_region (sc_voxels sc f) (sc_object sc e) r (sc_center sc e) = Some 1%nat.
Proof.
  unfold covers. destruct (nth_error rf f) as [r|]; [|discriminate]. intros H. exists r. split; [reflexivity|].
  destruct (fill_geometric_region _ _ _ _) as [[|[|k]]|]; try discriminate. reflexivity.
Qed.

Lemma fill_elem_full rf max sc f e st s : covers rf sc f e = true -> is_full rf sc f e = true -> fill_elem rf max sc f e st = Ok s ->
  s = mkEfill 1 (set_slot (ef_slot st) 0 (mkSlot f 1 1)) /\ (0 < max)%nat.
Proof.
  intros C F. destruct (covers_get _ _ _ _ C) as (r & Hr & Hg). unfold fill_elem. rewrite Hr, Hg.
  unfold is_full, asked_vf in F. rewrite Hr in F.
  destruct (clamp_vf _) as [v|]; [|discriminate]. destruct (Rlt_dec v (1 - 1e-8)) as [|N]; [discriminate|].
  destruct (Rlt_dec (1 * v) (1 - 1e-8)) as [X|_]; [exfalso; apply N; now rewrite Rmult_1_l in X|].
  destruct (Nat.ltb_spec 0 max) as [P|]; [|discriminate]. intros H. split; [congruence|exact P].
Qed.

Lemma fill_elem_part rf max sc f e st s : covers rf sc f e = true -> is_full rf sc f e = false -> fill_elem rf max sc f e st = Ok s ->
  exists v, asked_vf rf sc f e = Some v /\ v < 1 - 1e-8 /\ append_fill rf max f v 1 st = Ok s.
Proof.
  intros C F. destruct (covers_get _ _ _ _ C) as (r & Hr & Hg). unfold fill_elem. rewrite Hr, Hg.
  unfold is_full, asked_vf in *. rewrite Hr in *.
  destruct (clamp_vf _) as [v|]; [|discriminate]. destruct (Rlt_dec v (1 - 1e-8)) as [L|]; [|discriminate].
  destruct (Rlt_dec (1 * v) (1 - 1e-8)) as [X|N]; [|exfalso; apply N; now rewrite Rmult_1_l].
  intros H. exists v. split; [reflexivity|]. split; [exact L|exact H].
Qed.

Lemma clamp_range v x : clamp_vf v = Some x -> 0 <= x <= 1.
Proof.
  destruct v; cbn; intros H; try discriminate; injection H as <-; [|lra].
  unfold fmin, fmax, Rmin, Rmax. destruct (Rle_dec 0 x0); destruct (Rle_dec _ _); lra.
Qed.

Lemma asked_range rf sc f e v : asked_vf rf sc f e = Some v -> 0 <= v <= 1.
Proof. unfold asked_vf. destruct (nth_error rf f); [|discriminate]. apply clamp_range. Qed.

Lemma search_list rf mat : forall l st out, run_list l (fun a st => bind (mat_of rf a) (fun m => Ok (if Nat.eqb mat m then (a, true) else st))) st = Ok out ->
  (out = st /\ forall a, In a l -> mat_of rf a <> Ok mat) \/ (snd out = true /\ In (fst out) l /\ mat_of rf (fst out) = Ok mat).
Proof.
  induction l as [|a l IH]; intros st out H; cbn in H.
  - injection H as <-. left. split; [reflexivity|intros a []].
  - destruct (mat_of rf a) as [m| |] eqn:E; cbn in H; try discriminate.
    destruct (Nat.eqb_spec mat m) as [->|N].
    + destruct (IH _ _ H) as [[-> _]|(A & B & C)]; right; cbn; [repeat split; auto|]. repeat split; auto. 
    + destruct (IH _ _ H) as [[-> A]|(A & B & C)]; [left|right].
      * split; [reflexivity|]. intros b [<-|Hb]; [rewrite E; congruence|now apply A].
      * split; [exact A|]. split; [now right|exact C].
Qed.

Lemma search_spec rf mat num lid ex : search rf mat num = Ok (lid, ex) ->
  (ex = false /\ lid = num /\ forall a, (a < num)%nat -> mat_of rf a <> Ok mat) \/ (ex = true /\ (lid < num)%nat /\ mat_of rf lid = Ok mat).
Proof.
  intros H. destruct (search_list rf mat _ _ _ H) as [[E A]|(A & B & C)]; cbn in *.
  - injection E as -> ->. left. split; [reflexivity|]. split; [reflexivity|]. intros a Ha. apply A, in_seq. lia.
  - right. apply in_seq in B. split; [exact A|]. split; [lia|exact C].
Qed.

Lemma append_spec rf max f v g st s : append_fill rf max f v g st = Ok s ->
  exists lid, (lid < max)%nat /\ (forall i, ef_slot s i = if Nat.eqb i lid then mkSlot f v g else ef_slot st i) /\
  ((lid = ef_num st /\ ef_num s = S (ef_num st)) \/ ((lid < ef_num st)%nat /\ ef_num s = ef_num st /\ mat_of rf lid = mat_of rf f)).
Proof.
  unfold append_fill. destruct (Nat.ltb 0 max && Nat.leb max (ef_num st))%bool eqn:A; [discriminate|].
  destruct (mat_of rf f) as [m| |] eqn:M; cbn [bind]; try discriminate.
  destruct (search rf m (ef_num st)) as [[lid ex]| |] eqn:SE; cbn [bind]; try discriminate.
  destruct (Nat.ltb_spec lid max) as [L|]; [|discriminate]. intros H. assert (E : s = mkEfill (if ex then ef_num st else S (ef_num st)) (set_slot (ef_slot st) lid (mkSlot f v g))) by congruence. subst s. cbn.
  exists lid. split; [exact L|]. split; [reflexivity|].
  destruct (search_spec _ _ _ _ _ SE) as [(-> & -> & _)|(-> & X & Y)]; [left; split; reflexivity|right]. repeat split; try assumption; congruence.
Qed.

(** ** Invariant of one element *)
Record elem_inv (rf : list region) (max : nat) (sc : scene) (e k : nat) (st : efill) : Prop := {
  inv_max : (ef_num st <= max)%nat;
  inv_k : (ef_num st <= k)%nat;
  inv_slot : forall i, (i < ef_num st)%nat ->
    (sl_fill (ef_slot st i) < k)%nat /\ covers rf sc (sl_fill (ef_slot st i)) e = true /\
    0 <= sl_vf (ef_slot st i) <= 1 /\ sl_geo (ef_slot st i) = 1 /\
    (sl_vf (ef_slot st i) = if is_full rf sc (sl_fill (ef_slot st i)) e then 1 else match asked_vf rf sc (sl_fill (ef_slot st i)) e with Some v => v | None => 0 end)
}.

Lemma inv_step rf max sc e k st s : elem_inv rf max sc e k st -> fill_elem rf max sc k e st = Ok s -> elem_inv rf max sc e (S k) s.
Proof.
  intros [I1 I2 I3] H. destruct (covers rf sc k e) eqn:C.
  - destruct (is_full rf sc k e) eqn:F.
    + destruct (fill_elem_full _ _ _ _ _ _ _ C F H) as [-> P]. split; cbn; [lia|lia|].
      intros i Hi. assert (i = 0%nat) by lia. subst i. cbn. rewrite F. repeat split; auto; lra.
    + destruct (fill_elem_part _ _ _ _ _ _ _ C F H) as (v & Hv & Lv & Ha).
      destruct (append_spec _ _ _ _ _ _ _ Ha) as (lid & L & Sl & D).
      assert (Rv := asked_range _ _ _ _ _ Hv).
      split; [destruct D as [[-> ->]|(X & -> & _)]; lia|destruct D as [[-> ->]|(X & -> & _)]; lia|].
      intros i Hi. rewrite (Sl i). destruct (Nat.eqb_spec i lid) as [->|N]; cbn [sl_fill sl_vf sl_geo].
      * rewrite F, Hv. repeat split; auto; lra.
      * assert (Hi' : (i < ef_num st)%nat) by (destruct D as [[-> D]|(X & D & _)]; rewrite D in Hi; lia).
        destruct (I3 i Hi') as (A & B & E & G & K). repeat split; try assumption; try lra. lia.
  - rewrite (fill_elem_skip _ _ _ _ _ _ _ C H). split; [exact I1|lia|]. intros i Hi. destruct (I3 i Hi) as (A & B). split; [lia|exact B].
Qed.

Lemma elem_run_app rf max sc l1 l2 e s : elem_run rf max sc (l1 ++ l2) e s = bind (elem_run rf max sc l1 e s) (elem_run rf max sc l2 e).
Proof. apply run_list_app. Qed.

Lemma elem_run_S rf max sc k e s : elem_run rf max sc (seq 0 (S k)) e efill0 = Ok s ->
  exists s1, elem_run rf max sc (seq 0 k) e efill0 = Ok s1 /\ fill_elem rf max sc k e s1 = Ok s.
Proof.
  rewrite seq_S, elem_run_app. cbn [plus]. destruct (elem_run rf max sc (seq 0 k) e efill0) as [s1| |]; cbn; try discriminate.
  intros H. exists s1. split; [reflexivity|]. destruct (fill_elem rf max sc k e s1); cbn in H; congruence.
Qed.

Lemma inv_run rf max sc e k : forall s, elem_run rf max sc (seq 0 k) e efill0 = Ok s -> elem_inv rf max sc e k s.
Proof.
  induction k as [|k IH]; intros s H.
  - injection H as <-. split; cbn; [lia|lia|]. intros i Hi. lia.
  - destruct (elem_run_S _ _ _ _ _ _ H) as (s1 & H1 & H2). eapply inv_step; [apply IH, H1|exact H2].
Qed.

(** later fills that do not cover the element change nothing *)
Lemma tail_skip rf max sc e k n : forall s s', (forall g, (k <= g < k + n)%nat -> covers rf sc g e = false) ->
  elem_run rf max sc (seq k n) e s = Ok s' -> s' = s.
Proof.
  revert k. induction n as [|n IH]; intros k s s' Hc H; cbn in H; [congruence|].
  destruct (fill_elem rf max sc k e s) as [s1| |] eqn:E; cbn in H; try discriminate.
  assert (s1 = s) by (eapply fill_elem_skip; [apply (Hc k); lia|exact E]). subst s1.
  eapply (IH (S k)); [intros g Hg; apply Hc; lia|exact H].
Qed.

Lemma last_full_wins rf max sc ne order st e f : schedule ne order -> fill_regions rf max sc order = Ok st -> (e < ne)%nat ->
  covers rf sc f e = true -> is_full rf sc f e = true -> (forall g, (f < g < length rf)%nat -> covers rf sc g e = false) ->
  ef_num (st e) = 1%nat /\ ef_slot (st e) 0%nat = mkSlot f 1 1.
Proof.
  intros HO H He C F L. destruct (fill_regions_elem _ _ _ _ _ _ HO H) as [A _]. assert (E := A e He). unfold elem_final in E.
  assert (Hf : (f < length rf)%nat).
  { destruct (covers_get _ _ _ _ C) as (r & Hr & _). apply nth_error_Some. congruence. }
  replace (length rf) with (f + S (length rf - S f))%nat in E by lia. rewrite seq_app, elem_run_app in E. cbn [plus seq] in E.
  destruct (elem_run rf max sc (seq 0 f) e efill0) as [s0| |]; cbn [bind] in E; try discriminate.
  unfold elem_run in E. cbn [run_list] in E.
  destruct (fill_elem rf max sc f e s0) as [s1| |] eqn:E1; cbn [bind] in E; try discriminate.
  destruct (fill_elem_full _ _ _ _ _ _ _ C F E1) as [E2 _].
  assert (X : st e = s1) by (eapply (tail_skip rf max sc e (S f) (length rf - S f)); [intros g Hg; apply L; lia|exact E]).
  rewrite X, E2. split; reflexivity.
Qed.

Lemma uncovered_empty rf max sc ne order st e : schedule ne order -> fill_regions rf max sc order = Ok st ->
  (forall g, (g < length rf)%nat -> covers rf sc g e = false) -> ef_num (st e) = 0%nat.
Proof.
  intros HO H L. destruct (fill_regions_elem _ _ _ _ _ _ HO H) as [A B]. destruct (le_lt_dec ne e) as [X|X]; [now rewrite B|].
  assert (E := A e X). assert (Y : st e = efill0) by (eapply (tail_skip rf max sc e 0 (length rf)); [intros g Hg; apply L; lia|exact E]).
  now rewrite Y.
Qed.

Lemma final_inv rf max sc ne order st e : schedule ne order -> fill_regions rf max sc order = Ok st -> elem_inv rf max sc e (length rf) (st e).
Proof.
  intros HO H. destruct (fill_regions_elem _ _ _ _ _ _ HO H) as [A B]. destruct (le_lt_dec ne e) as [X|X].
  - rewrite B by exact X. split; cbn; [lia|lia|]. intros i Hi. lia.
  - apply inv_run, A, X.
Qed.

(** ** No undefined behaviour *)
Lemma run_no_ub {A S} (body : A -> S -> outcome S) (P : S -> Prop) l : (forall a s, In a l -> P s -> body a s <> UB /\ forall s', body a s = Ok s' -> P s') ->
  forall s, P s -> run_list l body s <> UB.
Proof.
  induction l as [|a l IH]; intros Hb s Hs; [discriminate|]. cbn. destruct (Hb a s (or_introl eq_refl) Hs) as [N K].
  destruct (body a s) as [s'| |]; cbn; [|discriminate|congruence]. apply IH; [intros b t Hb' Ht; apply Hb; [now right|exact Ht]|now apply K].
Qed.

Lemma mat_of_ok rf f : (f < length rf)%nat -> exists m, mat_of rf f = Ok m.
Proof. intros H. unfold mat_of. destruct (nth_error rf f) eqn:E; [eauto|]. apply nth_error_None in E. lia. Qed.

Lemma search_total rf mat num : (num <= length rf)%nat -> exists out, search rf mat num = Ok out.
Proof.
  intros H. unfold search.
  assert (G : forall l st, (forall a, In a l -> (a < length rf)%nat) -> exists out, run_list l (fun a st => bind (mat_of rf a) (fun m => Ok (if Nat.eqb mat m then (a, true) else st))) st = Ok out).
  { induction l as [|a l IH]; intros st Hl; [eexists; reflexivity|]. cbn. destruct (mat_of_ok rf a (Hl a (or_introl eq_refl))) as [m ->]. cbn.
    apply IH. intros b Hb. apply Hl. now right. }
  apply G. intros a Ha. apply in_seq in Ha. lia.
Qed.

Lemma append_no_ub rf max f v g st : (0 < max)%nat -> (f < length rf)%nat -> (ef_num st <= length rf)%nat -> (ef_num st <= max)%nat -> append_fill rf max f v g st <> UB.
Proof.
  intros Hm Hf Hn Hx. unfold append_fill. destruct (Nat.ltb_spec 0 max); [|lia]. cbn [andb].
  destruct (Nat.leb_spec max (ef_num st)) as [|L]; [discriminate|].
  destruct (mat_of_ok rf f Hf) as [m ->]. cbn [bind]. destruct (search_total rf m (ef_num st) Hn) as [[lid ex] SE]. rewrite SE. cbn [bind].
  assert (Y : (lid < max)%nat) by (destruct (search_spec _ _ _ _ _ SE) as [(_ & -> & _)|(_ & X & _)]; lia).
  destruct (Nat.ltb_spec lid max); [discriminate|lia].
Qed.

Lemma elem_no_ub rf max sc e : (0 < max)%nat -> defined rf sc e -> forall k, (k <= length rf)%nat -> elem_run rf max sc (seq 0 k) e efill0 <> UB.
Proof.
  intros Hm D. induction k as [|k IH]; intros Hk; [discriminate|].
  rewrite seq_S, elem_run_app. cbn [plus].
  destruct (elem_run rf max sc (seq 0 k) e efill0) as [s| |] eqn:E; cbn; [|discriminate|now apply IH; lia].
  assert (I := inv_run _ _ _ _ _ _ E). assert (X : fill_elem rf max sc k e s <> UB).
  { unfold fill_elem. destruct (nth_error rf k) as [r|] eqn:Hr; [|apply nth_error_None in Hr; lia].
    destruct (D k r Hr) as [D1 D2]. unfold asked_vf in D2. rewrite Hr in D2.
    destruct (fill_geometric_region _ _ _ _) as [[|[|n]]|]; try discriminate; [|congruence].
    destruct (clamp_vf _) as [v|]; [|congruence]. destruct (Rlt_dec _ _).
    - destruct I as [I1 I2 _]. apply append_no_ub; lia.
    - destruct (Nat.ltb_spec 0 max); [discriminate|lia]. }
  destruct (fill_elem rf max sc k e s); cbn; [discriminate|discriminate|congruence].
Qed.

Lemma fill_no_ub rf max sc ne order : (0 < max)%nat -> schedule ne order -> (forall e, (e < ne)%nat -> defined rf sc e) -> fill_regions rf max sc order <> UB.
Proof.
  intros Hm HO D. unfold fill_regions.
  assert (G : forall k, (k <= length rf)%nat -> forall r, run_list (seq 0 k) (fun fid st =>
    run_list (order fid) (fun e st => bind (fill_elem rf max sc fid e (st e)) (fun s => Ok (upd st e s))) st) (fun _ => efill0) = r ->
    r <> UB).
  { induction k as [|k IH]; intros Hk r Er; [subst r; discriminate|]. rewrite seq_S, run_list_app in Er. cbn [plus] in Er.
    destruct (run_list (seq 0 k) _ _) as [st| |] eqn:E; cbn [bind] in Er; [|subst r; discriminate|exfalso; exact (IH ltac:(lia) _ eq_refl eq_refl)].
    destruct (outer_ok rf max sc ne order (seq 0 k) HO (fun _ => efill0) st E) as [A B]. cbn [run_list] in Er.
    assert (N : NoDup (order k)) by (eapply Permutation_NoDup; [symmetry; apply HO|apply seq_NoDup]).
    assert (K : forall l st', NoDup l -> (forall e, In e l -> (e < ne)%nat) -> (forall e, In e l -> st' e = st e) ->
      run_list l (fun e st => bind (fill_elem rf max sc k e (st e)) (fun s => Ok (upd st e s))) st' <> UB).
    { induction l as [|e l IHl]; intros st' Nl Hl Es; [discriminate|]. inversion Nl as [|? ? Ne Nl']; subst. cbn.
      assert (X : fill_elem rf max sc k e (st' e) <> UB).
      { rewrite (Es e (or_introl eq_refl)). assert (Y := elem_no_ub rf max sc e Hm (D e (Hl e (or_introl eq_refl))) (S k) Hk).
        rewrite seq_S, elem_run_app in Y. cbn [plus] in Y. rewrite (A e (Hl e (or_introl eq_refl))) in Y. cbn in Y. intros Z. rewrite Z in Y. now apply Y. }
      destruct (fill_elem rf max sc k e (st' e)) as [s| |]; cbn; [|discriminate|congruence].
      apply IHl; [exact Nl'|intros; apply Hl; now right|]. intros x Hx. rewrite upd_other by congruence. apply Es. now right. }
    assert (Z := K (order k) st N). destruct (run_list (order k) _ st); cbn in Er; subst r; try discriminate.
    exfalso. apply Z; [|reflexivity|reflexivity]. intros e He. apply (Permutation_in _ (HO k)), in_seq in He. lia. }
  intros H. exact (G (length rf) (le_n _) _ eq_refl H).
Qed.

(** ** Fills with pairwise different materials *)
Definition distinct_mats (rf : list region) : Prop := NoDup (map rg_material rf).

Lemma distinct_of rf f g m : distinct_mats rf -> mat_of rf f = Ok m -> mat_of rf g = Ok m -> f = g.
Proof.
  unfold distinct_mats, mat_of. intros N. destruct (nth_error rf f) as [r|] eqn:E; [|discriminate]. destruct (nth_error rf g) as [r'|] eqn:E'; [|discriminate].
  intros H H'. injection H as <-. injection H' as H'.
  assert (X := map_nth_error rg_material _ _ E). assert (X' := map_nth_error rg_material _ _ E'). rewrite H' in X'.
  eapply (proj1 (NoDup_nth_error _) N); [|congruence]. apply nth_error_Some. congruence.
Qed.

Lemma kept_list_S_skip rf sc e n : covers rf sc n e = false -> kept_list rf sc e (S n) = kept_list rf sc e n.
Proof.
  intros C. unfold kept_list. rewrite seq_S, filter_app. cbn [plus filter].
  assert (X : kept rf sc e (S n) n = false) by (unfold kept; now rewrite C). rewrite X, app_nil_r.
  apply filter_ext_in. intros f Hf. apply in_seq in Hf. unfold kept. f_equal.
  replace (S n - S f)%nat with (S (n - S f)) by lia. rewrite seq_S, forallb_app. cbn. replace (S (f + (n - S f)))%nat with n by lia.
  rewrite C. cbn. now rewrite andb_true_r.
Qed.

Lemma kept_list_S_part rf sc e n : covers rf sc n e = true -> is_full rf sc n e = false -> kept_list rf sc e (S n) = kept_list rf sc e n ++ [n].
Proof.
  intros C F. unfold kept_list. rewrite seq_S, filter_app. cbn [plus filter].
  assert (X : kept rf sc e (S n) n = true) by (unfold kept; rewrite C, Nat.sub_diag; reflexivity). rewrite X. f_equal.
  apply filter_ext_in. intros f Hf. apply in_seq in Hf. unfold kept. f_equal.
  replace (S n - S f)%nat with (S (n - S f)) by lia. rewrite seq_S, forallb_app. cbn. replace (S (f + (n - S f)))%nat with n by lia.
  rewrite F, andb_false_r. cbn. now rewrite andb_true_r.
Qed.

Lemma kept_list_S_full rf sc e n : covers rf sc n e = true -> is_full rf sc n e = true -> kept_list rf sc e (S n) = [n].
Proof.
  intros C F. unfold kept_list. rewrite seq_S, filter_app. cbn [plus filter].
  assert (X : kept rf sc e (S n) n = true) by (unfold kept; rewrite C, Nat.sub_diag; reflexivity). rewrite X.
  assert (Y : filter (kept rf sc e (S n)) (seq 0 n) = []).
  { assert (Z : forall f, In f (seq 0 n) -> kept rf sc e (S n) f = false).
    { intros f Hf. apply in_seq in Hf. unfold kept. replace (S n - S f)%nat with (S (n - S f)) by lia. rewrite seq_S, forallb_app. cbn.
      replace (S (f + (n - S f)))%nat with n by lia. rewrite C, F. cbn. now rewrite !andb_false_r. }
    induction (seq 0 n) as [|a l IH]; [reflexivity|]. cbn. rewrite Z by now left. apply IH. intros f Hf. apply Z. now right. }
  now rewrite Y.
Qed.

Lemma slots_append st s f v lid : (forall i, ef_slot s i = if Nat.eqb i lid then mkSlot f v 1 else ef_slot st i) -> lid = ef_num st -> ef_num s = S (ef_num st) ->
  slots s = slots st ++ [mkSlot f v 1].
Proof.
  intros H -> E. unfold slots. rewrite E, seq_S, map_app. cbn. rewrite (H (ef_num st)), Nat.eqb_refl. f_equal.
  apply map_ext_in. intros i Hi. apply in_seq in Hi. rewrite H. destruct (Nat.eqb_spec i (ef_num st)); [lia|reflexivity].
Qed.

Lemma slots_length st : length (slots st) = ef_num st.
Proof. unfold slots. now rewrite map_length, seq_length. Qed.

Lemma distinct_run rf max sc e : distinct_mats rf -> forall k s, (k <= length rf)%nat -> elem_run rf max sc (seq 0 k) e efill0 = Ok s ->
  slots s = map (slot_of rf sc e) (kept_list rf sc e k).
Proof.
  intros N. induction k as [|k IH]; intros s Hk H; [injection H as <-; reflexivity|].
  destruct (elem_run_S _ _ _ _ _ _ H) as (s1 & H1 & H2). assert (E := IH s1 ltac:(lia) H1). assert (I := inv_run _ _ _ _ _ _ H1).
  destruct (covers rf sc k e) eqn:C; [destruct (is_full rf sc k e) eqn:F|].
  - destruct (fill_elem_full _ _ _ _ _ _ _ C F H2) as [-> _]. rewrite kept_list_S_full by assumption. cbn. unfold slot_of. now rewrite F.
  - destruct (fill_elem_part _ _ _ _ _ _ _ C F H2) as (v & Hv & _ & Ha). destruct (append_spec _ _ _ _ _ _ _ Ha) as (lid & L & Sl & D).
    rewrite kept_list_S_part, map_app by assumption. rewrite <- E. cbn. unfold slot_of. rewrite F, Hv.
    destruct D as [[D1 D2]|(D1 & _ & D3)]; [now apply (slots_append s1 s k v lid)|].
    exfalso. destruct I as [_ I2 _]. destruct (mat_of_ok rf k ltac:(lia)) as [m Hm]. rewrite Hm in D3.
    assert (lid = k) by (eapply distinct_of; eassumption). lia.
  - rewrite kept_list_S_skip by exact C. rewrite (fill_elem_skip _ _ _ _ _ _ _ C H2). exact E.
Qed.

Lemma distinct_ok_iff rf max sc e : (0 < max)%nat -> distinct_mats rf -> defined rf sc e -> forall k, (k <= length rf)%nat ->
  ((exists s, elem_run rf max sc (seq 0 k) e efill0 = Ok s) <-> forall j, (j <= k)%nat -> (length (kept_list rf sc e j) <= max)%nat).
Proof.
  intros Hm N D. induction k as [|k IH]; intros Hk.
  - split; [|intros _; eexists; reflexivity]. intros _ j Hj. assert (j = 0%nat) by lia. subst. cbn. lia.
  - specialize (IH ltac:(lia)). split.
    + intros [s H] j Hj. destruct (elem_run_S _ _ _ _ _ _ H) as (s1 & H1 & H2).
      destruct (le_lt_dec j k) as [L|L]; [apply IH; [eauto|exact L]|]. assert (j = S k) by lia. subst j.
      assert (E := distinct_run rf max sc e N (S k) s Hk H). apply (f_equal (@length _)) in E. rewrite map_length, slots_length in E.
      rewrite <- E. apply (inv_run _ _ _ _ _ _ H).
    + intros H. destruct IH as [_ IH]. destruct IH as [s1 H1]; [intros j Hj; apply H; lia|].
      assert (U := elem_no_ub rf max sc e Hm D (S k) Hk). rewrite seq_S, elem_run_app in *. cbn [plus] in *. rewrite H1 in *. cbn [bind] in *.
      unfold elem_run in *. cbn [run_list] in *.
      destruct (fill_elem rf max sc k e s1) as [s| |] eqn:E; cbn in *; [eauto| |congruence]. exfalso.
      assert (E1 := distinct_run rf max sc e N k s1 ltac:(lia) H1). apply (f_equal (@length _)) in E1. rewrite map_length, slots_length in E1.
      assert (Lk := H (S k) (le_n _)).
      unfold fill_elem in E. destruct (nth_error rf k) as [r|] eqn:Hr; [|discriminate].
      destruct (fill_geometric_region _ _ _ _) as [[|[|n]]|] eqn:G; try discriminate.
      assert (C : covers rf sc k e = true) by (unfold covers; now rewrite Hr, G).
      destruct (clamp_vf _) as [v|] eqn:V; [|discriminate]. destruct (Rlt_dec (1 * v) (1 - 1e-8)) as [L|]; [|destruct (Nat.ltb 0 max); discriminate].
      assert (F : is_full rf sc k e = false).
      { unfold is_full, asked_vf. rewrite Hr, V. destruct (Rlt_dec v (1 - 1e-8)); [reflexivity|]. exfalso. lra. }
      rewrite kept_list_S_part, app_length in Lk by assumption. cbn in Lk. rewrite <- E1 in Lk.
      unfold append_fill in E. destruct (Nat.leb_spec max (ef_num s1)) as [X|X]; [lia|]. rewrite andb_false_r in E.
      destruct (mat_of rf k) as [m| |] eqn:M; cbn [bind] in E; try discriminate.
      * destruct (search rf m (ef_num s1)) as [[lid ex]| |] eqn:SE; cbn [bind] in E; try discriminate; [destruct (Nat.ltb lid max); discriminate|].
        destruct (search_total rf m (ef_num s1)) as [o So]; [assert (X1 := inv_run _ _ _ _ _ _ H1); destruct X1; lia|congruence].
      * unfold mat_of in M. rewrite Hr in M. discriminate.
Qed.

Lemma kept_list_nodup rf sc e n : NoDup (kept_list rf sc e n).
Proof. apply NoDup_filter, seq_NoDup. Qed.

Lemma elem_mats_ok rf st : (forall i, (i < ef_num st)%nat -> (sl_fill (ef_slot st i) < length rf)%nat) ->
  exists l, elem_mats rf st = Ok l /\ map (@Ok nat) l = map (fun s => mat_of rf (sl_fill s)) (slots st).
Proof.
  unfold elem_mats, slots. rewrite map_map.
  assert (G : forall l l0, (forall i, In i l -> (sl_fill (ef_slot st i) < length rf)%nat) -> exists r, 
    run_list l (fun bin l => bind (mat_of rf (sl_fill (ef_slot st bin))) (fun m => Ok (l ++ [m]))) l0 = Ok (l0 ++ r) /\ map (@Ok nat) r = map (fun x => mat_of rf (sl_fill (ef_slot st x))) l).
  { induction l as [|a l IH]; intros l0 H; [exists []; rewrite app_nil_r; split; reflexivity|]. cbn.
    destruct (mat_of_ok rf _ (H a (or_introl eq_refl))) as [m Hm]. rewrite Hm. cbn. destruct (IH (l0 ++ [m])) as (r & E & F); [intros; apply H; now right|].
    exists (m :: r). rewrite <- app_assoc in E. split; [exact E|]. cbn. now rewrite F. }
  intros H. destruct (G (seq 0 (ef_num st)) []) as (r & E & F); [intros i Hi; apply in_seq in Hi; apply H; lia|]. exists r. split; assumption.
Qed.

Lemma distinct_mats_nodup rf max sc ne order st e : distinct_mats rf -> schedule ne order -> fill_regions rf max sc order = Ok st -> (e < ne)%nat ->
  exists l, elem_mats rf (st e) = Ok l /\ NoDup l.
Proof.
  intros N HO H He. assert (I := final_inv _ _ _ _ _ _ e HO H). destruct I as [I1 I2 I3].
  destruct (elem_mats_ok rf (st e)) as (l & E & F); [intros i Hi; apply I3, Hi|]. exists l. split; [exact E|].
  destruct (fill_regions_elem _ _ _ _ _ _ HO H) as [A _]. assert (K := distinct_run rf max sc e N _ _ (le_n _) (A e He)).
  rewrite K, map_map in F. cbn in F.
  apply (NoDup_map_inv (@Ok nat)). rewrite F.
  assert (Kn := kept_list_nodup rf sc e (length rf)).
  assert (Kr : forall f, In f (kept_list rf sc e (length rf)) -> (f < length rf)%nat).
  { intros f Hf. apply filter_In in Hf as [Hf _]. apply in_seq in Hf. lia. }
  induction (kept_list rf sc e (length rf)) as [|f fs IH] in Kn, Kr |- *; [constructor|]. inversion Kn as [|? ? K1 K2]; subst. cbn. constructor.
  - intros X. apply in_map_iff in X as (g & X & Hg). destruct (mat_of_ok rf f (Kr f (or_introl eq_refl))) as [m Hm].
    assert (g = f) by (eapply distinct_of; [exact N| |exact Hm]; congruence). subst g. contradiction.
  - apply IH; [exact K2|]. intros x Hx. apply Kr. now right.
Qed.

(** ** Shapes *)
Lemma rle_true x y : rle x y = true <-> x <= y.
Proof. unfold rle. destruct (Rle_dec x y); split; intros; try assumption; try reflexivity; [discriminate|contradiction]. Qed.

Lemma sqrt_shell r1 r2 d : 0 <= d -> (r1 <= sqrt d /\ sqrt d <= r2 <-> shell r1 r2 d).
Proof.
  intros Hd. unfold shell. assert (P := sqrt_pos d). assert (Q := sqrt_sqrt d Hd). split.
  - intros [A B]. split; [|split; [lra|rewrite <- Q; apply Rmult_le_compat; lra]].
    destruct (Rle_dec r1 0) as [L|L]; [now left|right]. rewrite <- Q. apply Rmult_le_compat; lra.
  - intros (A & B & C). split.
    + destruct A as [A|A]; [lra|]. destruct (Rle_dec r1 0); [lra|]. apply Rnot_lt_le. intros X. assert (sqrt d * sqrt d < r1 * r1) by (apply Rmult_le_0_lt_compat; lra). lra.
    + apply Rnot_lt_le. intros X. assert (r2 * r2 < sqrt d * sqrt d) by (apply Rmult_le_0_lt_compat; lra). lra.
Qed.

Lemma dist2_pos n o c : 0 <= dist2 n o c.
Proof. apply sumn_nonneg. intros i _. apply Rle_0_sqr. Qed.

Lemma dist2_2 o c : dist2 2 o c = (c 0%nat - o 0%nat) * (c 0%nat - o 0%nat) + (c 1%nat - o 1%nat) * (c 1%nat - o 1%nat).
Proof. unfold dist2. cbn [sumn]. ring. Qed.
Lemma dist2_3 o c : dist2 3 o c = (c 0%nat - o 0%nat) * (c 0%nat - o 0%nat) + (c 1%nat - o 1%nat) * (c 1%nat - o 1%nat) + (c 2%nat - o 2%nat) * (c 2%nat - o 2%nat).
Proof. unfold dist2. cbn [sumn]. ring. Qed.

Lemma one_iff (b : bool) : Some (if b then 1 else 0)%nat = Some 1%nat <-> b = true.
Proof. destruct b; split; congruence. Qed.

Lemma geometric_iff v o r c : rg_volume r <> VVoxel -> (fill_geometric_region v o r c = Some 1%nat <-> in_shape r o c).
Proof.
  intros NV. unfold fill_geometric_region, in_shape, between. cbv zeta. destruct (rg_volume r); try contradiction.
  - split; [discriminate|tauto].
  - tauto.
  - rewrite one_iff, !andb_true_iff, !rle_true. tauto.
  - rewrite one_iff, !andb_true_iff, !rle_true. rewrite <- (sqrt_shell _ _ _ (dist2_pos _ _ _)), dist2_2. tauto.
  - rewrite one_iff, !andb_true_iff, !rle_true. rewrite <- (sqrt_shell _ _ _ (dist2_pos _ _ _)), dist2_3. tauto.
  - rewrite one_iff. apply Z.eqb_eq.
  - split; [discriminate|tauto].
Qed.

Lemma geometric_total v o r c : rg_volume r <> VVoxel -> fill_geometric_region v o r c = Some 1%nat \/ fill_geometric_region v o r c = Some 0%nat.
Proof.
  intros NV. unfold fill_geometric_region. cbv zeta. destruct (rg_volume r); try contradiction; auto; match goal with |- context [if ?b then _ else _] => destruct b; auto end.
Qed.

Lemma in_shape_grows r r' o c : grows r r' -> in_shape r o c -> in_shape r' o c.
Proof.
  intros (E & O & P & X1 & X2 & Y1 & Y2 & Z1 & Z2 & R1 & R2). unfold in_shape, between. rewrite <- E.
  assert (D : forall n, dist2 n (rg_origin r') c = dist2 n (rg_origin r) c) by (intros n; unfold dist2; apply sumn_ext; intros i _; now rewrite O).
  assert (SH : forall d, 0 <= d -> shell (rg_radius1 r) (rg_radius2 r) d -> shell (rg_radius1 r') (rg_radius2 r') d).
  { intros d Hd H. apply (sqrt_shell _ _ _ Hd). apply (sqrt_shell _ _ _ Hd) in H. lra. }
  destruct (rg_volume r); intros H; try exact H.
  - lra.
  - rewrite D. destruct H as [H1 H2]. split; [apply SH; [apply dist2_pos|exact H1]|lra].
  - rewrite D. apply SH; [apply dist2_pos|exact H].
  - congruence.
Qed.

(** Convex shapes: if every node of an element lies in the shape, so does its centre. *)
Lemma sumn_div_between n f lo hi : (0 < n)%nat -> (forall i, (i < n)%nat -> lo <= f i <= hi) -> lo <= sumn n f / INR n <= hi.
Proof.
  intros Hn H. assert (P : 0 < INR n) by (apply lt_0_INR; lia).
  assert (A : INR n * lo <= sumn n f) by (rewrite <- sumn_const; apply sumn_le; intros i Hi; apply H, Hi).
  assert (B : sumn n f <= INR n * hi) by (rewrite <- sumn_const; apply sumn_le; intros i Hi; apply H, Hi).
  split; [apply (Rmult_le_reg_r (INR n) _ _ P)|apply (Rmult_le_reg_r (INR n) _ _ P)]; unfold Rdiv; rewrite ?Rmult_assoc, Rinv_l by lra; lra.
Qed.

(** (average)^2 <= average of squares *)
Lemma jensen n f : (0 < n)%nat -> (sumn n f / INR n) * (sumn n f / INR n) <= sumn n (fun i => f i * f i) / INR n.
Proof.
  intros Hn. assert (P : 0 < INR n) by (apply lt_0_INR; lia). set (m := sumn n f / INR n).
  assert (S : sumn n f = INR n * m) by (unfold m; field; lra).
  assert (Q : 0 <= sumn n (fun i => (f i - m) * (f i - m))) by (apply sumn_nonneg; intros; apply Rle_0_sqr).
  assert (E : sumn n (fun i => (f i - m) * (f i - m)) = sumn n (fun i => f i * f i) - INR n * (m * m)).
  { rewrite (sumn_ext n _ (fun i => f i * f i - (2 * m) * f i + m * m)) by (intros; ring).
    rewrite sumn_plus, sumn_minus, sumn_scal, sumn_const, S. ring. }
  rewrite E in Q. apply (Rmult_le_reg_r (INR n) _ _ P). unfold Rdiv. rewrite (Rmult_assoc (sumn _ _)), Rinv_l by lra. lra.
Qed.

Lemma elem_center_3 n x d : (d < 3)%nat -> elem_center 3 n x d = sumn n (fun i => x i d) / INR n.
Proof. intros H. destruct d as [|[|[|d]]]; [reflexivity|reflexivity|reflexivity|lia]. Qed.

Lemma center_dist2 n x o k : (0 < n)%nat -> (k <= 3)%nat -> dist2 k o (elem_center 3 n x) <= sumn n (fun i => dist2 k o (x i)) / INR n.
Proof.
  intros Hn Hk. assert (P : 0 < INR n) by (apply lt_0_INR; lia). unfold dist2. rewrite sumn_exchange. unfold Rdiv. rewrite <- sumn_scal_r.
  apply sumn_le. intros d Hd. rewrite elem_center_3 by lia.
  replace (sumn n (fun i => x i d) / INR n - o d) with (sumn n (fun i => x i d - o d) / INR n).
  - apply jensen, Hn.
  - rewrite sumn_minus, sumn_const. field. lra.
Qed.

Lemma center_in_convex n x r ob : (0 < n)%nat -> (rg_volume r = VBox \/ ((rg_volume r = VSphere \/ rg_volume r = VCylinder) /\ rg_radius1 r <= 0)) ->
  (forall i, (i < n)%nat -> in_shape r ob (x i)) -> in_shape r ob (elem_center 3 n x).
Proof.
  intros Hn HV H. assert (P : 0 < INR n) by (apply lt_0_INR; lia). unfold in_shape, between in *.
  assert (BT : forall d lo hi, (d < 3)%nat -> (forall i, (i < n)%nat -> lo <= x i d <= hi) -> lo <= elem_center 3 n x d <= hi).
  { intros d lo hi Hd Hb. rewrite elem_center_3 by exact Hd. now apply sumn_div_between. }
  assert (SH : forall k, (k <= 3)%nat -> rg_radius1 r <= 0 -> (forall i, (i < n)%nat -> shell (rg_radius1 r) (rg_radius2 r) (dist2 k (rg_origin r) (x i))) ->
     shell (rg_radius1 r) (rg_radius2 r) (dist2 k (rg_origin r) (elem_center 3 n x))).
  { intros k Hk R1 Hs. split; [now left|]. split; [apply (Hs 0%nat Hn)|].
    eapply Rle_trans; [apply center_dist2; [exact Hn|exact Hk]|].
    apply (sumn_div_between n (fun i => dist2 k (rg_origin r) (x i)) 0 (rg_radius2 r * rg_radius2 r) Hn).
    intros i Hi. split; [apply dist2_pos|apply Hs, Hi]. }
  destruct HV as [E|[[E|E] R1]]; rewrite E in *.
  - split; [apply (BT 0%nat); [lia|intros i Hi; apply (H i Hi)]|]. split; [apply (BT 1%nat); [lia|intros i Hi; apply (H i Hi)]|].
    apply (BT 2%nat); [lia|intros i Hi; apply (H i Hi)].
  - apply SH; [lia|exact R1|exact H].
  - split; [apply SH; [lia|exact R1|intros i Hi; apply H, Hi]|]. apply BT; [lia|]. intros i Hi. apply H, Hi.
Qed.

(** ** Voxels *)
Lemma trunc_nonneg x n : (0 <= n)%Z -> IZR n <= x < IZR n + 1 -> trunc x = n.
Proof.
  intros Hn [A B]. unfold trunc. assert (0 <= IZR n) by (apply (IZR_le 0 n Hn)). destruct (Rle_dec 0 x) as [L|L]; [|lra].
  unfold Int_part. assert (up x = (n + 1)%Z); [|lia]. symmetry. apply tech_up; rewrite plus_IZR; lra.
Qed.

Lemma Int_part_bounds x : IZR (Int_part x) <= x < IZR (Int_part x) + 1.
Proof. destruct (base_Int_part x). lra. Qed.

Lemma trunc_bounds x : trunc x = trunc x /\ (0 <= x -> IZR (trunc x) <= x < IZR (trunc x) + 1 /\ (0 <= trunc x)%Z) /\ (x < 0 -> x <= IZR (trunc x) < x + 1 /\ (trunc x <= 0)%Z).
Proof.
  split; [reflexivity|]. unfold trunc. split; intros H.
  - destruct (Rle_dec 0 x); [|lra]. assert (B := Int_part_bounds x). split; [exact B|].
    assert (X : IZR (-1) < IZR (Int_part x)) by (cbn; lra). apply lt_IZR in X. lia.
  - destruct (Rle_dec 0 x); [lra|]. assert (B := Int_part_bounds (- x)). rewrite opp_IZR. split; [lra|].
    assert (X : IZR (-1) < IZR (Int_part (- x))) by (cbn; lra). apply lt_IZR in X. lia.
Qed.

Lemma int_ok_small z : (- int_limit <= z < int_limit)%Z -> int_ok z = Some z.
Proof. unfold int_ok. intros H. destruct (Z.leb_spec (- int_limit) z); destruct (Z.ltb_spec z int_limit); cbn; try lia; reflexivity. Qed.

Lemma int_ok_some z y : int_ok z = Some y -> y = z.
Proof. unfold int_ok. destruct (_ && _)%bool; congruence. Qed.

Definition dx_of (n : nat) (h : R) : R := h * INR (n - 2) / INR (n - 1).

Lemma voxel_axis_grid n x0 h : voxel_axis n (grid x0 h) = (dx_of n h, voxel_center x0 h 0).
Proof.
  unfold voxel_axis, grid, voxel_center, dx_of. cbn [INR]. f_equal; [|lra]. f_equal. ring.
Qed.

Lemma INR_IZR n : INR n = IZR (Z.of_nat n).
Proof. apply INR_IZR_INZ. Qed.

(** index of the centre of voxel i along one axis with n points *)
Lemma center_index n x0 h s i : (3 <= n)%nat -> h <> 0 -> (i < n - 1)%nat -> (Z.of_nat n < int_limit)%Z ->
  voxel_index (voxel_center x0 h i + s) (voxel_center x0 h 0) s (dx_of n h) = Some (Z.of_nat (if Nat.eqb i (n - 2) then n - 1 else i)).
Proof.
  intros Hn Hh Hi HL. assert (A : 0 < INR (n - 2)) by (apply lt_0_INR; lia). assert (B : 0 < INR (n - 1)) by (apply lt_0_INR; lia).
  assert (C : INR (n - 1) = INR (n - 2) + 1) by (rewrite <- S_INR; f_equal; lia).
  assert (D : dx_of n h <> 0).
  { unfold dx_of. unfold Rdiv. apply Rmult_integral_contrapositive_currified; [|apply Rinv_neq_0_compat; lra].
    apply Rmult_integral_contrapositive_currified; lra. }
  unfold voxel_index. destruct (Req_EM_T (dx_of n h) 0) as [|_]; [contradiction|].
  replace ((voxel_center x0 h i + s - voxel_center x0 h 0 - s) / dx_of n h) with (INR i + INR i / INR (n - 2)).
  2:{ unfold voxel_center, dx_of. rewrite C. cbn [INR]. field. repeat split; lra. }
  assert (I0 : 0 <= INR i) by apply pos_INR. unfold to_int.
  assert (T : trunc (INR i + INR i / INR (n - 2)) = Z.of_nat (if Nat.eqb i (n - 2) then n - 1 else i)).
  { apply trunc_nonneg; [lia|]. rewrite <- INR_IZR. destruct (Nat.eqb_spec i (n - 2)) as [->|N].
    - rewrite C. replace (INR (n - 2) / INR (n - 2)) with 1 by (field; lra). lra.
    - assert (INR i < INR (n - 2)) by (apply lt_INR; lia).
      assert (0 <= INR i / INR (n - 2)) by (apply Rmult_le_pos; [exact I0|left; apply Rinv_0_lt_compat; exact A]).
      assert (INR i / INR (n - 2) < 1) by (apply (Rmult_lt_reg_r (INR (n - 2)) _ _ A); unfold Rdiv; rewrite Rmult_assoc, Rinv_l by lra; lra). lra. }
  rewrite T. apply int_ok_small. unfold int_limit in *. destruct (Nat.eqb i (n - 2)); lia.
Qed.

Lemma get_id_ok i j k ni nj nk : (0 <= i <= ni)%Z -> (0 <= j <= nj)%Z -> (0 <= k <= nk)%Z -> (0 <= ni)%Z -> (0 <= nj)%Z -> ((ni + 1) * (nj + 1) * (nk + 1) < int_limit)%Z ->
  get_id_device i j k ni nj = Some (i + j * ni + k * ni * nj)%Z.
Proof.
  intros Hi Hj Hk Hni Hnj HL. unfold get_id_device, int_mul, int_add, ob.
  assert (L0 : (0 < int_limit)%Z) by reflexivity.
  assert (A : (0 <= j * ni <= nj * ni)%Z) by nia. assert (B : (0 <= k * ni <= nk * ni)%Z) by nia.
  assert (C : (0 <= k * ni * nj <= nk * ni * nj)%Z) by nia.
  rewrite int_ok_small by nia. rewrite int_ok_small by nia. rewrite int_ok_small by nia. rewrite int_ok_small by nia. rewrite int_ok_small by nia.
  f_equal. 
Qed.

Definition last_or (n i : nat) : nat := if Nat.eqb i (n - 2) then (n - 1)%nat else i.

Lemma flat_lt a b c i j k : (i < a)%nat -> (j < b)%nat -> (k < c)%nat -> (i + j * a + k * a * b < a * b * c)%nat.
Proof.
  intros Hi Hj Hk. assert (A : (i + j * a < b * a)%nat).
  { assert ((S j * a <= b * a)%nat) by (apply Nat.mul_le_mono_r; lia). cbn in *. lia. }
  assert (B : (S k * (a * b) <= c * (a * b))%nat) by (apply Nat.mul_le_mono_r; lia). cbn in B.
  replace (k * a * b)%nat with (k * (a * b))%nat by ring. replace (a * b * c)%nat with (c * (a * b))%nat by ring. replace (b * a)%nat with (a * b)%nat in A by ring. lia.
Qed.

Lemma lookup_centers ni nj nk x0 y0 z0 hx hy hz values r i j k :
  (3 <= ni)%nat -> (3 <= nj)%nat -> (3 <= nk)%nat -> hx <> 0 -> hy <> 0 -> hz <> 0 ->
  (i < ni - 1)%nat -> (j < nj - 1)%nat -> (k < nk - 1)%nat -> length values = ((ni - 1) * (nj - 1) * (nk - 1))%nat ->
  (Z.of_nat ni * Z.of_nat nj * Z.of_nat nk < int_limit)%Z ->
  voxel_lookup (voxel_init ni nj nk (grid x0 hx) (grid y0 hy) (grid z0 hz) values) r
    (at3 (voxel_center x0 hx i + rg_origin r 0%nat) (voxel_center y0 hy j + rg_origin r 1%nat) (voxel_center z0 hz k + rg_origin r 2%nat))
  = Some (if (Nat.eqb i (ni - 2) || Nat.eqb j (nj - 2) || Nat.eqb k (nk - 2))%bool then 0%nat
          else nth (i + j * (ni - 1) + k * (ni - 1) * (nj - 1)) values 0%nat).
Proof.
  intros Hi Hj Hk Hx Hy Hz Ii Ij Ik HV HL.
  unfold voxel_init. rewrite !voxel_axis_grid. unfold voxel_lookup. cbn [vx_ox vx_oy vx_oz vx_dx vx_dy vx_dz vx_ni vx_nj vx_nk vx_values at3].
  rewrite !center_index by (try assumption; unfold int_limit in *; nia). cbn [ob].
  fold (last_or ni i) (last_or nj j) (last_or nk k).
  assert (LI : (last_or ni i <= ni - 1)%nat) by (unfold last_or; destruct (Nat.eqb i (ni - 2)); lia).
  assert (LJ : (last_or nj j <= nj - 1)%nat) by (unfold last_or; destruct (Nat.eqb j (nj - 2)); lia).
  assert (LK : (last_or nk k <= nk - 1)%nat) by (unfold last_or; destruct (Nat.eqb k (nk - 2)); lia).
  rewrite (get_id_ok _ _ _ _ _ (Z.of_nat (nk - 1))) by (try lia; replace (Z.of_nat (ni - 1) + 1)%Z with (Z.of_nat ni) by lia; replace (Z.of_nat (nj - 1) + 1)%Z with (Z.of_nat nj) by lia; replace (Z.of_nat (nk - 1) + 1)%Z with (Z.of_nat nk) by lia; exact HL).
  cbn [ob].
  destruct (Nat.eqb i (ni - 2) || Nat.eqb j (nj - 2) || Nat.eqb k (nk - 2))%bool eqn:E.
  - assert (X : (Z.ltb (Z.of_nat (last_or ni i)) (Z.of_nat (ni - 1)) && Z.ltb (Z.of_nat (last_or nj j)) (Z.of_nat (nj - 1)) && Z.ltb (Z.of_nat (last_or nk k)) (Z.of_nat (nk - 1)))%bool = false).
    { unfold last_or. destruct (Nat.eqb i (ni - 2)); [rewrite Z.ltb_irrefl; reflexivity|].
      destruct (Nat.eqb j (nj - 2)); [rewrite Z.ltb_irrefl, andb_false_r; reflexivity|].
      destruct (Nat.eqb k (nk - 2)); [rewrite Z.ltb_irrefl, !andb_false_r; reflexivity|discriminate]. }
    rewrite <- !andb_assoc in *. rewrite X. rewrite !andb_false_r. reflexivity.
  - apply orb_false_iff in E as [E E3]. apply orb_false_iff in E as [E1 E2]. unfold last_or. rewrite E1, E2, E3.
    apply Nat.eqb_neq in E1, E2, E3.
    assert (V : (i + j * (ni - 1) + k * (ni - 1) * (nj - 1) < length values)%nat) by (rewrite HV; apply flat_lt; lia).
    replace (Z.of_nat i + Z.of_nat j * Z.of_nat (ni - 1) + Z.of_nat k * Z.of_nat (ni - 1) * Z.of_nat (nj - 1))%Z
      with (Z.of_nat (i + j * (ni - 1) + k * (ni - 1) * (nj - 1))) by (rewrite !Nat2Z.inj_add, !Nat2Z.inj_mul; reflexivity).
    rewrite (proj2 (Z.leb_le 0 _)) by lia. rewrite (proj2 (Z.ltb_lt _ (Z.of_nat (length values)))) by lia.
    rewrite !(proj2 (Z.leb_le 0 _)) by lia. rewrite !(proj2 (Z.ltb_lt _ _)) by lia. cbn [andb]. now rewrite Nat2Z.id.
Qed.

(** what a filled point satisfies *)
Lemma index_bounds x o s dx i n : 0 < dx -> voxel_index x o s dx = Some i -> (0 <= i < n)%Z -> - dx < x - o - s < IZR n * dx.
Proof.
  intros Hd H [H0 H1]. unfold voxel_index in H. destruct (Req_EM_T dx 0) as [|_]; [lra|]. apply int_ok_some in H. 
  set (q := (x - o - s) / dx) in *. assert (E : x - o - s = q * dx) by (unfold q; field; lra). rewrite E.
  destruct (trunc_bounds q) as (_ & P & M). assert (N1 : IZR i + 1 <= IZR n) by (rewrite <- plus_IZR; apply IZR_le; lia).
  assert (N0 : 0 <= IZR i) by (apply (IZR_le 0 i H0)).
  destruct (Rle_dec 0 q) as [L|L].
  - destruct (P L) as [[A B] _]. rewrite <- H in *. split; [assert (0 <= q * dx) by (apply Rmult_le_pos; lra); lra|apply Rmult_lt_compat_r; lra].
  - destruct (M ltac:(lra)) as [[A B] _]. rewrite <- H in *. split.
    + replace (- dx) with ((-1) * dx) by ring. apply Rmult_lt_compat_r; lra.
    + apply Rlt_le_trans with (0 * dx); [apply Rmult_lt_compat_r; lra|]. apply Rmult_le_compat_r; lra.
Qed.

Lemma lookup_bounds v r c : 0 < vx_dx v -> 0 < vx_dy v -> 0 < vx_dz v -> voxel_lookup v r c = Some 1%nat ->
  - vx_dx v < c 0%nat - vx_ox v - rg_origin r 0%nat < INR (vx_ni v) * vx_dx v /\
  - vx_dy v < c 1%nat - vx_oy v - rg_origin r 1%nat < INR (vx_nj v) * vx_dy v /\
  - vx_dz v < c 2%nat - vx_oz v - rg_origin r 2%nat < INR (vx_nk v) * vx_dz v.
Proof.
  intros Dx Dy Dz. unfold voxel_lookup.
  destruct (voxel_index (c 0%nat) _ _ _) as [i|] eqn:Ei; [|discriminate]. cbn [ob].
  destruct (voxel_index (c 1%nat) _ _ _) as [j|] eqn:Ej; [|discriminate]. cbn [ob].
  destruct (voxel_index (c 2%nat) _ _ _) as [k|] eqn:Ek; [|discriminate]. cbn [ob].
  destruct (get_id_device _ _ _ _ _) as [id|]; [|discriminate]. cbn [ob].
  destruct (_ && _)%bool eqn:B; [|discriminate]. intros _. rewrite !andb_true_iff, !Z.leb_le, !Z.ltb_lt in B.
  rewrite !INR_IZR. split; [eapply index_bounds; [exact Dx|exact Ei|lia]|]. split; [eapply index_bounds; [exact Dy|exact Ej|lia]|eapply index_bounds; [exact Dz|exact Ek|lia]].
Qed.

Lemma read_spec n : forall lines saved vals rest, read_values n lines saved = Some (vals, rest) -> (length saved <= n)%nat ->
  (n - 1 <= length vals <= n)%nat /\ saved ++ concat lines = vals ++ concat rest.
Proof.
  induction lines as [|l ls IH]; intros saved vals rest H Hs; cbn [read_values] in H; destruct (Nat.ltb_spec (length saved) (n - 1)) as [L|L].
  - discriminate.
  - injection H as <- <-. split; [lia|reflexivity].
  - destruct (Nat.leb_spec (length saved + length l) n) as [K|K]; [|discriminate].
    destruct (IH _ _ _ H) as [A B]; [rewrite app_length; lia|]. split; [exact A|]. cbn [concat]. rewrite app_assoc. exact B.
  - injection H as <- <-. split; [lia|reflexivity].
Qed.

Lemma read_misses_last n : forall pre post saved, length (saved ++ concat pre) = (n - 1)%nat -> (length saved < n - 1 \/ pre = [])%nat -> (forall l, In l pre -> l <> []) ->
  read_values n (pre ++ post) saved = Some (saved ++ concat pre, post).
Proof.
  induction pre as [|l ls IH]; intros post saved E H Hne; cbn [concat app] in *.
  - rewrite app_nil_r in *. destruct post; cbn [read_values]; destruct (Nat.ltb_spec (length saved) (n - 1)); try lia; reflexivity.
  - destruct H as [H|H]; [|discriminate]. cbn [read_values]. rewrite app_length, app_length in E.
    destruct (Nat.ltb_spec (length saved) (n - 1)); [|lia]. destruct (Nat.leb_spec (length saved + length l) n); [|lia].
    rewrite app_assoc. apply IH; [rewrite !app_length; lia| |intros x Hx; apply Hne; now right].
    destruct ls as [|l2 ls]; [now right|left]. rewrite app_length. cbn [concat] in E. rewrite app_length in E.
    assert (l2 <> []) by (apply Hne; right; now left). destruct l2; [contradiction|]. cbn in E. lia.
Qed.

(** ** Painted fields *)
Lemma unit_dir_norm n c : 1e-14 < sqrt (sumn n (fun i => c i * c i)) -> sumn n (fun d => unit_dir n c d * unit_dir n c d) = 1.
Proof.
  intros H. set (S2 := sumn n (fun i => c i * c i)) in *. assert (P : 0 < sqrt S2) by lra.
  assert (Q : 0 <= S2) by (apply sumn_nonneg; intros; apply Rle_0_sqr).
  rewrite (sumn_ext n _ (fun d => (/ S2) * (c d * c d))).
  - rewrite sumn_scal. fold S2. apply Rinv_l. intros E. rewrite E, sqrt_0 in P. lra.
  - intros d _. unfold unit_dir. fold S2. destruct (Rlt_dec 1e-14 (sqrt S2)); [|contradiction].
    rewrite <- (sqrt_sqrt S2 Q) at 3. field. lra.
Qed.

Lemma radial_velocity c u v w s : 1e-14 < sqrt (c 0%nat * c 0%nat + c 1%nat * c 1%nat) ->
  exists a b, paint_vector c u v w s URadial = Some (a, b, 0) /\ a * a + b * b = s * s /\ a * c 1%nat = b * c 0%nat /\
  a * c 0%nat + b * c 1%nat = s * sqrt (c 0%nat * c 0%nat + c 1%nat * c 1%nat).
Proof.
  intros H. set (S2 := c 0%nat * c 0%nat + c 1%nat * c 1%nat) in *. assert (P : 0 < sqrt S2) by lra.
  assert (Q : 0 <= S2) by (unfold S2; assert (A := Rle_0_sqr (c 0%nat)); assert (B := Rle_0_sqr (c 1%nat)); unfold Rsqr in *; lra).
  assert (SS := sqrt_sqrt S2 Q).
  assert (U : forall d, unit_dir 2 c d = c d / sqrt S2).
  { intros d. unfold unit_dir. cbn [sumn]. replace (0 + c 0%nat * c 0%nat + c 1%nat * c 1%nat) with S2 by (unfold S2; ring). destruct (Rlt_dec 1e-14 (sqrt S2)); [reflexivity|contradiction]. }
  cbn [paint_vector]. rewrite !U. do 2 eexists. split; [reflexivity|]. 
  set (q := sqrt S2) in *. repeat split.
  - replace (s * (c 0%nat / q) * (s * (c 0%nat / q)) + s * (c 1%nat / q) * (s * (c 1%nat / q))) with (s * s * (S2 / (q * q))) by (unfold S2; field; lra).
    rewrite SS. field. intros E. rewrite E in SS. assert (0 < q * q) by (apply Rmult_lt_0_compat; exact P). lra.
  - field. lra.
  - replace (s * (c 0%nat / q) * c 0%nat + s * (c 1%nat / q) * c 1%nat) with (s * (S2 / q)) by (unfold S2; field; lra). rewrite <- SS. field. lra.
Qed.

Lemma spherical_velocity c u v w s : 1e-14 < sqrt (c 0%nat * c 0%nat + c 1%nat * c 1%nat + c 2%nat * c 2%nat) ->
  exists a b e, paint_vector c u v w s USpherical = Some (a, b, e) /\ a * a + b * b + e * e = s * s /\
  a * c 1%nat = b * c 0%nat /\ b * c 2%nat = e * c 1%nat /\ a * c 2%nat = e * c 0%nat /\
  a * c 0%nat + b * c 1%nat + e * c 2%nat = s * sqrt (c 0%nat * c 0%nat + c 1%nat * c 1%nat + c 2%nat * c 2%nat).
Proof.
  intros H. set (S2 := c 0%nat * c 0%nat + c 1%nat * c 1%nat + c 2%nat * c 2%nat) in *. assert (P : 0 < sqrt S2) by lra.
  assert (Q : 0 <= S2) by (unfold S2; assert (A := Rle_0_sqr (c 0%nat)); assert (B := Rle_0_sqr (c 1%nat)); assert (C := Rle_0_sqr (c 2%nat)); unfold Rsqr in *; lra).
  assert (SS := sqrt_sqrt S2 Q).
  assert (U : forall d, unit_dir 3 c d = c d / sqrt S2).
  { intros d. unfold unit_dir. cbn [sumn]. replace (0 + c 0%nat * c 0%nat + c 1%nat * c 1%nat + c 2%nat * c 2%nat) with S2 by (unfold S2; ring). destruct (Rlt_dec 1e-14 (sqrt S2)); [reflexivity|contradiction]. }
  cbn [paint_vector]. rewrite !U. do 3 eexists. split; [reflexivity|]. 
  set (q := sqrt S2) in *. repeat split; try (field; lra).
  - replace (s * (c 0%nat / q) * (s * (c 0%nat / q)) + s * (c 1%nat / q) * (s * (c 1%nat / q)) + s * (c 2%nat / q) * (s * (c 2%nat / q))) with (s * s * (S2 / (q * q))) by (unfold S2; field; lra).
    rewrite SS. field. intros E. rewrite E in SS. assert (0 < q * q) by (apply Rmult_lt_0_compat; exact P). lra.
  - replace (s * (c 0%nat / q) * c 0%nat + s * (c 1%nat / q) * c 1%nat + s * (c 2%nat / q) * c 2%nat) with (s * (S2 / q)) by (unfold S2; field; lra). rewrite <- SS. field. lra.
Qed.

(** the vortex is divergence free *)
Definition vortex_u (x y : R) : R := sin (PI * x) * cos (PI * y).
Definition vortex_v (x y : R) : R := -1 * cos (PI * x) * sin (PI * y).

Lemma derive_scale f k x l : derivable_pt_lim f (k * x) l -> derivable_pt_lim (fun t => f (k * t)) x (l * k).
Proof.
  intros H. apply (derivable_pt_lim_comp (fun t => k * t) f x k l); [|exact H].
  assert (D := derivable_pt_lim_scal id k x 1 (derivable_pt_lim_id x)). rewrite Rmult_1_r in D. exact D.
Qed.

Lemma vortex_divergence x y : exists a b, derivable_pt_lim (fun t => vortex_u t y) x a /\ derivable_pt_lim (fun t => vortex_v x t) y b /\ a + b = 0.
Proof.
  exists (cos (PI * y) * (cos (PI * x) * PI)), ((-1 * cos (PI * x)) * (cos (PI * y) * PI)). split; [|split; [|ring]].
  - apply (derivable_pt_lim_ext (mult_real_fct (cos (PI * y)) (fun t => sin (PI * t)))).
    + intros t. unfold mult_real_fct, vortex_u. ring.
    + apply derivable_pt_lim_scal, derive_scale, derivable_pt_lim_sin.
  - apply (derivable_pt_lim_ext (mult_real_fct (-1 * cos (PI * x)) (fun t => sin (PI * t)))).
    + intros t. unfold mult_real_fct, vortex_v. ring.
    + apply derivable_pt_lim_scal, derive_scale, derivable_pt_lim_sin.
Qed.

Lemma sin_int_pi (k : Z) : sin (PI * IZR k) = 0.
Proof. rewrite Rmult_comm. apply sin_eq_0_1. exists k. ring. Qed.

(** node painting *)
Lemma paint_inner {V} (value : nat -> option V) nodes : forall f x,
  fold_left (fun f n => match value n with Some v => fun x => if Nat.eqb x n then v else f x | None => f end) nodes f x =
  if existsb (Nat.eqb x) nodes then match value x with Some v => v | None => f x end else f x.
Proof.
  induction nodes as [|n l IH]; intros f x; cbn [fold_left existsb]; [reflexivity|]. rewrite IH.
  destruct (Nat.eqb_spec x n) as [->|N]; cbn [orb].
  - destruct (value n) as [v|] eqn:E; rewrite ?Nat.eqb_refl; destruct (existsb (Nat.eqb n) l); reflexivity.
  - assert (K : match value n with Some v => fun x0 => if Nat.eqb x0 n then v else f x0 | None => f end x = f x).
    { destruct (value n); [|reflexivity]. destruct (Nat.eqb_spec x n); [contradiction|reflexivity]. }
    rewrite K. reflexivity.
Qed.

(** The last (element, slot) in loop order that paints the node decides. *)
Definition painters {V} (nodes_in_elem : nat -> list nat) (slots : nat -> list nat) (value : nat -> nat -> option V) (order : list nat) (n : nat) : list V :=
  flat_map (fun e => flat_map (fun fid => if existsb (Nat.eqb n) (nodes_in_elem e) then match value fid n with Some v => [v] | None => [] end else []) (slots e)) order.

Lemma last_default {A} (l : list A) x d d' : last (x :: l) d = last (x :: l) d'.
Proof. revert x. induction l as [|y l IH]; intros x; [reflexivity|]. exact (IH y). Qed.
Lemma last_app {A} (l1 l2 : list A) d : last (l1 ++ l2) d = last l2 (last l1 d).
Proof.
  revert d. induction l1 as [|a l1 IH]; intros d; [reflexivity|]. destruct l1 as [|b l1].
  - cbn [app]. destruct l2 as [|c l2]; [reflexivity|]. exact (last_default l2 c d a).
  - exact (IH d).
Qed.

Lemma paint_nodes_last {V} nie sl (value : nat -> nat -> option V) order : forall field n,
  paint_nodes nie sl value order field n = last (painters nie sl value order n) (field n).
Proof.
  unfold paint_nodes. induction order as [|e l IH]; intros field n; [reflexivity|]. cbn [fold_left]. rewrite IH.
  unfold painters. cbn [flat_map]. rewrite last_app. f_equal. fold (painters nie sl value l n).
  generalize (sl e) as fids. intros fids. revert field. induction fids as [|f fs IHf]; intros field; [reflexivity|]. cbn [fold_left flat_map].
  rewrite IHf, last_app. f_equal. rewrite paint_inner. destruct (existsb (Nat.eqb n) (nie e)); [|reflexivity]. destruct (value f n); reflexivity.
Qed.

Lemma last_in {A} (l : list A) d : l <> [] -> In (last l d) l.
Proof. induction l as [|a l IH]; [congruence|]. intros _. destruct l as [|b l]; [now left|]. right. apply IH. discriminate. Qed.

Lemma painters_perm {V} nie sl (value : nat -> nat -> option V) o1 o2 n : Permutation o1 o2 -> Permutation (painters nie sl value o1 n) (painters nie sl value o2 n).
Proof. intros H. unfold painters. now apply Permutation_flat_map. Qed.

Lemma paint_nodes_agree {V} nie sl (value : nat -> nat -> option V) o1 o2 field n : Permutation o1 o2 ->
  (forall v w, In v (painters nie sl value o1 n) -> In w (painters nie sl value o1 n) -> v = w) ->
  paint_nodes nie sl value o1 field n = paint_nodes nie sl value o2 field n.
Proof.
  intros P H. rewrite !paint_nodes_last. assert (Q := painters_perm nie sl value o1 o2 n P).
  destruct (painters nie sl value o1 n) as [|a l] eqn:E1.
  - apply Permutation_nil in Q. now rewrite Q.
  - destruct (painters nie sl value o2 n) as [|b l2] eqn:E2; [symmetry in Q; now apply Permutation_nil in Q|].
    apply H; [apply last_in; discriminate|]. eapply Permutation_in; [symmetry; exact Q|]. apply last_in. discriminate.
Qed.
