(* Identifiers of solvers and materials, and what the solver sections store. *)
From Coq Require Import List Ascii String Arith Bool ZArith Lia Permutation.
From Verif Require Import YamlModel YamlSpec YamlProofs YamlLaws InputModel InputSpec InputProofs InputReaders InputOut.
Import ListNotations.
Local Open Scope nat_scope.

Lemma seq_find_in m i x : seq_find m i = Some x -> In (i, x) m.
Proof.
  induction m as [|[j y] m IH]; cbn [seq_find]; [discriminate|]. destruct (Nat.eqb j i) eqn:E; [apply Nat.eqb_eq in E; intros H; inversion H; subst; left; reflexivity|right; auto].
Qed.
Lemma regular_index n i : regular n -> regular (get_index n i).
Proof.
  intros R. unfold get_index. destruct (seq_find (seq_of n) i) as [x|] eqn:E; [|constructor]. apply seq_find_in in E. eapply (proj2 (regular_seq n R)). exact E.
Qed.
Lemma regular_entry root a b i : regular root -> regular (entry root a b i).
Proof. intros R. unfold entry. apply regular_get, regular_index, regular_get. exact R. Qed.

(* ---------- marks ---------- *)

Lemma put_length {A} (l : list A) i x : i < List.length l -> List.length (put l i x) = List.length l.
Proof. intros H. unfold put. rewrite app_length, firstn_length. cbn [List.length]. rewrite skipn_length. lia. Qed.
Lemma nth_put {A} (l : list A) i x j : i < List.length l -> nth_error (put l i x) j = if Nat.eqb i j then Some x else nth_error l j.
Proof.
  intros H. unfold put. revert i j H. induction l as [|a l IH]; intros i j H; [cbn in H; lia|]. destruct i as [|i].
  - destruct j; reflexivity.
  - cbn [firstn skipn app]. destruct j as [|j]; [reflexivity|]. cbn [nth_error Nat.eqb]. apply IH. cbn in H. lia.
Qed.

Definition marks (n : nat) (ids : list nat) (seen : list bool) : Prop :=
  List.length seen = n /\ (forall j, In j ids -> j < n) /\ NoDup ids /\
  forall j, j < n -> (nth_error seen j = Some true <-> In j ids).

Lemma marks_start n : marks n [] (repeat false n).
Proof.
  split; [apply repeat_length|]. split; [intros j []|]. split; [constructor|]. intros j J. split; [|intros []]. intros H. apply nth_error_In, repeat_spec in H. discriminate.
Qed.
Lemma marks_next n ids seen i : marks n ids seen -> nth_error seen i = Some false -> marks n (ids ++ [i]) (put seen i true).
Proof.
  intros (L & B & N & M) E. assert (I : i < n) by (rewrite <- L; apply nth_error_Some; rewrite E; discriminate).
  assert (F : ~ In i ids) by (intros X; apply M in X; [congruence|exact I]).
  split; [rewrite put_length; lia|]. split; [intros j J; apply in_app_or in J; destruct J as [J|[<-|[]]]; auto|].
  split; [apply (Permutation_NoDup (l := i :: ids)); [apply Permutation_cons_append|constructor; assumption]|].
  intros j J. rewrite nth_put by lia. destruct (Nat.eqb i j) eqn:Q.
  - apply Nat.eqb_eq in Q. subst j. split; [intros _; apply in_or_app; right; left; reflexivity|reflexivity].
  - apply Nat.eqb_neq in Q. rewrite M by exact J. split; [intros X; apply in_or_app; left; exact X|]. intros X. apply in_app_or in X. destruct X as [X|[X|[]]]; [exact X|contradiction].
Qed.
Lemma marks_free n ids seen i : marks n ids seen -> i < n -> ~ In i ids -> nth_error seen i = Some false.
Proof.
  intros (L & B & N & M) I F. destruct (nth_error seen i) as [[]|] eqn:E; [|reflexivity|].
  - exfalso. apply F. apply M; assumption.
  - apply nth_error_None in E. lia.
Qed.

Lemma find_id_done sec n ws seen id0 seen' id' : NoDup ws -> find_id sec n ws seen id0 = Done (seen', id') ->
  (~ In (lit "id") ws -> seen' = seen /\ id' = id0) /\
  (In (lit "id") ws -> exists i, id_of sec = Z.of_nat i /\ i < n /\ nth_error seen i = Some false /\ seen' = put seen i true /\ id' = Some i).
Proof.
  revert seen id0. induction ws as [|w ws IH]; intros seen id0 N H; cbn [find_id] in H.
  - inversion H; subst. split; [auto|intros []].
  - inversion N as [|? ? NW N']; subst. destruct (str_eqb w (lit "id")) eqn:E.
    + apply str_eqb_eq in E. subst w. apply obnd_done in H. destruct H as (z & A & H). apply nums_done in A.
      destruct ((z <? 0)%Z || (Z.of_nat n <=? z)%Z) eqn:B; [discriminate|]. apply orb_false_iff in B. destruct B as [B1 B2]. apply Z.ltb_ge in B1. apply Z.leb_gt in B2.
      destruct (nth_error seen (Z.to_nat z)) as [[]|] eqn:S1; try discriminate. apply IH in H; [|exact N']. destruct (proj1 H NW) as [-> ->].
      split; [intros X; destruct X; left; reflexivity|]. intros _. exists (Z.to_nat z). unfold id_of, text_at. rewrite <- A. repeat split; try assumption; lia.
    + apply IH in H; [|exact N']. assert (W : w <> lit "id") by (intros ->; rewrite str_eqb_refl in E; discriminate). cbn [In].
      split; [intros X; apply (proj1 H); tauto|]. intros [X|X]; [contradiction|exact (proj2 H X)].
Qed.

Lemma find_id_skip sec n ws seen id0 : ~ In (lit "id") ws -> find_id sec n ws seen id0 = Done (seen, id0).
Proof.
  revert seen id0. induction ws as [|w ws IH]; intros seen id0 N; [reflexivity|]. cbn [find_id In] in *.
  rewrite (str_eqb_neq w (lit "id")) by (intros ->; tauto). apply IH. tauto.
Qed.

Lemma find_id_ok sec n ws seen id0 i : NoDup ws -> In (lit "id") ws -> id_of sec = Z.of_nat i -> ~ blank_text (text_at sec (lit "id")) ->
  i < n -> nth_error seen i = Some false -> find_id sec n ws seen id0 = Done (put seen i true, Some i).
Proof.
  revert id0. induction ws as [|w ws IH]; intros id0 N I E B L F; [destruct I|]. cbn [find_id]. inversion N as [|? ? NW N']; subst.
  destruct (str_eqb w (lit "id")) eqn:W.
  - apply str_eqb_eq in W. subst w. rewrite as_num_ok by exact B. cbn [obnd]. fold (text_at sec (lit "id")). fold (id_of sec). rewrite E.
    replace ((Z.of_nat i <? 0)%Z || (Z.of_nat n <=? Z.of_nat i)%Z) with false by (symmetry; apply orb_false_iff; split; [apply Z.ltb_ge; lia|apply Z.leb_gt; lia]).
    rewrite Nat2Z.id, F. apply find_id_skip. exact NW.
  - destruct I as [->|I]; [rewrite str_eqb_refl in W; discriminate|]. apply IH; assumption.
Qed.

(* Wrong identifiers are refused. *)
Lemma find_id_bad sec n ws seen id0 : In (lit "id") ws -> ~ blank_text (text_at sec (lit "id")) ->
  (id_of sec < 0)%Z \/ (Z.of_nat n <= id_of sec)%Z -> find_id sec n ws seen id0 = Throws BadId.
Proof.
  revert id0. induction ws as [|w ws IH]; intros id0 I B L; [destruct I|]. cbn [find_id].
  destruct (str_eqb w (lit "id")) eqn:W.
  - apply str_eqb_eq in W. subst w. rewrite as_num_ok by exact B. cbn [obnd]. fold (text_at sec (lit "id")). fold (id_of sec).
    replace ((id_of sec <? 0)%Z || (Z.of_nat n <=? id_of sec)%Z) with true; [reflexivity|]. symmetry. apply orb_true_iff.
    destruct L as [L|L]; [left; apply Z.ltb_lt; exact L|right; apply Z.leb_le; exact L].
  - destruct I as [->|I]; [rewrite str_eqb_refl in W; discriminate|]. apply IH; assumption.
Qed.
Lemma find_id_twice sec n ws seen id0 i : In (lit "id") ws -> ~ blank_text (text_at sec (lit "id")) ->
  id_of sec = Z.of_nat i -> i < n -> nth_error seen i = Some true -> find_id sec n ws seen id0 = Throws DuplicateId.
Proof.
  revert id0. induction ws as [|w ws IH]; intros id0 I B E L F; [destruct I|]. cbn [find_id].
  destruct (str_eqb w (lit "id")) eqn:W.
  - apply str_eqb_eq in W. subst w. rewrite as_num_ok by exact B. cbn [obnd]. fold (text_at sec (lit "id")). fold (id_of sec). rewrite E.
    replace ((Z.of_nat i <? 0)%Z || (Z.of_nat n <=? Z.of_nat i)%Z) with false by (symmetry; apply orb_false_iff; split; [apply Z.ltb_ge; lia|apply Z.leb_gt; lia]).
    rewrite Nat2Z.id, F. reflexivity.
  - destruct I as [->|I]; [rewrite str_eqb_refl in W; discriminate|]. apply IH; assumption.
Qed.

Lemma bounded_all n ids : NoDup ids -> (forall j, In j ids -> j < n) -> List.length ids = n -> Permutation ids (seq 0 n).
Proof.
  intros N B L. apply NoDup_Permutation_bis; [exact N|rewrite seq_length; lia|]. intros j J. apply in_seq. specialize (B j J). lia.
Qed.

Lemma ids_numbered sec n ids : NoDup ids -> (forall j, In j ids -> j < n) ->
  Forall2 (fun i id => id_of (sec i) = Z.of_nat id) (seq 0 n) ids -> numbered_once sec n /\ ids = map (fun i => Z.to_nat (id_of (sec i))) (seq 0 n).
Proof.
  intros N B F. assert (L : List.length ids = n) by (apply (forall2_seq _ 0) in F; tauto).
  assert (E : ids = map (fun i => Z.to_nat (id_of (sec i))) (seq 0 n)).
  { clear N B L. induction F as [|i id is ids E F IH]; [reflexivity|]. cbn [map]. rewrite E, Nat2Z.id. f_equal. exact IH. }
  split; [|exact E]. split.
  - intros i I. apply (proj1 (forall2_seq _ 0 n ids)) in F. destruct F as [_ F]. destruct (nth_error ids i) as [id|] eqn:Q; [|apply nth_error_None in Q; lia].
    specialize (F i id Q). cbn [Nat.add] in F. rewrite F. lia.
  - rewrite <- E. apply bounded_all; assumption.
Qed.

(* ---------- materials ---------- *)

Definition material_sec (sec : node) (i : nat) : node := get_key (get_index sec i) (lit "material").

Lemma material_loop n sec is ids seen l : regular sec -> marks n ids seen -> material_ids n sec is seen = Done l ->
  NoDup (ids ++ l) /\ (forall j, In j (ids ++ l) -> j < n) /\
  Forall2 (fun i id => id_of (material_sec sec i) = Z.of_nat id) is l /\ Forall (fun i => gives (material_sec sec i) (lit "id")) is.
Proof.
  intros R. revert ids seen l. induction is as [|i is IH]; intros ids seen l M H; cbn [material_ids] in H.
  - inversion H; subst. rewrite app_nil_r. destruct M as (_ & B & N & _). repeat split; try assumption; constructor.
  - fold (material_sec sec i) in H. apply obnd_done in H. destruct H as (ws & V & H). apply validate_inv in V. destruct V as (C & -> & Q).
    assert (T : In (lit "id") (word_list (material_sec sec i))) by (apply Q; left; reflexivity).
    destruct (needs_map _ _ C (lit_ne _ _) T) as [m E]. assert (RS : regular (material_sec sec i)) by (apply regular_get, regular_index; exact R).
    apply obnd_done in H. destruct H as ([seen' id'] & F & H). apply find_id_done in F; [|exact (word_nodup _ m RS E)].
    destruct (proj2 F T) as (id & A1 & A2 & A3 & -> & ->). cbn [fst snd] in H. apply omap_done in H. destruct H as (l' & H & ->).
    destruct (IH _ _ _ (marks_next _ _ _ _ M A3) H) as (N' & B' & F' & G'). rewrite <- app_assoc in N', B'. cbn [app] in N', B'.
    split; [exact N'|]. split; [exact B'|]. split; [constructor; assumption|]. constructor; [|exact G']. apply word_gives; [discriminate|exact T].
Qed.

Lemma materials_done root l : regular root -> parse_material_ids root = Done l ->
  let n := node_size (get_key root (lit "materials")) in
  0 < n /\ (forall i, i < n -> gives (entry root "materials" "material" i) (lit "id")) /\
  numbered_once (entry root "materials" "material") n /\ l = map (fun i => Z.to_nat (id_of (entry root "materials" "material" i))) (seq 0 n).
Proof.
  intros R H. cbv zeta. unfold parse_material_ids in H. set (sec := get_key root (lit "materials")) in *. set (n := node_size sec) in *.
  destruct (Nat.eqb n 0) eqn:Z; [discriminate|]. apply Nat.eqb_neq in Z.
  destruct (material_loop n sec (seq 0 n) [] (repeat false n) l (regular_get _ _ R) (marks_start n) H) as (N & B & F & G).
  split; [lia|]. split; [intros i I; apply (proj1 (Forall_forall _ _) G); apply in_seq; lia|].
  apply ids_numbered; [exact N|exact B|exact F].
Qed.

(* ---------- solvers ---------- *)

Section Solvers.
Context {D : Type} (dbl : str -> D) (neg : D -> bool) (zero : D).

Ltac sol_open H := match type of H with solver_step _ _ ?s _ _ = _ => destruct s end; unfold solver_step in H; key_chain H; try clash; crack H.
Ltac sol_hit := let H := fresh "H" in intros ? ? ? H; sol_open H; unfold told; cbn [s_method s_time_end s_heat];
  first [ match goal with A : as_num _ _ = Done _ |- _ => rewrite (nums_done _ _ _ A); reflexivity end
        | match goal with A : assoc _ _ = Some _ |- _ => exact (assoc_in _ _ _ A) end
        | reflexivity ].
Ltac sol_miss := let H := fresh "H" in let N := fresh "N" in intros ? ? ? ? H N; sol_open H; first [reflexivity|clash|congruence].

Lemma solver_allowed s w v s' : solver_step dbl neg s w v = Done s' ->
  In w (map lit solver_keys) /\ (w = lit "method" -> In (as_string v) (map fst solver_map)) /\
  (w = lit "time_end" -> ~ blank_text (as_string v) /\ neg (dbl (as_string v)) = false).
Proof.
  intros H. sol_open H; (split; [unfold solver_keys; find_lit|]); (split; intros E9; try (vm_compute in E9; discriminate E9)).
  - match goal with A : assoc _ _ = Some _ |- _ => apply assoc_in in A; exact (in_map fst _ _ A) end.
  - match goal with A : as_num _ _ = Done _ |- _ => apply as_num_done in A; destruct A as [-> A]; auto end.
Qed.

Definition solver_sec (sec : node) (i : nat) : node := get_key (get_index sec i) (lit "solver").

Lemma solver_entry_done n e seen sl seen' sl' : let sec := get_key e (lit "solver") in regular sec ->
  solver_entry dbl neg n e (seen, sl) = Done (seen', sl') ->
  exists i s0 s, ~ blank_text (text_at sec (lit "id")) /\ is_map sec = true /\ only_keys sec solver_keys /\ gives sec (lit "method") /\ gives sec (lit "id") /\
    (gives sec (lit "time_end") -> ~ blank_text (text_at sec (lit "time_end")) /\ neg (dbl (text_at sec (lit "time_end"))) = false) /\
    id_of sec = Z.of_nat i /\ i < n /\ nth_error seen i = Some false /\ seen' = put seen i true /\
    nth_error sl i = Some s0 /\ sl' = put sl i s /\
    choice sec "method" solver_map (s_method s0) (s_method s) /\ field sec "time_end" dbl (s_time_end s0) (s_time_end s) /\
    field sec "use_moving_heat_source" (fun t => as_bool (NScalar t)) (s_heat s0) (s_heat s).
Proof.
  cbv zeta. unfold solver_entry. set (sec := get_key e (lit "solver")). clearbody sec. cbn [fst snd]. intros R H.
  apply obnd_done in H. destruct H as (ws & V & H). apply validate_inv in V. destruct V as (C & -> & Q).
  assert (T : In (lit "id") (word_list sec)) by (apply Q; right; left; reflexivity).
  assert (T2 : In (lit "method") (word_list sec)) by (apply Q; left; reflexivity).
  destruct (needs_map _ _ C (lit_ne _ _) T) as [m E].
  apply obnd_done in H. destruct H as ([seen1 id1] & F & H). pose proof F as FB. apply find_id_done in F; [|exact (word_nodup _ m R E)].
  destruct (proj2 F T) as (i & A1 & A2 & A3 & -> & ->). cbn [fst snd] in H. destruct (nth_error sl i) as [s0|] eqn:S0; [|discriminate].
  apply obnd_done in H. destruct H as (s & O & H). inversion H; subst seen' sl'. exists i, s0, s.
  assert (NB : ~ blank_text (text_at sec (lit "id"))).
  { intros B. clear - FB B T. revert seen FB T. generalize (@None nat). induction (word_list sec) as [|w ws IH]; intros o seen FB T; [destruct T|].
    cbn [find_id] in FB. destruct (str_eqb w (lit "id")) eqn:W.
    - rewrite as_num_blank in FB by exact B. discriminate.
    - destruct T as [->|T]; [rewrite str_eqb_refl in W; discriminate|]. eapply IH; eassumption. }
  split; [exact NB|].
  split; [rewrite E; reflexivity|].
  pose proof (sec_each _ sec s0 s m E R O _ solver_allowed) as AL.
  split; [intros k K; exact (proj1 (AL k K))|]. apply word_gives in T, T2; try discriminate. split; [exact T2|]. split; [exact T|].
  split; [intros G; exact (proj2 (proj2 (AL _ G)) eq_refl)|].
  split; [exact A1|]. split; [exact A2|]. split; [exact A3|]. split; [reflexivity|]. split; [exact S0|]. split; [reflexivity|].
  split; [eapply sec_choice; [exact E|exact R|exact O|sol_hit|sol_miss]|].
  split; (eapply sec_field; [exact E|exact R|exact O|sol_hit|sol_miss]).
Qed.

Lemma solver_loop_done n sec is ids seen sl seen' sl' : regular sec -> marks n ids seen -> List.length sl = n ->
  (forall j, j < n -> ~ In j ids -> nth_error sl j = Some (mkSolver MNone zero false)) ->
  solver_loop dbl neg n sec is (seen, sl) = Done (seen', sl') ->
  exists new, NoDup (ids ++ new) /\ (forall j, In j (ids ++ new) -> j < n) /\ List.length sl' = n /\
    (forall j, ~ In j new -> nth_error sl' j = nth_error sl j) /\
    Forall2 (fun i id => id_of (solver_sec sec i) = Z.of_nat id /\ solver_good dbl neg (solver_sec sec i) /\
      exists s, nth_error sl' id = Some s /\ solver_says dbl zero (solver_sec sec i) s) is new.
Proof.
  intros R. revert ids seen sl. induction is as [|i is IH]; intros ids seen sl M L Z H; cbn [solver_loop] in H.
  - inversion H; subst. exists []. rewrite app_nil_r. destruct M as (_ & B & N & _). repeat split; try assumption. constructor.
  - apply obnd_done in H. destruct H as ([seen1 sl1] & E & H).
    apply solver_entry_done in E; [|apply regular_get, regular_index; exact R]. fold (solver_sec sec i) in E.
    destruct E as (id & s0 & s & E1 & E2 & E3 & E4 & E5 & E6 & E7 & E8 & E9 & -> & E10 & -> & E11 & E12 & E13).
    assert (IL : id < List.length sl) by (rewrite L; exact E8).
    assert (NI : ~ In id ids) by (intros X; apply (proj2 (proj2 (proj2 M))) in X; [congruence|exact E8]).
    rewrite (Z id E8 NI) in E10. inversion E10; subst s0. cbn [s_method s_time_end s_heat] in *.
    destruct (IH _ _ _ (marks_next _ _ _ _ M E9) (eq_trans (put_length sl id s IL) L)) as (new & N & B & L' & K & F).
    { intros j J NJ. rewrite nth_put by exact IL. destruct (Nat.eqb id j) eqn:Q; [apply Nat.eqb_eq in Q; subst; destruct NJ; apply in_or_app; right; left; reflexivity|].
      apply Z; [exact J|]. intros X. apply NJ. apply in_or_app. left. exact X. }
    { exact H. }
    rewrite <- app_assoc in N, B. cbn [app] in N, B. exists (id :: new). split; [exact N|]. split; [exact B|]. split; [exact L'|].
    assert (NN : ~ In id new) by (apply NoDup_remove in N; destruct N as [_ N]; intros X; apply N; apply in_or_app; right; exact X).
    split.
    + intros j J. cbn [In] in J. rewrite K by tauto. rewrite nth_put by exact IL. destruct (Nat.eqb id j) eqn:Q; [apply Nat.eqb_eq in Q; tauto|reflexivity].
    + constructor; [|exact F]. split; [exact E7|]. destruct E11 as [E11 _]. specialize (E11 E4). split.
      * split; [exact E2|]. split; [exact E3|]. split; [exact E4|]. split; [exact E5|]. split; [exact (in_map fst _ _ E11)|]. split; [exact E1|exact E6].
      * exists s. split; [rewrite K by exact NN; rewrite nth_put by exact IL; rewrite Nat.eqb_refl; reflexivity|].
        split; [exact E11|]. split; assumption.
Qed.

Lemma solvers_done root l : regular root -> parse_solver_input dbl neg zero root = Done l ->
  let sec := entry root "solver_options" "solver" in
  List.length l = node_size (get_key root (lit "solver_options")) /\ numbered_once sec (List.length l) /\
  forall i, i < List.length l -> solver_good dbl neg (sec i) /\
    exists s, nth_error l (Z.to_nat (id_of (sec i))) = Some s /\ solver_says dbl zero (sec i) s.
Proof.
  intros R H. cbv zeta. unfold parse_solver_input in H. set (sec := get_key root (lit "solver_options")) in *. set (n := node_size sec) in *.
  apply obnd_done in H. destruct H as ([seen' sl'] & H & E). inversion E; subst l. cbn [snd].
  edestruct (solver_loop_done n sec (seq 0 n) []) as (new & N & B & L & _ & F); [apply regular_get; exact R|apply marks_start|apply repeat_length| |exact H|].
  { intros j J _. apply (nth_error_repeat _ J). }
  rewrite L. split; [reflexivity|]. assert (F1 : Forall2 (fun i id => id_of (entry root "solver_options" "solver" i) = Z.of_nat id) (seq 0 n) new).
  { apply forall2_seq. apply forall2_seq in F. destruct F as [F1 F2]. split; [exact F1|]. intros i x X. exact (proj1 (F2 i x X)). }
  destruct (ids_numbered _ _ _ N B F1) as [Q _]. split; [exact Q|]. intros i I. apply forall2_seq in F. destruct F as [F2 F3].
  destruct (nth_error new i) as [id|] eqn:X; [|apply nth_error_None in X; lia]. destruct (F3 i id X) as (G1 & G2 & s & G3 & G4). cbn [Nat.add] in *.
  split; [exact G2|]. exists s. change (entry root "solver_options" "solver" i) with (solver_sec sec i). rewrite G1, Nat2Z.id. split; assumption.
Qed.

(* The other way round. *)
Lemma solver_takes s w sec : solver_good dbl neg sec -> gives sec w -> exists s', solver_step dbl neg s w (get_key sec w) = Done s'.
Proof.
  intros (M & O & _ & _ & A & _ & T) G. pose proof (O w G) as I. unfold solver_keys in I. destruct s. unfold solver_step. each_key I; keys_goal.
  - destruct (assoc_some solver_map _ A) as [x E]. unfold text_at in E. rewrite E. eauto.
  - eauto.
  - destruct (T G) as [NB NG]. rewrite as_num_ok by exact NB. cbn [obnd]. unfold text_at in NG. rewrite NG. eauto.
  - eauto.
Qed.

Lemma solver_loop_ok n sec is ids seen sl : regular sec -> marks n ids seen -> List.length sl = n ->
  (forall i, In i is -> solver_good dbl neg (solver_sec sec i) /\ (0 <= id_of (solver_sec sec i))%Z) ->
  NoDup (ids ++ map (fun i => Z.to_nat (id_of (solver_sec sec i))) is) ->
  (forall j, In j (map (fun i => Z.to_nat (id_of (solver_sec sec i))) is) -> j < n) ->
  exists r, solver_loop dbl neg n sec is (seen, sl) = Done r.
Proof.
  intros R. revert ids seen sl. induction is as [|i is IH]; intros ids seen sl M L G N B; cbn [solver_loop]; [eauto|].
  destruct (G i (or_introl eq_refl)) as [GI GZ]. pose proof GI as (MP & O & GM & GD & _ & NB & _).
  set (id := Z.to_nat (id_of (solver_sec sec i))) in *. cbn [map] in N, B. fold id in N, B.
  assert (IDE : id_of (solver_sec sec i) = Z.of_nat id) by (unfold id; rewrite Z2Nat.id by exact GZ; reflexivity). clearbody id.
  assert (IN : id < n) by (apply B; left; reflexivity).
  assert (NI : ~ In id ids) by (apply NoDup_remove in N; destruct N as [_ N]; intros X; apply N; apply in_or_app; left; exact X).
  assert (E : exists s, solver_entry dbl neg n (get_index sec i) (seen, sl) = Done (put seen id true, put sl id s)).
  { unfold solver_entry. fold (solver_sec sec i). cbn [fst snd]. pose proof (regular_get (get_index sec i) (lit "solver") (regular_index sec i R)) as RS. fold (solver_sec sec i) in RS.
    destruct (solver_sec sec i) as [|?|m|?] eqn:SE; try discriminate. rewrite <- SE in *.
    rewrite validate_ok; [|left; exact MP|intros r [<-|[<-|[]]]; apply word_gives; solve [discriminate|assumption]]. cbn [obnd].
    rewrite (find_id_ok _ n _ seen None id); [|eapply word_nodup; [exact RS|exact SE]|apply word_gives; [discriminate|exact GD]|exact IDE|exact NB|exact IN|eapply marks_free; eassumption].
    cbn [obnd fst snd]. destruct (nth_error sl id) as [s0|] eqn:S0; [|apply nth_error_None in S0; lia].
    destruct (over_ok (fun _ => True) (solver_step dbl neg) (solver_sec sec i) (word_list (solver_sec sec i)) s0) as (s & E & _); [exact Logic.I| |rewrite E; cbn [obnd]; eauto].
    intros w W s _. assert (GW : gives (solver_sec sec i) w) by (rewrite SE in W |- *; exact W). destruct (solver_takes s w _ GI GW) as [s' E]. eauto. }
  destruct E as [s E]. rewrite E. cbn [obnd]. apply (IH (ids ++ [id])).
  - apply marks_next; [exact M|eapply marks_free; eassumption].
  - rewrite put_length; lia.
  - intros j J. apply G. right. exact J.
  - rewrite <- app_assoc. exact N.
  - intros j J. apply B. right. exact J.
Qed.

Lemma solvers_accepts root : regular root -> let n := node_size (get_key root (lit "solver_options")) in let sec := entry root "solver_options" "solver" in
  (forall i, i < n -> solver_good dbl neg (sec i)) -> numbered_once sec n -> exists l, parse_solver_input dbl neg zero root = Done l.
Proof.
  intros R. cbv zeta. intros G [P Q]. unfold parse_solver_input. set (sec := get_key root (lit "solver_options")) in *. set (n := node_size sec) in *.
  destruct (solver_loop_ok n sec (seq 0 n) [] _ (repeat (mkSolver MNone zero false) n) (regular_get _ _ R) (marks_start n) (repeat_length _ _)) as [r E].
  - intros i I. apply in_seq in I. split; [apply G; lia|apply P; lia].
  - cbn [app]. eapply Permutation_NoDup; [apply Permutation_sym; exact Q|apply seq_NoDup].
  - intros j J. apply (Permutation_in _ Q), in_seq in J. lia.
  - rewrite E. cbn [obnd]. eauto.
Qed.
End Solvers.
