(* Proofs about the boundary of a mesh. *)
From Coq Require Import List Arith ZArith Bool Lia Permutation Sorted.
From Verif Require Import PatchModel PatchSpec.
Import ListNotations.

(* ---------- sorting ---------- *)

Lemma sort_in_perm x l : Permutation (sort_in x l) (x :: l).
Proof. induction l as [|y r IH]; cbn [sort_in]; [reflexivity|]. destruct (Z.leb x y); [reflexivity|]. rewrite IH. apply perm_swap. Qed.
Lemma sorted_perm l : Permutation (sorted_nodes l) l.
Proof. induction l as [|x r IH]; cbn [sorted_nodes]; [reflexivity|]. rewrite sort_in_perm, IH. reflexivity. Qed.
Lemma sort_in_sorted x l : StronglySorted Z.le l -> StronglySorted Z.le (sort_in x l).
Proof.
  induction l as [|y r IH]; intros Hs; cbn [sort_in]; [repeat constructor|]. destruct (Z.leb_spec x y) as [Hxy | Hxy].
  - constructor; [exact Hs|]. apply StronglySorted_inv in Hs. destruct Hs as [_ Hf]. constructor; [exact Hxy|]. rewrite Forall_forall in *. intros z Hz. specialize (Hf z Hz). lia.
  - apply StronglySorted_inv in Hs. destruct Hs as [Hs Hf]. constructor; [apply IH, Hs|]. rewrite Forall_forall in *. intros z Hz. apply (Permutation_in z (sort_in_perm x r)) in Hz. destruct Hz as [<- | Hz]; [lia|apply Hf, Hz].
Qed.
Lemma sorted_sorted l : StronglySorted Z.le (sorted_nodes l).
Proof. induction l as [|x r IH]; cbn [sorted_nodes]; [constructor|apply sort_in_sorted, IH]. Qed.
Lemma sorted_unique l1 : forall l2, StronglySorted Z.le l1 -> StronglySorted Z.le l2 -> Permutation l1 l2 -> l1 = l2.
Proof.
  induction l1 as [|x r1 IH]; intros l2 H1 H2 Hp.
  - apply Permutation_nil in Hp. congruence.
  - destruct l2 as [|y r2]; [apply Permutation_sym, Permutation_nil in Hp; discriminate|].
    apply StronglySorted_inv in H1. destruct H1 as [H1 F1]. apply StronglySorted_inv in H2. destruct H2 as [H2 F2]. rewrite Forall_forall in F1, F2.
    assert (E : x = y).
    { pose proof (Permutation_in x Hp (or_introl eq_refl)) as [Q | Q]; [congruence|]. pose proof (Permutation_in y (Permutation_sym Hp) (or_introl eq_refl)) as [P | P]; [congruence|]. specialize (F1 y P). specialize (F2 x Q). lia. }
    subst y. f_equal. apply IH; [exact H1|exact H2|]. apply (Permutation_cons_inv Hp).
Qed.
Lemma same_sorted a b : same_side a b <-> sorted_nodes a = sorted_nodes b.
Proof.
  unfold same_side. split; intros Hp.
  - apply sorted_unique; [apply sorted_sorted|apply sorted_sorted|]. rewrite !sorted_perm. exact Hp.
  - rewrite <- (sorted_perm a), <- (sorted_perm b), Hp. reflexivity.
Qed.
Lemma sorted_length l : length (sorted_nodes l) = length l. Proof. apply Permutation_length, sorted_perm. Qed.

(* ---------- the order ---------- *)

Lemma all_equal_iff l1 : forall l2, length l1 = length l2 -> (all_equal l1 l2 = true <-> l1 = l2).
Proof.
  induction l1 as [|x r IH]; intros [|y r2] Hl; cbn [length] in Hl; try lia; cbn [all_equal]; [tauto|]. rewrite andb_true_iff, Z.eqb_eq, IH by lia. split; [intros [-> ->]; reflexivity|intros E; inversion E; auto].
Qed.
Lemma first_less_irr l : first_less l l = false.
Proof. induction l as [|x r IH]; [reflexivity|]. cbn [first_less]. rewrite Z.ltb_irrefl, Z.eqb_refl. exact IH. Qed.
Lemma first_less_trans l1 : forall l2 l3, first_less l1 l2 = true -> first_less l2 l3 = true -> first_less l1 l3 = true.
Proof.
  induction l1 as [|x r1 IH]; intros [|y r2] [|z r3]; cbn [first_less]; try discriminate. 
  destruct (Z.ltb_spec x y), (Z.ltb_spec y z), (Z.ltb_spec x z); try reflexivity; try lia;
  destruct (Z.eqb_spec x y), (Z.eqb_spec y z), (Z.eqb_spec x z); try discriminate; try lia. apply IH.
Qed.
Lemma first_less_total l1 : forall l2, length l1 = length l2 -> first_less l1 l2 = false -> first_less l2 l1 = false -> l1 = l2.
Proof.
  induction l1 as [|x r1 IH]; intros [|y r2] Hl; cbn [length] in Hl; try lia; cbn [first_less]; [reflexivity|].
  destruct (Z.ltb_spec x y), (Z.ltb_spec y x); try discriminate. destruct (Z.eqb_spec x y), (Z.eqb_spec y x); try lia. intros E1 E2. f_equal; [assumption|]. apply IH; [lia|exact E1|exact E2].
Qed.
Lemma ltb_irr a : patch_ltb a a = false.
Proof. unfold patch_ltb. rewrite Nat.ltb_irrefl. apply first_less_irr. Qed.
Lemma ltb_trans a b c : patch_ltb a b = true -> patch_ltb b c = true -> patch_ltb a c = true.
Proof.
  unfold patch_ltb.
  destruct (Nat.ltb_spec (length (p_nodes a)) (length (p_nodes b))), (Nat.ltb_spec (length (p_nodes b)) (length (p_nodes a))), (Nat.ltb_spec (length (p_nodes b)) (length (p_nodes c))), (Nat.ltb_spec (length (p_nodes c)) (length (p_nodes b))),
    (Nat.ltb_spec (length (p_nodes a)) (length (p_nodes c))), (Nat.ltb_spec (length (p_nodes c)) (length (p_nodes a))); try lia; try discriminate; try reflexivity. apply first_less_trans.
Qed.
Lemma ltb_same a b : (patch_ltb a b = false /\ patch_ltb b a = false) <-> same_side (p_nodes a) (p_nodes b).
Proof.
  split.
  - intros [E1 E2]. unfold patch_ltb in E1, E2. destruct (Nat.ltb_spec (length (p_nodes a)) (length (p_nodes b))), (Nat.ltb_spec (length (p_nodes b)) (length (p_nodes a))); try discriminate; try lia.
    apply same_sorted. apply first_less_total; [rewrite !sorted_length; lia|exact E1|exact E2].
  - intros Hs. pose proof (Permutation_length Hs) as Hl. apply same_sorted in Hs. unfold patch_ltb. rewrite Hl, Hs, Nat.ltb_irrefl, first_less_irr. auto.
Qed.

(* ---------- the set ---------- *)

Definition in_order (l : list patch) : Prop := StronglySorted (fun a b => patch_ltb a b = true) l.
Lemma set_insert_ok c l : in_order l ->
  match set_insert c l with
  | (l', None) => in_order l' /\ Permutation l' (c :: l) /\ (forall d, In d l -> ~ same_side (p_nodes c) (p_nodes d))
  | (l', Some d) => l' = l /\ In d l /\ same_side (p_nodes c) (p_nodes d)
  end.
Proof.
  induction l as [|d r IH]; intros Ho; cbn [set_insert].
  - split; [repeat constructor|]. split; [reflexivity|]. intros d [].
  - pose proof Ho as Ho'. apply StronglySorted_inv in Ho'. destruct Ho' as [Hr Hf]. rewrite Forall_forall in Hf. destruct (patch_ltb d c) eqn:Edc.
    + specialize (IH Hr). destruct (set_insert c r) as [r' [e|]].
      * destruct IH as (-> & Hin & Hs). split; [reflexivity|]. split; [right; exact Hin|exact Hs].
      * destruct IH as (Ho2 & Hp & Hn). split; [|split].
        -- constructor; [exact Ho2|]. rewrite Forall_forall. intros x Hx. apply (Permutation_in x Hp) in Hx. destruct Hx as [<- | Hx]; [exact Edc|apply Hf, Hx].
        -- rewrite Hp. apply perm_swap.
        -- intros x [<- | Hx]; [|apply Hn, Hx]. intros Hs. apply ltb_same in Hs. destruct Hs. congruence.
    + destruct (patch_ltb c d) eqn:Ecd.
      * assert (Hall : forall x, In x (d :: r) -> patch_ltb c x = true). { intros x [<- | Hx]; [exact Ecd|]. apply (ltb_trans c d x Ecd), Hf, Hx. }
        split; [constructor; [exact Ho|rewrite Forall_forall; exact Hall]|]. split; [reflexivity|].
        intros x Hx Hs. apply ltb_same in Hs. destruct Hs as [Hs _]. rewrite (Hall x Hx) in Hs. discriminate.
      * split; [reflexivity|]. split; [left; reflexivity|]. apply ltb_same. auto.
Qed.

(* ---------- the flags ---------- *)

(* what is known when [done] has been looked at *)
Record known (done : list patch) (set : list patch) (flags : nat -> bool) : Prop := Known {
  kn_order : in_order set;
  kn_in : forall d, In d set -> In d done;
  kn_all : forall q, In q done -> exists d, In d set /\ same_side (p_nodes q) (p_nodes d);
  kn_flags : forall q, In q done -> (flags (p_id q) = true <-> forall q', In q' done -> same_side (p_nodes q) (p_nodes q') -> p_id q' = p_id q);
  kn_rest : forall i, (forall q, In q done -> p_id q <> i) -> flags i = true }.

Lemma nodup_mid {A} (f : A -> nat) l p r : NoDup (map f (l ++ p :: r)) -> forall q, In q l -> f q <> f p.
Proof. intros Hn q Hq E. rewrite map_app in Hn. cbn [map] in Hn. apply NoDup_remove_2 in Hn. apply Hn. apply in_or_app. left. rewrite <- E. apply in_map, Hq. Qed.

Lemma mark_ok r : forall done set flags, NoDup (map p_id (done ++ r)) -> known done set flags ->
  forall q, In q (done ++ r) -> (mark r set flags (p_id q) = true <-> forall q', In q' (done ++ r) -> same_side (p_nodes q) (p_nodes q') -> p_id q' = p_id q).
Proof.
  induction r as [|p r IH]; intros done set flags Hn Hk q Hq.
  - cbn [mark]. rewrite app_nil_r in *. apply (kn_flags _ _ _ Hk). exact Hq.
  - cbn [mark]. pose proof (set_insert_ok p set (kn_order _ _ _ Hk)) as Hi. destruct Hk as [K1 K2 K3 K4 K5].
    pose proof (nodup_mid p_id done p r Hn) as Hfresh.
    replace (done ++ p :: r) with ((done ++ [p]) ++ r) in * by (rewrite <- app_assoc; reflexivity).
    destruct (set_insert p set) as [set' [d|]].
    + destruct Hi as (-> & Hd & Hs). apply IH; [exact Hn| |exact Hq]. constructor.
      * exact K1.
      * intros e He. apply in_or_app. left. apply K2, He.
      * intros e He. apply in_app_or in He. destruct He as [He | [<- | []]]; [apply K3, He|exists d; auto].
      * intros e He. unfold clear. pose proof (K2 d Hd) as Hdd. destruct (Nat.eqb_spec (p_id e) (p_id p)) as [Ep | Ep].
        { split; [discriminate|]. intros Hall. exfalso. assert (e = p) as ->. { apply in_app_or in He. destruct He as [He | [<- | []]]; [exfalso; apply (Hfresh e He Ep)|reflexivity]. }
          assert (p_id d = p_id p) by (apply Hall; [apply in_or_app; left; exact Hdd|exact Hs]). apply (Hfresh d Hdd). assumption. }
        apply in_app_or in He. destruct He as [He | [<- | []]]; [|congruence].
        destruct (Nat.eqb_spec (p_id e) (p_id d)) as [Ed | Ed].
        { split; [discriminate|]. intros Hall. exfalso. apply Ep. symmetry. apply Hall; [apply in_or_app; right; left; reflexivity|].
          assert (e = d) as ->; [|apply Permutation_sym; exact Hs].
          assert (Hnd : NoDup (map p_id done)). { rewrite <- app_assoc in Hn. rewrite map_app in Hn. clear - Hn. induction (map p_id done) as [|a l IHl]; [constructor|]. cbn [app] in Hn. apply NoDup_cons_iff in Hn. destruct Hn as [H1 H2]. constructor; [intros Q; apply H1, in_or_app; left; exact Q|apply IHl, H2]. }
          clear - Hnd He Hdd Ed. induction done as [|a l IHl]; [destruct He|]. cbn [map] in Hnd. apply NoDup_cons_iff in Hnd. destruct Hnd as [H1 H2]. destruct He as [-> | He], Hdd as [-> | Hd]; [reflexivity| | |apply IHl; assumption].
          - exfalso. apply H1. rewrite Ed. apply in_map, Hd.
          - exfalso. apply H1. rewrite <- Ed. apply in_map, He. }
        rewrite (K4 e He). split; intros Hall q' Hq' Hsq.
        { apply in_app_or in Hq'. destruct Hq' as [Hq' | [<- | []]]; [apply Hall; assumption|]. exfalso. apply Ed. symmetry. apply Hall; [exact Hdd|]. unfold same_side in *. rewrite Hsq. exact Hs. }
        { apply Hall; [apply in_or_app; left; exact Hq'|exact Hsq]. }
      * intros i Hi. unfold clear. destruct (Nat.eqb_spec i (p_id p)) as [-> | _]. { exfalso. apply (Hi p); [apply in_or_app; right; left; reflexivity|reflexivity]. }
        destruct (Nat.eqb_spec i (p_id d)) as [-> | _]. { exfalso. apply (Hi d); [apply in_or_app; left; apply K2, Hd|reflexivity]. }
        apply K5. intros e He. apply Hi, in_or_app. left. exact He.
    + destruct Hi as (Ho & Hp & Hno). apply IH; [exact Hn| |exact Hq]. constructor.
      * exact Ho.
      * intros e He. apply (Permutation_in e Hp) in He. apply in_or_app. destruct He as [<- | He]; [right; left; reflexivity|left; apply K2, He].
      * intros e He. apply in_app_or in He. destruct He as [He | [<- | []]].
        { destruct (K3 e He) as (d & Hd & Hs). exists d. split; [apply (Permutation_in d (Permutation_sym Hp)); right; exact Hd|exact Hs]. }
        { exists p. split; [apply (Permutation_in p (Permutation_sym Hp)); left; reflexivity|apply Permutation_refl]. }
      * assert (Hnew : forall e, In e done -> ~ same_side (p_nodes p) (p_nodes e)). { intros e He Hs. destruct (K3 e He) as (d & Hd & Hsd). apply (Hno d Hd). unfold same_side in *. rewrite Hs. exact Hsd. }
        intros e He. apply in_app_or in He. destruct He as [He | [<- | []]].
        { rewrite (K4 e He). split; intros Hall q' Hq' Hsq.
          - apply in_app_or in Hq'. destruct Hq' as [Hq' | [<- | []]]; [apply Hall; assumption|]. exfalso. apply (Hnew e He). apply Permutation_sym. exact Hsq.
          - apply Hall; [apply in_or_app; left; exact Hq'|exact Hsq]. }
        { split; [|intros _; apply K5; exact Hfresh]. intros _ q' Hq' Hsq. apply in_app_or in Hq'. destruct Hq' as [Hq' | [<- | []]]; [|reflexivity]. exfalso. apply (Hnew q' Hq'). exact Hsq. }
      * intros i Hi. apply K5. intros e He. apply Hi, in_or_app. left. exact He.
Qed.

Lemma known_nothing : known [] [] (fun _ => true).
Proof. constructor; [constructor|intros d []|intros q []|intros q []|reflexivity]. Qed.
Lemma number_ids l : forall k, map p_id (number k l) = seq k (length l).
Proof. induction l as [|[[e s] ns] r IH]; intros k; cbn [number map length seq p_id]; [reflexivity|]. rewrite IH. reflexivity. Qed.
Lemma number_nodes l : forall k, map p_nodes (number k l) = map snd l.
Proof. induction l as [|[[e s] ns] r IH]; intros k; cbn [number map p_nodes snd]; [reflexivity|]. rewrite IH. reflexivity. Qed.
