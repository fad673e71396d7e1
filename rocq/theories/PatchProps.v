(* C140: the boundary of a mesh is made of the sides that no other element has. *)
From Coq Require Import List Arith ZArith Bool Lia Permutation Sorted.
From Verif Require Import PatchModel PatchSpec PatchProofs.
Import ListNotations.

(* The comparisons: a strict order whose ties are the sides with the same nodes in any order,
   which are also those that compare as equal. *)
Theorem C140_order (a b c : patch) :
  patch_ltb a a = false /\ (patch_ltb a b = true -> patch_ltb b c = true -> patch_ltb a c = true) /\
  ((patch_ltb a b = false /\ patch_ltb b a = false) <-> same_side (p_nodes a) (p_nodes b)) /\
  (patch_eqb a b = true <-> same_side (p_nodes a) (p_nodes b)).
Proof.
  split; [apply ltb_irr|]. split; [apply ltb_trans|]. split; [apply ltb_same|]. unfold patch_eqb. destruct (Nat.eqb_spec (length (p_nodes a)) (length (p_nodes b))) as [El | El].
  - rewrite same_sorted. apply all_equal_iff. rewrite !sorted_length. exact El.
  - split; [discriminate|]. intros Hs. apply Permutation_length in Hs. congruence.
Qed.
Print Assumptions C140_order.

Lemma number_nth l : forall k i, i < length l -> exists p, nth_error (number k l) i = Some p /\ p_id p = k + i /\ (p_elem p, p_surf p, p_nodes p) = nth i l (0, 0, []).
Proof.
  induction l as [|[[e s] ns] r IH]; intros k i Hi; cbn [length] in Hi; [lia|]. destruct i as [|i]; cbn [number nth_error nth].
  - eexists. split; [reflexivity|]. cbn [p_id p_elem p_surf p_nodes]. split; [lia|reflexivity].
  - destruct (IH (S k) i ltac:(lia)) as (p & E & E1 & E2). exists p. split; [exact E|]. split; [lia|exact E2].
Qed.
Lemma number_length l : forall k, length (number k l) = length l.
Proof. induction l as [|[[e s] ns] r IH]; intros k; cbn [number length]; [reflexivity|]. rewrite IH. reflexivity. Qed.
Lemma flags_ok l q : In q (number 0 l) -> (mark (number 0 l) [] (fun _ => true) (p_id q) = true <-> forall q', In q' (number 0 l) -> same_side (p_nodes q) (p_nodes q') -> p_id q' = p_id q).
Proof. intros Hq. apply (mark_ok (number 0 l) [] [] (fun _ => true)); [cbn [app]; rewrite number_ids; apply seq_NoDup|exact known_nothing|exact Hq]. Qed.

(* The flag of a side stays up exactly when no other side has the same nodes, however many do. *)
Theorem C140_flags (convert : nat -> nat) (surfaces : list (list nat)) (elems : list (list Z)) (i : nat) :
  let l := sides convert surfaces elems in
  i < length l -> (mark (number 0 l) [] (fun _ => true) i = true <-> alone (map snd l) i).
Proof.
  intros l Hi. destruct (number_nth l 0 i Hi) as (p & E & E1 & E2). cbn [Nat.add] in E1.
  assert (Hn : forall j q, nth_error (number 0 l) j = Some q -> nth j (map snd l) [] = p_nodes q). { intros j q Ej. rewrite <- (number_nodes l 0). apply nth_error_nth. apply map_nth_error. exact Ej. }
  pose proof (flags_ok l p (nth_error_In _ _ E)) as Hf. rewrite E1 in Hf. rewrite Hf. unfold alone. rewrite map_length. split.
  - intros Hall j Hj Hji Hs. destruct (number_nth l 0 j Hj) as (q & F & F1 & _). cbn [Nat.add] in F1. rewrite (Hn i p E), (Hn j q F) in Hs. apply Hji. rewrite <- F1. apply Hall; [apply (nth_error_In _ _ F)|exact Hs].
  - intros Hall q Hq Hs. apply In_nth_error in Hq. destruct Hq as [j F]. assert (Hj : j < length l) by (rewrite <- (number_length l 0); apply nth_error_Some; congruence).
    destruct (number_nth l 0 j Hj) as (q' & F' & F1 & _). rewrite F in F'. inversion F'; subst q'. cbn [Nat.add] in F1. rewrite F1. destruct (Nat.eq_dec j i) as [Ej | Ej]; [exact Ej|]. exfalso. apply (Hall j Hj Ej). rewrite (Hn i p E), (Hn j q F). exact Hs.
Qed.
Print Assumptions C140_flags.

(* What is returned: in the order of the sides, each once, those that are alone and have a node
   of this process, with the element and the surface they come from. *)
Theorem C140_boundary (mine : Z -> bool) (convert : nat -> nat) (surfaces : list (list nat)) (elems : list (list Z)) :
  let l := sides convert surfaces elems in
  (forall p, In p (get_boundary_patches mine convert surfaces elems) <->
     p_id p < length l /\ (p_elem p, p_surf p, p_nodes p) = nth (p_id p) l (0, 0, []) /\ alone (map snd l) (p_id p) /\ exists n, In n (p_nodes p) /\ mine n = true) /\
  StronglySorted lt (map p_id (get_boundary_patches mine convert surfaces elems)).
Proof.
  intros l. unfold get_boundary_patches, boundary_patches. fold l. split.
  - intros p. rewrite filter_In, andb_true_iff, existsb_exists. split.
    + intros (Hin & Hm & Hx). apply In_nth_error in Hin. destruct Hin as [i F]. assert (Hi : i < length l) by (rewrite <- (number_length l 0); apply nth_error_Some; congruence).
      destruct (number_nth l 0 i Hi) as (q & F' & F1 & F2). rewrite F in F'. inversion F'; subst q. cbn [Nat.add] in F1. rewrite F1 in Hm |- *. split; [exact Hi|]. split; [exact F2|]. split; [|exact Hx]. apply (C140_flags convert surfaces elems i Hi). exact Hm.
    + intros (Hi & E & Ha & Hx). destruct (number_nth l 0 (p_id p) Hi) as (q & F & F1 & F2). cbn [Nat.add] in F1. rewrite <- E in F2.
      assert (q = p) as ->. { destruct p as [n1 i1 e1 s1], q as [n2 i2 e2 s2]. cbn [p_id p_elem p_surf p_nodes] in *. inversion F2; subst. reflexivity. }
      split; [apply (nth_error_In _ _ F)|]. split; [|exact Hx]. apply (C140_flags convert surfaces elems (p_id p) Hi). exact Ha.
  - assert (Hs : StronglySorted lt (map p_id (number 0 l))).
    { rewrite number_ids. generalize 0 at 1. induction (length l) as [|n IH]; intros k; cbn [seq]; [constructor|]. constructor; [apply IH|]. rewrite Forall_forall. intros x Hx. apply in_seq in Hx. lia. }
    revert Hs. generalize (fun p => (mark (number 0 l) [] (fun _ => true) (p_id p) && existsb mine (p_nodes p))%bool). intros f. induction (number 0 l) as [|p r IH]; cbn [map filter]; [intros _; constructor|].
    intros Hs. apply StronglySorted_inv in Hs. destruct Hs as [Hs Hf]. destruct (f p); [|apply IH, Hs]. cbn [map]. constructor; [apply IH, Hs|]. rewrite Forall_forall in *. intros x Hx. apply Hf. apply in_map_iff in Hx. destruct Hx as (q & <- & Hq). apply filter_In in Hq. apply in_map. apply Hq.
Qed.
Print Assumptions C140_boundary.

(* ---------- several processes ---------- *)

Definition alike (s t : list Z) : bool := if list_eq_dec Z.eq_dec (sorted_nodes s) (sorted_nodes t) then true else false.
Lemma alike_iff s t : alike s t = true <-> same_side s t.
Proof. unfold alike. rewrite same_sorted. destruct (list_eq_dec _ _ _); split; congruence. Qed.
Definition once (s : list Z) (l : list (list Z)) : bool := Nat.eqb (length (filter (alike s) l)) 1.
Lemma filter_none {A} (f : A -> bool) l : (forall a, In a l -> f a = false) -> filter f l = [].
Proof. induction l as [|a r IH]; intros Hl; [reflexivity|]. cbn [filter]. rewrite (Hl a (or_introl eq_refl)). apply IH. intros b Hb. apply Hl. right; exact Hb. Qed.
Lemma filter_map_length {A B} (g : A -> B) f l : length (filter f (map g l)) = length (filter (fun a => f (g a)) l).
Proof. induction l as [|a r IH]; [reflexivity|]. cbn [map filter]. destruct (f (g a)); cbn [length]; rewrite IH; reflexivity. Qed.
Lemma once_iff ps q : NoDup (map p_id ps) -> In q ps -> (once (p_nodes q) (map p_nodes ps) = true <-> forall q', In q' ps -> same_side (p_nodes q) (p_nodes q') -> p_id q' = p_id q).
Proof.
  intros Hn Hq. unfold once. rewrite Nat.eqb_eq, filter_map_length. apply in_split in Hq. destruct Hq as (l1 & l2 & ->).
  assert (Hd : forall q', In q' l1 \/ In q' l2 -> p_id q' <> p_id q). { intros q' Hq' E. rewrite map_app in Hn. cbn [map] in Hn. apply NoDup_remove_2 in Hn. apply Hn. rewrite <- E. apply in_or_app. destruct Hq'; [left|right]; apply in_map; assumption. }
  rewrite filter_app, app_length. cbn [filter]. rewrite (proj2 (alike_iff (p_nodes q) (p_nodes q)) (Permutation_refl _)). cbn [length]. split.
  - intros Hl q' Hq' Hs. apply alike_iff in Hs. apply in_app_or in Hq'. destruct Hq' as [Hq' | [<- | Hq']]; [|reflexivity|]; exfalso.
    + assert (In q' (filter (fun a => alike (p_nodes q) (p_nodes a)) l1)) by (apply filter_In; auto). destruct (filter _ l1); [destruct H|cbn [length] in Hl; lia].
    + assert (In q' (filter (fun a => alike (p_nodes q) (p_nodes a)) l2)) by (apply filter_In; auto). destruct (filter _ l2); [destruct H|cbn [length] in Hl; lia].
  - intros Hall. rewrite !filter_none; [reflexivity| |]; intros a Ha; destruct (alike (p_nodes q) (p_nodes a)) eqn:E; try reflexivity; exfalso; apply alike_iff in E; apply (Hd a); auto; apply Hall; auto; apply in_or_app; [right; right|left]; exact Ha.
Qed.
Lemma map_filter {A B} (g : A -> B) (f : B -> bool) l : map g (filter (fun a => f (g a)) l) = filter f (map g l).
Proof. induction l as [|a r IH]; [reflexivity|]. cbn [filter map]. destruct (f (g a)); cbn [map]; rewrite IH; reflexivity. Qed.
Lemma boundary_nodes mine l : map p_nodes (boundary_patches mine (number 0 l)) = filter (fun s => (once s (map snd l) && existsb mine s)%bool) (map snd l).
Proof.
  unfold boundary_patches. rewrite <- (number_nodes l 0). rewrite <- (map_filter p_nodes (fun s => (once s (map p_nodes (number 0 l)) && existsb mine s)%bool)). f_equal. apply filter_ext_in. intros p Hp. f_equal.
  apply eq_true_iff_eq. rewrite (flags_ok l p Hp). symmetry. apply once_iff; [rewrite number_ids; apply seq_NoDup|exact Hp].
Qed.
Definition sides_of (convert : nat -> nat) (surfaces : list (list nat)) (e : list Z) : list (list Z) := map (side_nodes convert e) surfaces.
Lemma map_snd_combine {A B} (l : list B) : forall (k : list A), length k = length l -> map snd (combine k l) = l.
Proof. induction l as [|b r IH]; intros [|a k] Hl; cbn [length] in Hl; try lia; cbn [combine map]; [reflexivity|]. cbn [snd]. rewrite IH by lia. reflexivity. Qed.
Lemma sides_nodes convert surfaces elems : map snd (sides convert surfaces elems) = flat_map (sides_of convert surfaces) elems.
Proof.
  unfold sides. generalize 0 at 2. induction elems as [|e r IH]; intros k; cbn [length seq combine flat_map]; [reflexivity|]. rewrite map_app, IH. f_equal. rewrite map_map. cbn [fst snd]. unfold sides_of. transitivity (map (side_nodes convert e) (map snd (combine (seq 0 (length surfaces)) surfaces))); [rewrite map_map; reflexivity|rewrite map_snd_combine by apply seq_length; reflexivity].
Qed.
Lemma drop_held mine convert surfaces elems (f : list Z -> bool) : (forall e, In e elems -> fits convert surfaces e) -> (forall t, f t = true -> existsb mine t = true) ->
  filter f (flat_map (sides_of convert surfaces) (held mine elems)) = filter f (flat_map (sides_of convert surfaces) elems).
Proof.
  intros Hfit Hf. unfold held. induction elems as [|e r IH]; [reflexivity|]. cbn [filter flat_map]. rewrite filter_app. rewrite <- IH by (intros a Ha; apply Hfit; right; exact Ha).
  destruct (existsb mine e) eqn:Ee; cbn [flat_map]; [rewrite filter_app; reflexivity|]. rewrite (filter_none f (sides_of convert surfaces e)); [reflexivity|].
  intros t Ht. destruct (f t) eqn:Et; [|reflexivity]. exfalso. apply Hf in Et. apply existsb_exists in Et. destruct Et as (n & Hn & Hm). unfold sides_of in Ht. apply in_map_iff in Ht. destruct Ht as (s & <- & Hs). unfold side_nodes in Hn. apply in_map_iff in Hn. destruct Hn as (i & <- & Hi).
  assert (existsb mine e = true); [|congruence]. apply existsb_exists. eexists. split; [|exact Hm]. apply nth_In. apply (Hfit e (or_introl eq_refl) s i Hs Hi).
Qed.

(* A process that holds every element with a node of its own finds, without asking the others,
   exactly the sides of the boundary of the whole mesh that have a node of its own. *)
Theorem C140_processes (mine : Z -> bool) (convert : nat -> nat) (surfaces : list (list nat)) (elems : list (list Z)) :
  (forall e, In e elems -> fits convert surfaces e) ->
  map p_nodes (get_boundary_patches mine convert surfaces (held mine elems)) = filter (existsb mine) (map p_nodes (get_boundary_patches (fun _ => true) convert surfaces elems)).
Proof.
  intros Hfit. unfold get_boundary_patches. rewrite !boundary_nodes, !sides_nodes.
  assert (Eff : forall (f g : list Z -> bool) l, filter g (filter f l) = filter (fun x => (f x && g x)%bool) l). { intros f g l. induction l as [|a r IH]; [reflexivity|]. cbn [filter]. destruct (f a); cbn [andb filter]; rewrite IH; reflexivity. }
  rewrite Eff.
  transitivity (filter (fun s => (once s (flat_map (sides_of convert surfaces) elems) && existsb mine s)%bool) (flat_map (sides_of convert surfaces) (held mine elems))).
  - apply filter_ext. intros s. destruct (existsb mine s) eqn:Em; [|rewrite !andb_false_r; reflexivity]. f_equal. unfold once. rewrite drop_held; [reflexivity|exact Hfit|].
    intros t Ht. apply alike_iff in Ht. apply existsb_exists in Em. destruct Em as (n & Hn & Hm). apply existsb_exists. exists n. split; [apply (Permutation_in n Ht Hn)|exact Hm].
  - rewrite drop_held; [|exact Hfit|intros t Ht; apply andb_true_iff in Ht; apply Ht]. apply filter_ext. intros s. destruct (existsb mine s) eqn:Em; [|rewrite !andb_false_r; reflexivity].
    assert (existsb (fun _ : Z => true) s = true) as ->; [|rewrite !andb_true_r; reflexivity]. apply existsb_exists in Em. destruct Em as (n & Hn & _). apply existsb_exists. exists n. auto.
Qed.
Print Assumptions C140_processes.

(* Two squares with a common edge, given in opposite directions: six of the eight sides. *)
Definition square : list (list nat) := [[0; 1]; [1; 2]; [2; 3]; [3; 0]].
Definition squares : list (list Z) := [[0; 1; 2; 3]; [1; 4; 5; 2]]%Z.
Example C140_met :
  map p_id (get_boundary_patches (fun _ => true) (fun i => i) square squares) = [0; 2; 3; 4; 5; 6] /\
  map p_nodes (get_boundary_patches (fun n => Z.ltb 3 n) (fun i => i) square (held (fun n => Z.ltb 3 n) squares)) = [[1; 4]; [4; 5]; [5; 2]]%Z /\
  (forall e, In e squares -> fits (fun i => i) square e).
Proof.
  split; [reflexivity|]. split; [reflexivity|]. intros e He s i Hs Hi. destruct He as [<- | [<- | []]]; cbn [length]; destruct Hs as [<- | [<- | [<- | [<- | []]]]]; destruct Hi as [<- | [<- | []]]; lia.
Qed.
