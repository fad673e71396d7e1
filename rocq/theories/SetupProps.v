(** Property C22 (material/element maps) and C53 (stored mass, energy and level set). *)
From Verif Require Import SetupModel SetupSpec SetupProofs.

(** Set-up stays inside its arrays exactly when every used slot fits and names an existing material. *)
Theorem C22_defined_iff : forall f, (0 < in_ng f)%nat -> ((exists st, material_state_setup f = Some st) <-> well_formed f).
Proof. exact setup_defined_iff. Qed.
Print Assumptions C22_defined_iff.

(** From a slot of an element to the material's storage and back. *)
Theorem C22_slot_to_element : forall f st e a, well_formed f -> material_state_setup f = Some st -> used f e a ->
  exists s, aget (st_slot st) e a = Some s /\ (s < num_saved f (in_mat f e a))%nat /\ rget (st_elem st) (in_mat f e a) s = Some e.
Proof. intros f st e a W H U. destruct (slot_to_elem f st e a W H U) as (s & A & B & C & _). exists s. split; [exact A|]. split; assumption. Qed.
Print Assumptions C22_slot_to_element.

(** Every storage slot below the material's count belongs to exactly one slot of one element: no gaps, no sharing. *)
Theorem C22_element_to_slot : forall f st m s, well_formed f -> material_state_setup f = Some st -> (m < in_mats f)%nat -> (s < num_saved f m)%nat ->
  exists e a, used f e a /\ in_mat f e a = m /\ aget (st_slot st) e a = Some s /\ rget (st_elem st) m s = Some e /\
  forall e' a', used f e' a' -> in_mat f e' a' = m -> aget (st_slot st) e' a' = Some s -> e' = e /\ a' = a.
Proof. exact elem_to_slot. Qed.
Print Assumptions C22_element_to_slot.

(** The elements of a material are stored in increasing order, strictly if no element holds the material twice. *)
Theorem C22_element_order : forall f st m s s' e e', well_formed f -> material_state_setup f = Some st -> (s < s')%nat ->
  rget (st_elem st) m s = Some e -> rget (st_elem st) m s' = Some e' ->
  (e < e' \/ e = e' /\ exists a a', (a < a')%nat /\ in_mat f e a = m /\ in_mat f e a' = m)%nat.
Proof. exact elem_sorted. Qed.
Print Assumptions C22_element_order.

(** One gauss point per element: the material point of a slot holds the values filled for it. *)
Theorem C53_point_values_partial : forall f st e a, well_formed f -> in_ng f = 1%nat -> material_state_setup f = Some st -> used f e a ->
  exists s p, aget (st_slot st) e a = Some s /\ rget (st_point st) (in_mat f e a) s = Some p /\
  pt_vf p = in_vf f e a /\ pt_geo p = in_geo f e a /\ pt_den p = in_den f e a /\ pt_cond p = in_cond f e a /\ pt_heat p = in_heat f e a /\
  pt_mass p = in_den f e a * (in_vol f e * in_vf f e a * in_geo f e a) /\
  (in_use_sie f e a = true -> pt_sie p = Num (in_sie f e a)) /\
  (in_use_sie f e a = false -> pt_mass p <> 0 -> exists x, pt_sie p = Num x /\ x * pt_mass p = in_ie f e a).
Proof.
  intros f st e a W G1 H U. destruct (slot_to_elem f st e a W H U) as (s & A & _). exists s, (setup_point f e a e). split; [exact A|].
  split; [now apply point_of_slot|]. repeat (split; [reflexivity|]). split.
  - intros X. cbn [setup_point pt_sie]. unfold setup_sie. now rewrite X.
  - intros X M. cbn [setup_point pt_sie pt_mass] in *. unfold setup_sie. rewrite X. destruct (Req_EM_T _ 0) as [Z|Z]; [contradiction|].
    eexists. split; [reflexivity|]. field. split; [|split; [|split]]; intros Y; apply Z; rewrite Y; ring.
Qed.
Print Assumptions C53_point_values_partial.

(** A zero mass and a given total energy make the stored specific energy undefined. *)
Theorem C53_zero_mass_refuted : forall f st e a s, well_formed f -> in_ng f = 1%nat -> material_state_setup f = Some st -> used f e a ->
  aget (st_slot st) e a = Some s -> in_use_sie f e a = false -> in_vf f e a = 0 -> exists p, rget (st_point st) (in_mat f e a) s = Some p /\ pt_sie p = NaN.
Proof.
  intros f st e a s W G1 H U G X V. exists (setup_point f e a e). split; [now apply point_of_slot|]. cbn [setup_point pt_sie]. unfold setup_sie. rewrite X.
  destruct (Req_EM_T _ 0) as [Z|Z]; [reflexivity|]. exfalso. apply Z. rewrite V. ring.
Qed.
Print Assumptions C53_zero_mass_refuted.

(** The stored masses add up to the masses of the slots: per material and in total. *)
Theorem C53_material_mass_partial : forall f st m, well_formed f -> in_ng f = 1%nat -> material_state_setup f = Some st -> (m < in_mats f)%nat ->
  sumn (num_points f m) (stored_mass st m) = suml (fun p => slot_mass f (fst p) (snd p)) (slots_of f m).
Proof. exact material_mass. Qed.
Print Assumptions C53_material_mass_partial.

Theorem C53_total_mass_partial : forall f st, well_formed f -> in_ng f = 1%nat -> material_state_setup f = Some st ->
  sumn (in_mats f) (fun m => sumn (num_points f m) (stored_mass st m)) =
  sumn (in_ne f) (fun e => sumn (in_num f e) (fun a => in_den f e a * (in_vol f e * in_vf f e a * in_geo f e a))).
Proof. exact total_mass. Qed.
Print Assumptions C53_total_mass_partial.

(** The level set of an element is the least of the ones filled in it. *)
Theorem C53_level_set_partial : forall f st e, well_formed f -> in_ng f = 1%nat -> material_state_setup f = Some st -> (e < in_ne f)%nat ->
  st_ls st e <= 1e32 /\ (forall a, (a < in_num f e)%nat -> st_ls st e <= in_ls f e a) /\
  (st_ls st e = 1e32 \/ exists a, (a < in_num f e)%nat /\ st_ls st e = in_ls f e a).
Proof. exact level_set_min. Qed.
Print Assumptions C53_level_set_partial.

(** With several gauss points, the entries of a slot's further points hold other slots' first points. *)
Theorem C53_several_points_refuted : forall f st e a s g, well_formed f -> material_state_setup f = Some st -> used f e a -> aget (st_slot st) e a = Some s ->
  (0 < g < in_ng f)%nat -> (s + g < num_saved f (in_mat f e a))%nat ->
  exists e' a', (e', a') <> (e, a) /\ in_mat f e' a' = in_mat f e a /\ aget (st_slot st) e' a' = Some (s + g)%nat /\
                rget (st_point st) (in_mat f e a) (s + g) = Some (setup_point f e' a' e').
Proof.
  intros f st e a s g W H U G Hg Hs. destruct (points_overwritten f st e a s g W H U G) as (e' & a' & N & P); [lia|exact Hg|exact Hs|].
  assert (U' := nth_error_In _ _ N). apply slots_of_in in U' as [U' M']. destruct (slot_to_elem f st e' a' W H U') as (s2 & G2 & _ & _ & N2). rewrite M' in N2.
  assert (s2 = (s + g)%nat) by (apply (proj1 (NoDup_nth_error _) (slots_of_nodup f (in_mat f e a))); [apply nth_error_Some; congruence|congruence]). subst s2.
  exists e', a'. split; [intros E; injection E as -> ->; rewrite G in G2; injection G2 as G2; lia|]. split; [exact M'|]. split; [exact G2|exact P].
Qed.
Print Assumptions C53_several_points_refuted.

(** Three elements, two materials, one mixed element; one and two gauss points. *)
Definition ex (ng : nat) : fills := mkFills 3 ng 2 2 (fun e => match e with 1 => 2 | _ => 1 end)%nat (fun e a => match e, a with 0, _ => 0 | 1, 0 => 0 | 1, _ => 1 | _, _ => 1 end)%nat
  (fun e _ => match e with 1%nat => 0.5 | _ => 1 end) (fun _ _ => 1) (fun _ => 2) (fun _ a => INR (S a)) (fun _ _ => true) (fun _ _ => 3) (fun _ _ => 0) (fun _ _ => 0) (fun _ _ => 0) (fun _ _ => 0).
Example C22_ex : forall ng, (0 < ng)%nat -> well_formed (ex ng) /\ num_saved (ex ng) 0 = 2%nat /\ num_saved (ex ng) 1 = 2%nat /\ used (ex ng) 1 1.
Proof.
  intros ng Hg. split; [split; [exact Hg|]|split; [reflexivity|split; [reflexivity|split; cbn; lia]]].
  intros e a [He Ha]. cbn in *. destruct e as [|[|[|e]]]; [| | |lia]; destruct a as [|[|a]]; try lia.
Qed.
