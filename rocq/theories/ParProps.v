(** C43: results of the parallel loops do not depend on the schedule. *)
From Coq Require Import Reals Lra Permutation.
From Verif Require Import BaseReal BaseArr GeomModel SghModel SghSpec SghProofs SghMore SghExamples TimeModel FillModel ParModel ParSpec ParProofs ParLoops.
Local Open Scope R_scope.

(** Every race-free loop ends under every schedule, in the memory the serial loop ends in. *)
Theorem C43_race_free : forall (L : Type) (eq_dec : forall x y : L, {x = y} + {x <> y}) ps m,
  race_free eq_dec ps m -> always_ends_in eq_dec ps m (serial eq_dec ps m).
Proof. exact @race_free_ends. Qed.
Print Assumptions C43_race_free.

(** Every loop ends, races or not. *)
Theorem C43_terminates : forall (L : Type) (eq_dec : forall x y : L, {x = y} + {x <> y}) ps m,
  Acc (fun a b => step eq_dec b a) (ps, m).
Proof. exact @ends. Qed.
Print Assumptions C43_terminates.

(** Corner and node masses, from any contents of memory: every schedule of the set-up loops gives the masses of the
    serial model. *)
Theorem C43_masses : forall m nc Y mem, corners_ok 8 m -> layout_ok (num_elems m) Y -> (forall mat, (mat < num_mats Y)%nat -> listed_once Y mat) ->
  (forall n c, (n < num_nodes m)%nat -> In c (corners_in_node m n) -> (c < nc)%nat) ->
  let mass := fun mat sid => mem (Mass mat sid) in
  let loops := zero_nodes m :: zero_corners nc :: map (corner_mass_loop m Y) (seq 0 (num_mats Y)) ++ [node_mass_loop m] in
  (exists e, exec_all loc_dec loops mem e) /\
  forall e, exec_all loc_dec loops mem e ->
    (forall c, (c < nc)%nat -> e (CMass c) = setup_corner_mass m Y mass c) /\
    (forall n, (n < num_nodes m)%nat -> e (NMass n) = calc_node_mass m (setup_corner_mass m Y mass) n).
Proof.
  intros m nc Y mem CO LO L1 HC mass loops. split; [apply exec_all_exists|]. intros e He. exact (setup_any m nc Y mem e CO LO L1 HC He).
Qed.
Print Assumptions C43_masses.

(** Forces of a material. *)
Theorem C43_force : forall m Y M s mat mem, corners_ok 8 m -> layout_ok (num_elems m) Y -> (mat < num_mats Y)%nat -> listed_once Y mat -> holds s mem ->
  exists m', always_ends_in loc_dec (force_loop m Y M s mat) mem m' /\
    (forall c d, m' (CForce c d) = fst (get_force m Y M s mat (s_cforce s, s_mcforce s)) c d) /\
    (forall a c d, m' (MCForce a c d) = snd (get_force m Y M s mat (s_cforce s, s_mcforce s)) a c d) /\
    (forall x, (forall c d, x <> CForce c d) -> (forall a c d, x <> MCForce a c d) -> m' x = mem x).
Proof.
  intros m Y M s mat mem CO LO Hm H1 H. eexists. split; [now apply force_any|]. cbn zeta.
  assert (E : forall A B, (forall c d, A c d = s_cforce s c d) -> (forall a c d, B a c d = s_mcforce s a c d) ->
    (forall c d, fst (get_force m Y M s mat (A, B)) c d = fst (get_force m Y M s mat (s_cforce s, s_mcforce s)) c d) /\
    (forall a c d, snd (get_force m Y M s mat (A, B)) a c d = snd (get_force m Y M s mat (s_cforce s, s_mcforce s)) a c d)).
  { intros A B HA HB. unfold get_force.
    apply (fold_rel (fun p q : (nat -> nat -> R) * (nat -> nat -> nat -> R) => (forall c d, fst p c d = fst q c d) /\ (forall a c d, snd p a c d = snd q a c d))); [|split; assumption].
    intros p q sid _ Hpq. unfold elem_force. apply (fold_rel (fun p q : (nat -> nat -> R) * (nat -> nat -> nat -> R) => (forall c d, fst p c d = fst q c d) /\ (forall a c d, snd p a c d = snd q a c d))); [|exact Hpq].
    intros p1 q1 l _ H2. apply (fold_rel (fun p q : (nat -> nat -> R) * (nat -> nat -> nat -> R) => (forall c d, fst p c d = fst q c d) /\ (forall a c d, snd p a c d = snd q a c d))); [|exact H2].
    intros [p2 p3] [q2 q3] d _ [Hc Hd]. unfold corner_write. cbn [fst snd] in *. split.
    - intros c d'. destruct (s_eroded s mat sid); unfold fupd2; rewrite ?Hc; reflexivity.
    - intros a c d'. unfold fupd, fupd2. destruct (Nat.eqb a mat); [|apply Hd]. now rewrite Hd. }
  destruct (E (fun c d => mem (CForce c d)) (fun a c d => mem (MCForce a c d)) (h_cforce _ _ H) (h_mcforce _ _ H)) as [E1 E2].
  split; [exact E1|]. split; [exact E2|]. intros x N1 N2. destruct x; try reflexivity; [now destruct (N1 c d)|now destruct (N2 mat0 mc d)].
Qed.
Print Assumptions C43_force.

(** Gathering of the corner forces on the nodes, and the new velocities. *)
Theorem C43_velocity : forall m M s alpha dt mem, holds s mem ->
  (forall n d, mem (NForce n d) = 0 + bdy_stress M s n d) -> (forall n d, mem (Contact n d) = contact_force M s n d) ->
  exists m', always_ends_in loc_dec (velocity_loop m (doing_contact M) alpha dt) mem m' /\
    (forall n d, (n < num_nodes m)%nat -> (d < 3)%nat -> m' (NForce n d) = node_force m M s n d /\
       m' (Vel n d) = update_velocity alpha dt (set_nforce (node_force m M s) s) n d) /\
    (forall x, (forall n d, x <> NForce n d /\ x <> Vel n d) -> m' x = mem x).
Proof.
  intros m M s alpha dt mem H HF HC. eexists. split; [apply velocity_any|]. cbn zeta. split.
  - intros n d Hn Hd. apply Nat.ltb_lt in Hn, Hd. rewrite Hn, Hd. cbn [andb].
    assert (E : force_total m (doing_contact M) mem n d = node_force m M s n d).
    { unfold force_total, node_force. rewrite HF, HC. cbn zeta. apply fold_rel; [|reflexivity]. intros a b c _ ->. now rewrite (h_cforce _ _ H). }
    split; [exact E|]. unfold update_velocity. cbn [set_nforce s_v0 s_nforce s_nmass]. now rewrite E, (h_v0 _ _ H), (h_nmass _ _ H).
  - intros x N. destruct x; try reflexivity; destruct (N n d); congruence.
Qed.
Print Assumptions C43_velocity.

(** Specific internal energies of a material. *)
Theorem C43_energy : forall m Y s alpha dt mat mem, holds s mem ->
  exists m', always_ends_in loc_dec (energy_loop m Y alpha dt mat) mem m' /\
    (forall sid, (sid < num_mat_elems Y mat)%nat -> m' (Sie mat sid) = update_energy m Y alpha dt s mat sid) /\
    (forall x, (forall sid, (sid < num_mat_elems Y mat)%nat -> x <> Sie mat sid) -> m' x = mem x).
Proof.
  intros m Y s alpha dt mat mem H. eexists. split; [apply energy_any|]. cbn zeta. split.
  - intros sid Hs. apply Nat.ltb_lt in Hs. rewrite Nat.eqb_refl, Hs. cbn [andb]. unfold update_energy. rewrite (h_sie0 _ _ H), (h_mass _ _ H). do 2 f_equal.
    unfold power, mat_power. cbn zeta. apply fold_rel; [|reflexivity]. intros a b l _ ->. apply fold_rel; [|reflexivity]. intros a' b' d _ ->.
    now rewrite (h_mcforce _ _ H), (h_v _ _ H), (h_v0 _ _ H).
  - intros x N. destruct x; try reflexivity. destruct (Nat.eqb_spec mat0 mat) as [->|]; [|reflexivity]. destruct (Nat.ltb_spec p (num_mat_elems Y mat)); [|reflexivity].
    now destruct (N p).
Qed.
Print Assumptions C43_energy.

(** Positions. *)
Theorem C43_position : forall m s alpha dt mem, holds s mem ->
  exists m', always_ends_in loc_dec (position_loop m alpha dt) mem m' /\
    (forall n d, (n < num_nodes m)%nat -> (d < 3)%nat -> m' (Pos n d) = update_position alpha dt s n d) /\
    (forall x, (forall n d, x <> Pos n d) -> m' x = mem x).
Proof.
  intros m s alpha dt mem H. eexists. split; [apply position_any|]. cbn zeta. split.
  - intros n d Hn Hd. apply Nat.ltb_lt in Hn, Hd. rewrite Hn, Hd. cbn [andb]. unfold moved, update_position. cbn zeta.
    now rewrite (h_x0 _ _ H), (h_v _ _ H), (h_v0 _ _ H).
  - intros x N. destruct x; try reflexivity. now destruct (N n d).
Qed.
Print Assumptions C43_position.

(** The time step: however the minimum is computed in parallel, it is the serial one. *)
Theorem C43_timestep : forall c (elem : nat -> elem_in) n p time gt dt, covers p n ->
  get_timestep_plan c elem p time gt dt = get_timestep c (map elem (seq 0 n)) time gt dt.
Proof. intros c elem n p time gt dt H. unfold get_timestep_plan, get_timestep. rewrite (reduce_min_any _ p n H). now rewrite map_map. Qed.
Print Assumptions C43_timestep.

(** Energy and mass tallies. *)
Theorem C43_tallies : forall m Y s (p : nat -> plan) q, (forall mat, (mat < num_mats Y)%nat -> covers (p mat) (num_mat_elems Y mat)) -> covers q (num_nodes m) ->
  internal_energy_plan Y s p = internal_energy Y s /\ kinetic_energy_plan s q = kinetic_energy m s /\
  total_mass_plan Y s p = total_mass Y s /\ node_mass_plan s q = node_mass_total m s.
Proof.
  intros m Y s p q Hp Hq. split; [|split; [|split]].
  - unfold internal_energy_plan, internal_energy. apply sumn_ext. intros mat Hm. now apply reduce_sum_any, Hp.
  - unfold kinetic_energy_plan, kinetic_energy. f_equal. rewrite (reduce_sum_any _ q (num_nodes m) Hq). apply sumn_ext. intros n _.
    cbn [seq fold_left sumn]. ring.
  - unfold total_mass_plan, total_mass. apply sumn_ext. intros mat Hm. now apply reduce_sum_any, Hp.
  - unfold node_mass_plan, node_mass_total. now apply reduce_sum_any.
Qed.
Print Assumptions C43_tallies.

(** Painting of velocities on the nodes of the elements: independent of the schedule when the elements around a node
    paint the same value ... *)
Theorem C43_paint_partial : forall m fills value mem,
  (forall e e' f f' n u u' d, (e < num_elems m)%nat -> (e' < num_elems m)%nat -> e <> e' -> In f (fills e) -> In f' (fills e') ->
     In n (map (nodes_in m e) (seq 0 8)) -> In n (map (nodes_in m e') (seq 0 8)) -> value f n = Some u -> value f' n = Some u' -> (d < 3)%nat -> u d = u' d) ->
  exists m', always_ends_in loc_dec (paint_loop m fills value) mem m' /\
    forall n d, (d < 3)%nat -> m' (Vel n d) = paint_nodes (fun e => map (nodes_in m e) (seq 0 8)) fills value (seq 0 (num_elems m)) (fun n d => mem (Vel n d)) n d.
Proof.
  intros m fills value mem H. eexists. split; [apply paint_agree; exact H|]. intros n d Hd. cbn beta iota. apply Nat.ltb_lt in Hd. rewrite Hd. reflexivity.
Qed.
Print Assumptions C43_paint_partial.

(** ... and every order of the elements is a schedule, *)
Theorem C43_paint_order : forall m fills value order mem, Permutation order (seq 0 (num_elems m)) ->
  exists e, exec loc_dec (paint_loop m fills value) mem e /\
    forall n d, (d < 3)%nat -> e (Vel n d) = paint_nodes (fun e => map (nodes_in m e) (seq 0 8)) fills value order (fun n d => mem (Vel n d)) n d.
Proof. exact paint_order. Qed.
Print Assumptions C43_paint_order.

(** ... so two regions with different velocities that meet at a node leave it with one or the other. *)
Theorem C43_paint_refuted : let fills := fun e => [e] in let value := fun f (_ : nat) => Some (fun _ : nat => INR f) in
  exists e e', exec loc_dec (paint_loop mesh2 fills value) (fun _ => 0) e /\ exec loc_dec (paint_loop mesh2 fills value) (fun _ => 0) e' /\
    e (Vel 4 0) = 1 /\ e' (Vel 4 0) = 0.
Proof.
  destruct (build_corners_ok _ _ _ _ _ mesh2_built) as (_ & _ & He & Hn & _). cbn zeta.
  destruct (paint_order mesh2 (fun e => [e]) (fun f _ => Some (fun _ => INR f)) [0; 1]%nat (fun _ => 0)) as (e & X & E); [rewrite He; reflexivity|].
  destruct (paint_order mesh2 (fun e => [e]) (fun f _ => Some (fun _ => INR f)) [1; 0]%nat (fun _ => 0)) as (e' & X' & E'); [rewrite He; apply perm_swap|].
  exists e, e'. split; [exact X|]. split; [exact X'|].
  rewrite (E 4%nat 0%nat), (E' 4%nat 0%nat) by lia. unfold elem_nodes. rewrite Hn. cbn. split; reflexivity.
Qed.
Print Assumptions C43_paint_refuted.

(** An element listed twice in a material: one schedule gives the corner both masses, another loses one. *)
Theorem C43_listed_twice : forall m Y mat mem e, corners_ok 8 m -> num_mat_elems Y mat = 2%nat ->
  elem_in_mat Y mat 0 = e -> elem_in_mat Y mat 1 = e -> (e < num_elems m)%nat ->
  let c := corners_in_elem m e 0 in
  (exists f, exec loc_dec (corner_mass_loop m Y mat) mem f /\ f (CMass c) = mem (CMass c) + 1 / 8 * mem (Mass mat 0%nat) + 1 / 8 * mem (Mass mat 1%nat)) /\
  (exists f, exec loc_dec (corner_mass_loop m Y mat) mem f /\ f (CMass c) = mem (CMass c) + 1 / 8 * mem (Mass mat 0%nat)).
Proof. exact lost_update. Qed.
Print Assumptions C43_listed_twice.

(** The hypotheses are met by a mesh of two elements with two materials, and by plans with two pieces. *)
Example C43_ex : corners_ok 8 mesh2 /\ layout_ok (num_elems mesh2) lay2 /\ (forall mat, (mat < num_mats lay2)%nat -> listed_once lay2 mat) /\
  (forall n c, (n < num_nodes mesh2)%nat -> In c (corners_in_node mesh2 n) -> (c < 16)%nat) /\
  covers (Join (Leaf [2; 0]%nat) (Join (Leaf []) (Leaf [1]%nat))) 3 /\
  holds start2 (fun x => match x with
    | NMass n => s_nmass start2 n | CForce c d => s_cforce start2 c d | MCForce a c d => s_mcforce start2 a c d
    | Vel n d => s_v start2 n d | Vel0 n d => s_v0 start2 n d | Pos n d => s_x start2 n d | Pos0 n d => s_x0 start2 n d
    | Sie a p => s_sie start2 a p | Sie0 a p => s_sie0 start2 a p | Mass a p => s_mass start2 a p | _ => 0 end).
Proof.
  destruct (build_corners_ok _ _ _ _ _ mesh2_built) as (Hok & Hn & He & Hnodes & Hc). split; [exact Hok|]. split; [rewrite He; apply lay2_ok|].
  split. { intros mat Hm i j Hi Hj. unfold lay2 in *. cbn [num_mat_elems elem_in_mat] in *. destruct (Nat.eqb mat 0); [auto|lia]. }
  split. { intros n c _ Hc'. destruct (proj1 (ok_node 8 mesh2 Hok n c) Hc') as (e & l & He' & Hl & -> & _). rewrite He in He'. rewrite Hc by lia. lia. }
  split; [|constructor; reflexivity].
  unfold covers. cbn. apply (Permutation_cons_app [0;1]%nat [] 2%nat). reflexivity.
Qed.
