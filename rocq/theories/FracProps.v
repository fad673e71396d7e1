(** Properties C74 - C81: the cohesive zones (fracture) of the 3D solver. *)
From Coq Require Import Reals List Lia Lra.
From Verif Require Import BaseArr BaseReal FracModel FracSpec FracProofs FracMore FracForce FracExamples.
Import ListNotations.
Open Scope R_scope.

(** ** C74: the table of pairs lists exactly the coincident pairs of boundary nodes, each once, and is never written outside *)
Theorem C74_pairs : forall (x : nat -> vec) (tol : R) (nb : nat) (bdy : nat -> nat),
  exists t idx,
    overlapping_pairs x tol nb bdy = Some (t, length idx) /\ nrow t = length idx /\ ncol t = 2%nat /\ NoDup idx /\
    (forall i j, In (i, j) idx <-> (i < j /\ j < nb)%nat /\ coincident x tol (bdy i) (bdy j)) /\
    (forall p, (p < length idx)%nat ->
       aget t p 0 = Some (bdy (fst (nth p idx (O, O)))) /\ aget t p 1 = Some (bdy (snd (nth p idx (O, O))))).
Proof. exact pairs_spec. Qed.
Print Assumptions C74_pairs.

(** every element of either node of a pair has one of the slots *)
Theorem C74_slots : forall (elems_in_node : nat -> list nat) (pairs : list (nat * nat)) a b e,
  In (a, b) pairs ->
  let mx := elem_count elems_in_node pairs in
  (In e (elems_in_node a) -> exists s, (s < mx)%nat /\ slot_elem elems_in_node mx a s = Some e) /\
  (In e (elems_in_node b) -> exists s, (s < mx)%nat /\ slot_elem elems_in_node mx b s = Some e).
Proof.
  intros elems pairs a b e P mx. destruct (elem_count_in elems pairs a b P) as [A B]. fold mx in A, B.
  assert (G : forall n, (length (elems n) <= mx)%nat -> In e (elems n) -> exists s, (s < mx)%nat /\ slot_elem elems mx n s = Some e).
  { intros n L I. apply In_nth_error in I. destruct I as [s S]. assert (s < length (elems n))%nat by (apply nth_error_Some; congruence).
    exists s. split; [lia|]. unfold slot_elem. replace (Nat.ltb s mx) with true by (symmetry; apply Nat.ltb_lt; lia). exact S. }
  split; apply G; assumption.
Qed.
Print Assumptions C74_slots.

(** three nodes at one point and one elsewhere: three pairs *)
Example C74_ex : let x := fun n : nat => fun _ : nat => if Nat.eqb n 5 then 1 else 0 in
  coincident x 1e-8 2 9 /\ ~ coincident x 1e-8 2 5.
Proof.
  cbv zeta. split.
  - intros k _. cbn [Nat.eqb]. replace (0 - 0) with 0 by ring. rewrite Rabs_R0. lra.
  - intros H. specialize (H 0%nat ltac:(lia)). cbn [Nat.eqb] in H. rewrite Rabs_left in H by lra. lra.
Qed.

(** ** C75: the faces recorded for a pair of nodes *)
Theorem C75_matches : forall x elems_in_node nodes_in_elem tol mx nodeA nodeB,
  let m := match_faces x elems_in_node nodes_in_elem tol mx nodeA nodeB in
  exists partner : nat -> option nat,
    (forall s, (exists f, fst m s = Some f) <-> exists s', partner s = Some s') /\
    (forall s', (exists f, snd m s' = Some f) <-> exists s, partner s = Some s') /\
    (forall s1 s2 s', partner s1 = Some s' -> partner s2 = Some s' -> s1 = s2) /\
    (forall s s', partner s = Some s' -> (s < mx)%nat /\
       exists a b fA fB, slot_elem elems_in_node mx nodeA s = Some a /\ slot_elem elems_in_node mx nodeB s' = Some b /\
         fst m s = Some fA /\ snd m s' = Some fB /\
         corner_of (nodes_in_elem a) fA nodeA /\ corner_of (nodes_in_elem b) fB nodeB /\
         facing x (nodes_in_elem a) (nodes_in_elem b) tol fA fB).
Proof.
  intros x elems nodes tol mx nodeA nodeB m. destruct (match_faces_inv x elems nodes tol mx nodeA nodeB) as (P & H1 & H2 & H3 & H4).
  exists P. split; [exact H1|]. split; [exact H2|]. split; [exact H4|exact H3].
Qed.
Print Assumptions C75_matches.

(** two elements left without a partner have no faces facing each other at the pair's nodes *)
Theorem C75_complete_partial : forall x elems_in_node nodes_in_elem tol mx nodeA nodeB s s' a b fA fB,
  let m := match_faces x elems_in_node nodes_in_elem tol mx nodeA nodeB in
  (forall e k k', (k < 8)%nat -> (k' < 8)%nat -> nodes_in_elem e k = nodes_in_elem e k' -> k = k') ->
  slot_elem elems_in_node mx nodeA s = Some a -> slot_elem elems_in_node mx nodeB s' = Some b ->
  fst m s = None -> snd m s' = None ->
  corner_of (nodes_in_elem a) fA nodeA -> corner_of (nodes_in_elem b) fB nodeB ->
  ~ facing x (nodes_in_elem a) (nodes_in_elem b) tol fA fB.
Proof.
  intros x elems nodes tol mx nodeA nodeB s s' a b fA fB m INJ EA EB MA MB CA CB.
  assert (G : forall e f g, corner_of (nodes e) f g -> exists k, find_corner nodes e g = Some k /\ In f (three_faces k)).
  { intros e f g (fc & c & F & I & E). assert (c < 8)%nat.
    { destruct f as [|[|[|[|[|[|f]]]]]]; inversion F; subst fc; cbn in I; lia. }
    destruct (find_corner_ex nodes e g) as [k K]; [exists c; tauto|]. exists k. split; [exact K|]. apply find_corner_spec in K.
    assert (k = c) by (apply (INJ e); [tauto|assumption|destruct K; congruence]). subst k. eapply corner_three_faces; eassumption. }
  exact (match_maximal x elems nodes tol mx nodeA nodeB s s' a b fA fB EA EB MA MB (G a fA nodeA CA) (G b fB nodeB CB)).
Qed.
Print Assumptions C75_complete_partial.

(** but where the interface has a corner, one of the two faces of the element is not recorded *)
Theorem C75_complete_refuted : ~ (forall x elems_in_node nodes_in_elem tol mx nodeA nodeB a b fA fB,
  (forall e k k', (k < 8)%nat -> (k' < 8)%nat -> nodes_in_elem e k = nodes_in_elem e k' -> k = k') ->
  (length (elems_in_node nodeA) <= mx)%nat -> (length (elems_in_node nodeB) <= mx)%nat ->
  NoDup (elems_in_node nodeA) -> NoDup (elems_in_node nodeB) ->
  In a (elems_in_node nodeA) -> In b (elems_in_node nodeB) ->
  corner_of (nodes_in_elem a) fA nodeA -> corner_of (nodes_in_elem b) fB nodeB ->
  facing x (nodes_in_elem a) (nodes_in_elem b) tol fA fB ->
  exists s, slot_elem elems_in_node mx nodeA s = Some a /\ fst (match_faces x elems_in_node nodes_in_elem tol mx nodeA nodeB) s = Some fA).
Proof.
  intros H.
  assert (INJ : forall e k k', (k < 8)%nat -> (k' < 8)%nat -> ell_nodes e k = ell_nodes e k' -> k = k').
  { intros e k k' K K'. unfold ell_nodes. destruct e as [|[|e]]; [auto|lia|].
    destruct k as [|[|[|[|[|[|k]]]]]]; destruct k' as [|[|[|[|[|[|k']]]]]]; lia. }
  assert (NA : NoDup (ell_elems 3)) by (repeat constructor; cbn; tauto).
  assert (NB : NoDup (ell_elems 10)) by (repeat constructor; cbn; lia).
  destruct (H ell_x ell_elems ell_nodes 1e-8 2%nat 3%nat 10%nat 0%nat 1%nat 1%nat 0%nat INJ) as [s1 [E1 F1]]; try assumption; try (cbn; lia).
  { exists [1; 3; 7; 5]%nat, 3%nat. repeat split; cbn; tauto. }
  { exists [0; 4; 6; 2]%nat, 2%nat. repeat split; cbn; tauto. }
  { exact ell_facing_1. }
  destruct (H ell_x ell_elems ell_nodes 1e-8 2%nat 3%nat 10%nat 0%nat 2%nat 3%nat 2%nat INJ) as [s2 [E2 F2]]; try assumption; try (cbn; lia).
  { exists [3; 2; 6; 7]%nat, 3%nat. repeat split; cbn; tauto. }
  { exists [0; 1; 5; 4]%nat, 1%nat. repeat split; cbn; tauto. }
  { exact ell_facing_2. }
  assert (Z : forall s, slot_elem ell_elems 2 3 s = Some 0%nat -> s = 0%nat).
  { intros s. unfold slot_elem. destruct (Nat.ltb s 2); [|discriminate]. destruct s as [|[|s]]; [reflexivity|discriminate|discriminate]. }
  rewrite (Z s1 E1) in F1. rewrite (Z s2 E2) in F2. rewrite F1 in F2. discriminate.
Qed.
Print Assumptions C75_complete_refuted.

Example C75_ex : facing ell_x (ell_nodes 0) (ell_nodes 1) 1e-8 1 0 /\ corner_of (ell_nodes 0) 1 3 /\ corner_of (ell_nodes 1) 0 10.
Proof.
  split; [exact ell_facing_1|]. split.
  - exists [1; 3; 7; 5]%nat, 3%nat. repeat split; cbn; tauto.
  - exists [0; 4; 6; 2]%nat, 2%nat. repeat split; cbn; tauto.
Qed.

(** ** C76: the opening of a pair *)
(** normal and tangential openings make up the separation, now and as predicted *)
Theorem C76_parts : forall xA xB vA vB n dt, unit_vec n ->
  let o := ucmap xA xB vA vB n dt in
  let u := vminus xB xA in let u' := vminus (vplus xB (vscale dt vB)) (vplus xA (vscale dt vA)) in
  un_t o = vdot u n /\ 0 <= ut_t o /\ un_t o * un_t o + ut_t o * ut_t o = vdot u u /\
  un_tdt o = vdot u' n /\ 0 <= ut_tdt o /\ un_tdt o * un_tdt o + ut_tdt o * ut_tdt o = vdot u' u'.
Proof.
  intros xA xB vA vB n dt U. cbv zeta. rewrite ucmap_eq. cbn [un_t ut_t un_tdt ut_tdt].
  rewrite (along_across _ n U), (along_across _ n U). split; [reflexivity|]. split; [apply vmag_nonneg|]. split; [reflexivity|].
  split; [unfold along; apply vdot_ext; [intros k K; unfold vplus, vminus, vscale; ring|intros k K; reflexivity]|].
  split; [apply vmag_nonneg|]. apply vdot_ext; intros k K; unfold vplus, vminus, vscale; ring.
Qed.
Print Assumptions C76_parts.

(** it does not depend on the observer: rotated axes, another origin, a moving frame *)
Theorem C76_frame : forall Q c w xA xB vA vB n dt, orthonormal Q ->
  ucmap (vplus (turn Q xA) c) (vplus (turn Q xB) c) (vplus (turn Q vA) w) (vplus (turn Q vB) w) (turn Q n) dt = ucmap xA xB vA vB n dt.
Proof. intros. apply ucmap_frame. assumption. Qed.
Print Assumptions C76_frame.

(** a pair carried along without relative motion is predicted to stay as it is, and its damage does not grow *)
Theorem C76_translation : forall xA xB vA vB n dt P N v, same3 vA vB -> c_alpha v <= 1 ->
  let o := ucmap xA xB vA vB n dt in
  un_tdt o = un_t o /\ ut_tdt o = ut_t o /\ c_alpha (cz_step P N dt (fun _ => o) v) = c_alpha v.
Proof.
  intros xA xB vA vB n dt P N v E V. cbv zeta. rewrite ucmap_eq. cbn [un_t ut_t un_tdt ut_tdt].
  set (u := vminus xB xA). set (u' := vplus u (vscale dt (vminus vB vA))).
  assert (S : same3 u' u) by (intros k K; unfold u', vplus, vscale, vminus at 1; rewrite (E k K); ring).
  assert (A : along u' n = along u n) by (unfold along; apply vdot_ext; [exact S|intros k K; reflexivity]).
  assert (X : vmag (across u' n) = vmag (across u n)) by (apply vmag_ext; intros k K; unfold across; fold (along u' n); fold (along u n); rewrite A, (S k K); reflexivity).
  split; [exact A|]. split; [exact X|]. rewrite A, X.
  destruct N as [|m]; [reflexivity|]. rewrite step_last by lia. cbn [commit c_alpha].
  set (o := mkOpening _ _ _ _).
  destruct (alpha_cases P dt o v) as [(D & U1 & U2)|Z]; [|rewrite Z; ring].
  rewrite (update_alpha _ _ _ _ _ D U1 U2).
  assert (G : growth P dt o = 0) by (unfold growth, o; cbn [un_t ut_t un_tdt ut_tdt]; destruct (Rlt_dec _ _); [lra|reflexivity]).
  rewrite G. destruct (Rlt_dec 1 (c_alpha v + 0)); lra.
Qed.
Print Assumptions C76_translation.

(** a pair that only rotates about its own A node is predicted to open, by exactly the tangent of the arc *)
Theorem C76_spin : forall xA xB vA vB n dt w, unit_vec n -> same3 (vminus vB vA) (vcross w (vminus xB xA)) ->
  let o := ucmap xA xB vA vB n dt in let u := vminus xB xA in
  un_tdt o * un_tdt o + ut_tdt o * ut_tdt o = un_t o * un_t o + ut_t o * ut_t o + dt * dt * vdot (vcross w u) (vcross w u).
Proof.
  intros xA xB vA vB n dt w U E. cbv zeta. rewrite ucmap_eq. cbn [un_t ut_t un_tdt ut_tdt].
  rewrite !(along_across _ n U). rewrite <- spin_sq.
  apply vdot_ext; intros k K; unfold vplus, vscale; rewrite (E k K); reflexivity.
Qed.
Print Assumptions C76_spin.

Definition e_x : vec := axis 0 1.
Lemma e_x_unit : unit_vec e_x. Proof. unfold unit_vec, vdot, e_x, axis. cbn [Nat.eqb]. ring. Qed.
Definition plain : czpar := mkPar 1 1 1 1 1 [].

(** so a rigid rotation of an open pair damages it *)
Theorem C76_spin_refuted : ~ (forall P N v xA xB vA vB n dt w, sane P -> unit_vec n -> 0 <= c_alpha v <= 1 ->
  same3 (vminus vB vA) (vcross w (vminus xB xA)) ->
  c_alpha (cz_step P N dt (fun _ => ucmap xA xB vA vB n dt) v) = c_alpha v).
Proof.
  intros H. specialize (H plain 1%nat (cz_zero plain) vzero (axis 0 1) vzero (axis 1 1) e_x 1 (axis 2 1)).
  assert (S : sane plain) by (unfold sane, plain; cbn; lra). specialize (H S e_x_unit ltac:(cbn; lra)).
  assert (V : same3 (vminus (axis 1 1) vzero) (vcross (axis 2 1) (vminus (axis 0 1) vzero))).
  { intros k K. destruct k as [|[|[|k]]]; [| | |lia]; unfold vminus, vcross, axis, vzero; cbn [Nat.eqb]; ring. }
  specialize (H V). rewrite step_last in H by lia. cbn [commit c_alpha cz_zero] in H.
  set (o := ucmap _ _ _ _ _ _) in H.
  assert (Q := C76_spin vzero (axis 0 1) vzero (axis 1 1) e_x 1 (axis 2 1) e_x_unit V). cbv zeta in Q. fold o in Q.
  rewrite (update_alpha plain 1 o _ _ ltac:(lra)) in H; [|cbn; lra|cbn; lra].
  change (c_alpha (cz_zero plain)) with 0 in H.
  assert (G : 0 < growth plain 1 o).
  { clear H. unfold growth. destruct (Rlt_dec (lambda plain (un_t o) (ut_t o)) (lambda plain (un_tdt o) (ut_tdt o))) as [L|L].
    - replace (a1 plain) with 1 by reflexivity. unfold Rpower. rewrite Rmult_1_l, Rmult_1_r. apply exp_pos.
    - exfalso. apply L. unfold lambda. cbn [u_n_star u_t_star plain].
      assert (D : forall y, y / 1 * (y / 1) = y * y) by (intros; field). rewrite !D. rewrite Q.
      apply sqrt_lt_1_alt. pose proof (Rle_0_sqr (un_t o)). pose proof (Rle_0_sqr (ut_t o)). unfold Rsqr in *.
      unfold vdot, vcross, vminus, axis, vzero. cbn [Nat.eqb]. lra. }
  destruct (Rlt_dec 1 (0 + growth plain 1 o)); lra.
Qed.
Print Assumptions C76_spin_refuted.

Example C76_ex : let o := ucmap vzero (axis 0 1) vzero (axis 1 2) e_x 1 in unit_vec e_x /\ un_t o = 1 /\ un_tdt o = 1.
Proof. cbv zeta. split; [exact e_x_unit|]. unfold ucmap, e_x, vdot, axis, vzero. cbn [un_t un_tdt Nat.eqb]. split; ring. Qed.

(** ** C77: damage *)
(** for every history of motions and time steps damage stays between 0 and 1 and never heals *)
Theorem C77_damage : forall P N (cycles more : list (R * (nat -> opening))), 0 <= a1 P ->
  let v := cz_run P N cycles (cz_zero P) in let w := cz_run P N (cycles ++ more) (cz_zero P) in
  0 <= c_alpha v <= 1 /\ c_alpha v <= c_alpha w <= 1.
Proof.
  intros P N l m A. cbv zeta. destruct (run_alpha P N l (cz_zero P) A) as [H1 H2]; [cbn; lra|]. cbn [cz_zero c_alpha] in H1.
  split; [lra|]. rewrite run_app. apply run_alpha; [exact A|lra].
Qed.
Print Assumptions C77_damage.

(** it grows only while the effective opening grows, by the law's rate, up to 1 *)
Theorem C77_growth : forall P N dt o v, (1 <= N)%nat -> 0 < dt -> u_n_star P <> 0 -> u_t_star P <> 0 -> 0 <= c_alpha v <= 1 ->
  let s := o (N - 1)%nat in
  let before := sqrt ((un_t s / u_n_star P) ^ 2 + (ut_t s / u_t_star P) ^ 2) in
  let after := sqrt ((un_tdt s / u_n_star P) ^ 2 + (ut_tdt s / u_t_star P) ^ 2) in
  (after <= before -> c_alpha (cz_step P N dt o v) = c_alpha v) /\
  (before < after -> c_alpha (cz_step P N dt o v) = Rmin 1 (c_alpha v + a1 P * Rpower ((before + after) / 2) (n_exp P) * dt)).
Proof.
  intros P N dt o v N1 D U1 U2 V. cbv zeta. rewrite step_last by exact N1. cbn [commit c_alpha]. rewrite (update_alpha _ _ _ _ _ D U1 U2).
  set (s := o (N - 1)%nat). unfold growth.
  assert (E : forall a b, sqrt ((a / u_n_star P) ^ 2 + (b / u_t_star P) ^ 2) = lambda P a b) by (intros; unfold lambda; f_equal; ring).
  rewrite !E. split; intros L; destruct (Rlt_dec (lambda P (un_t s) (ut_t s)) (lambda P (un_tdt s) (ut_tdt s))); try lra.
  - destruct (Rlt_dec 1 (c_alpha v + 0)); lra.
  - rewrite (Rplus_comm (lambda P (un_t s) (ut_t s))).
    set (g := a1 P * _ * dt). unfold Rmin. destruct (Rlt_dec 1 (c_alpha v + g)); destruct (Rle_dec 1 (c_alpha v + g)); lra.
Qed.
Print Assumptions C77_growth.

(** the stages before the last leave no trace *)
Theorem C77_last_stage : forall P N (l l' : list (R * (nat -> opening))) v, (1 <= N)%nat ->
  map (fun c => (fst c, last_seen N c)) l = map (fun c => (fst c, last_seen N c)) l' -> cz_run P N l v = cz_run P N l' v.
Proof.
  intros P N l. induction l as [|[dt o] l IH]; intros [|[dt' o'] l'] v N1 E; try discriminate; [reflexivity|].
  cbn [map fst] in E. unfold last_seen in E at 1 3. cbn [snd] in E. inversion E. rewrite !run_cons, !step_last by exact N1. subst dt'.
  rewrite H1. apply IH; [exact N1|]. assumption.
Qed.
Print Assumptions C77_last_stage.

(** being pressed together counts as opening *)
Theorem C77_compression_refuted : ~ (forall P N dt o v, sane P -> (1 <= N)%nat -> 0 < dt -> 0 <= c_alpha v <= 1 ->
  (forall k, un_tdt (o k) < 0 /\ un_t (o k) <= 0 /\ ut_t (o k) = 0 /\ ut_tdt (o k) = 0) -> c_alpha (cz_step P N dt o v) = c_alpha v).
Proof.
  intros H. specialize (H plain 1%nat 1 (fun _ => mkOpening 0 0 (-1) 0) (cz_zero plain)).
  specialize (H ltac:(unfold sane, plain; cbn; lra) ltac:(lia) ltac:(lra) ltac:(cbn; lra) ltac:(intros; cbn; lra)).
  destruct (C77_growth plain 1 1 (fun _ => mkOpening 0 0 (-1) 0) (cz_zero plain)) as [_ G];
    [lia|lra|cbn; lra|cbn; lra|cbn; lra|]. cbv beta zeta in G. cbn [un_t ut_t un_tdt ut_tdt u_n_star u_t_star plain] in G.
  replace ((0 / 1) ^ 2 + (0 / 1) ^ 2) with 0 in G by field. replace ((-1 / 1) ^ 2 + (0 / 1) ^ 2) with 1 in G by field.
  rewrite sqrt_0, sqrt_1 in G. specialize (G ltac:(lra)). rewrite H in G. cbn [c_alpha cz_zero a1 n_exp plain] in G.
  rewrite Rpower_1 in G by lra. unfold Rmin in G. destruct (Rle_dec _ _); lra.
Qed.
Print Assumptions C77_compression_refuted.

Example C77_ex : sane plain /\ c_alpha (cz_zero plain) = 0.
Proof. unfold sane, plain. cbn. lra. Qed.

(** ** C78: tractions *)
(** without Prony terms, for histories whose openings join up, the traction is the one of the law at the current damage *)
Theorem C78_law_partial : forall P N cycles un ut, sane P -> prony P = [] -> (1 <= N)%nat ->
  (forall c, In c cycles -> 0 < fst c) -> joined N 0 0 cycles un ut ->
  let v := cz_run P N cycles (cz_zero P) in
  c_Tn v = E_inf P * (1 - c_alpha v) * (un / u_n_star P) /\ c_Tt v = E_inf P * (1 - c_alpha v) * (ut / u_t_star P).
Proof.
  intros P N l un ut S PR N1 D J. cbv zeta. destruct (plain_law P N l 0 0 un ut (cz_zero P) S PR N1 D J) as [H1 H2].
  rewrite H1, H2. cbn [cz_zero c_Tn c_Tt]. destruct S as (_ & UN & UT). split; field; lra.
Qed.
Print Assumptions C78_law_partial.

(** in particular a failed pair carries none *)
Theorem C78_failed_partial : forall P N cycles un ut, sane P -> prony P = [] -> (1 <= N)%nat ->
  (forall c, In c cycles -> 0 < fst c) -> joined N 0 0 cycles un ut ->
  let v := cz_run P N cycles (cz_zero P) in c_alpha v = 1 -> c_Tn v = 0 /\ c_Tt v = 0.
Proof.
  intros P N l un ut S PR N1 D J v F. destruct (C78_law_partial P N l un ut S PR N1 D J) as [H1 H2]. fold v in H1, H2.
  rewrite H1, H2, F. split; ring.
Qed.
Print Assumptions C78_failed_partial.

(** once failed, whatever traction is left stays for ever, for all parameters and motions *)
Theorem C78_frozen : forall P N cycles v, 0 <= a1 P -> c_alpha v = 1 ->
  let w := cz_run P N cycles v in c_alpha w = 1 /\ c_Tn w = c_Tn v /\ c_Tt w = c_Tt v.
Proof. intros P N l v A V. exact (failed_frozen P N l v V A). Qed.
Print Assumptions C78_frozen.

(** the two-stage scheme with a constant time step: the pair opens steadily, and the traction is short by the opening of the first half step *)
Lemma steady_joined w dt m : forall t, 0 < dt ->
  joined 2 (w * (t + dt / 2)) 0 (steady_cycles 2 w t (repeat dt m)) (w * (t + INR m * dt + dt / 2)) 0.
Proof.
  induction m as [|m IH]; intros t D.
  - cbn [repeat steady_cycles joined INR]. split; [ring|reflexivity].
  - cbn [repeat steady_cycles joined]. unfold last_seen. cbn [snd Nat.sub steady_opening Nat.eqb].
    unfold steady_opening. cbn [Nat.eqb un_t ut_t un_tdt ut_tdt]. replace (INR 2 - INR 1 + 1) with 2 by (cbn; ring). replace (INR 2 - INR 1) with 1 by (cbn; ring).
    split; [reflexivity|]. split; [reflexivity|].
    specialize (IH (t + dt) D). rewrite S_INR.
    replace (w * (t + dt / 2 + dt / 1)) with (w * (t + dt + dt / 2)) by field.
    replace (w * (t + (INR m + 1) * dt + dt / 2)) with (w * (t + dt + INR m * dt + dt / 2)) by field. exact IH.
Qed.
Lemma steady_pos N w dts : forall t, (forall d, In d dts -> 0 < d) -> forall c, In c (steady_cycles N w t dts) -> 0 < fst c.
Proof.
  induction dts as [|d l IH]; intros t H c C; [contradiction|]. cbn [steady_cycles In] in C. destruct C as [<-|C].
  - apply H. left. reflexivity.
  - apply (IH (t + d)); [intros; apply H; right; assumption|exact C].
Qed.
Theorem C78_two_stage : forall P w dt m, sane P -> prony P = [] -> 0 < dt ->
  let v := cz_run P 2 (steady_cycles 2 w 0 (repeat dt m)) (cz_zero P) in
  c_Tn v = E_inf P * (1 - c_alpha v) * (w * (INR m * dt + dt / 2) / u_n_star P) - E_inf P * (w * (dt / 2)) / u_n_star P.
Proof.
  intros P w dt m S PR D. cbv zeta.
  destruct (plain_law P 2 (steady_cycles 2 w 0 (repeat dt m)) (w * (0 + dt / 2)) 0 (w * (0 + INR m * dt + dt / 2)) 0 (cz_zero P) S PR ltac:(lia)) as [H _].
  - apply steady_pos. intros d I. apply repeat_spec in I. lra.
  - apply steady_joined. exact D.
  - rewrite H. cbn [cz_zero c_Tn c_alpha]. destruct S as (_ & UN & _). field. lra.
Qed.
Print Assumptions C78_two_stage.

(** so a pair that opened steadily and failed is pushed apart for ever *)
Theorem C78_failed_refuted : ~ (forall P w dt dts, sane P -> prony P = [] -> 0 < w -> 0 < dt ->
  let v := cz_run P 2 (steady_cycles 2 w 0 (repeat dt dts)) (cz_zero P) in c_alpha v = 1 -> c_Tn v = 0).
Proof.
  intros H. specialize (H plain 1 1 1%nat ltac:(unfold sane, plain; cbn; lra) eq_refl ltac:(lra) ltac:(lra)). cbv zeta in H.
  pose proof (C78_two_stage plain 1 1 1%nat ltac:(unfold sane, plain; cbn; lra) eq_refl ltac:(lra)) as T. cbv zeta in T.
  set (v := cz_run plain 2 (steady_cycles 2 1 0 (repeat 1 1)) (cz_zero plain)) in *.
  assert (A : c_alpha v = 1).
  { unfold v. cbn [repeat steady_cycles cz_run fold_left].
    destruct (C77_growth plain 2 1 (steady_opening 2 1 0 1) (cz_zero plain)) as [_ G]; [lia|lra|cbn; lra|cbn; lra|cbn; lra|].
    cbv zeta in G. cbn [Nat.sub] in G.
    assert (O : steady_opening 2 1 0 1 1 = mkOpening (/ 2) 0 (3 / 2) 0).
    { unfold steady_opening. cbn [Nat.eqb]. replace (INR 2 - INR 1 + 1) with 2 by (cbn; ring). replace (INR 2 - INR 1) with 1 by (cbn; ring). f_equal; field. }
    rewrite O in G. cbn [un_t ut_t un_tdt ut_tdt u_n_star u_t_star plain] in G.
    replace ((/ 2 / 1) ^ 2 + (0 / 1) ^ 2) with (/ 2 * / 2) in G by field.
    replace ((3 / 2 / 1) ^ 2 + (0 / 1) ^ 2) with (3 / 2 * (3 / 2)) in G by field.
    rewrite !sqrt_square in G by lra. specialize (G ltac:(lra)). rewrite G. cbn [c_alpha cz_zero a1 n_exp plain].
    replace ((/ 2 + 3 / 2) / 2) with 1 by field. rewrite Rpower_1 by lra. unfold Rmin. destruct (Rle_dec _ _); lra. }
  rewrite (H A), A in T. cbn [E_inf u_n_star plain INR] in T. lra.
Qed.
Print Assumptions C78_failed_refuted.

(** with a Prony term the law is missed even when the openings join up: a failed pair keeps a traction *)
Definition viscous : czpar := mkPar 1 (1 / 2) 1 1 1 [(1, 1)].
Definition pull : list (R * (nat -> opening)) := [(1, fun _ => mkOpening 0 0 1 0); (1, fun _ => mkOpening 1 0 3 0)].
Lemma lambda_1 un : 0 <= un -> lambda viscous un 0 = un.
Proof. intros H. unfold lambda. cbn [u_n_star u_t_star viscous]. replace (un / 1 * (un / 1) + 0 / 1 * (0 / 1)) with (un * un) by field. apply sqrt_square. exact H. Qed.
Lemma guard_1 l : 0 < l -> inv_guard 1 l = / l.
Proof. intros H. unfold inv_guard. destruct (Rlt_dec 0 1); [|lra]. destruct (Rlt_dec 0 l); [|lra]. field. lra. Qed.
Lemma guard_0 : inv_guard 1 0 = 0.
Proof. unfold inv_guard. destruct (Rlt_dec 0 1); [|lra]. destruct (Rlt_dec 0 0); [lra|reflexivity]. Qed.
Lemma decay_1 : decay 1 1 = exp (-1).
Proof. unfold decay, tau_eff. destruct (Rlt_dec 0 1); [|lra]. f_equal. field. Qed.
Lemma pull_first : let e := exp (-1) in
  cz_step viscous 1 1 (fun _ => mkOpening 0 0 1 0) (cz_zero viscous) = mkVars 1 (/ 4) (3 / 4 * (2 - e * e)) 0 [1 - e].
Proof.
  cbv zeta. rewrite step_last by lia. unfold var_update, cz_zero. cbn [un_t ut_t un_tdt ut_tdt]. rewrite (lambda_1 0), (lambda_1 1) by lra.
  destruct (Rlt_dec 0 1); [|lra]. cbn [u_n_star u_t_star viscous prony a1 n_exp map c_sig c_alpha combine].
  destruct (Req_EM_T 1 0); [lra|]. replace ((1 - 0) / 1) with 1 by field. destruct (Rlt_dec 0 1); [|lra].
  replace (0.5 * (1 + 0)) with (/ 2) by lra. rewrite Rpower_1 by lra. rewrite decay_1, guard_0, (guard_1 1) by lra.
  unfold E_dt, sig_sum, sig_sum_exp, tau_eff. cbn [prony viscous E_inf fold_left combine]. rewrite decay_1. destruct (Rlt_dec 0 1); [|lra].
  destruct (Rlt_dec 1 (0 + 1 / 2 * / 2 * 1)); [lra|]. unfold commit. cbn [c_rate c_alpha c_Tn c_Tt c_sig]. set (e := exp (-1)). clearbody e.
  f_equal; [field|field|field|f_equal; ring].
Qed.
Lemma pull_second : let e := exp (-1) in let v := cz_run viscous 1 pull (cz_zero viscous) in
  c_alpha v = 1 /\ c_Tn v = 3 / 4 * (e - 1).
Proof.
  cbv zeta. unfold pull. rewrite !run_cons. rewrite pull_first. cbn [cz_run fold_left]. rewrite step_last by lia.
  unfold var_update. cbn [un_t ut_t un_tdt ut_tdt]. rewrite (lambda_1 1), (lambda_1 3) by lra.
  destruct (Rlt_dec 0 1); [|lra]. cbn [u_n_star u_t_star viscous prony a1 n_exp map c_sig c_alpha combine].
  destruct (Req_EM_T 1 0); [lra|]. replace ((3 - 1) / 1) with 2 by field. destruct (Rlt_dec 0 2); [|lra].
  replace (0.5 * (3 + 1)) with 2 by lra. rewrite Rpower_1 by lra. rewrite decay_1, (guard_1 1), (guard_1 3) by lra.
  unfold E_dt, sig_sum, sig_sum_exp, tau_eff. cbn [prony viscous E_inf fold_left combine]. rewrite decay_1. destruct (Rlt_dec 0 1); [|lra].
  destruct (Rlt_dec 1 (/ 4 + 1 / 2 * 2 * 1)); [|lra]. unfold commit. cbn [c_rate c_alpha c_Tn c_Tt c_sig]. set (e := exp (-1)). clearbody e.
  split; field.
Qed.
Theorem C78_prony_refuted : ~ (forall P N cycles un ut, sane P -> (1 <= N)%nat ->
  (forall c, In c cycles -> 0 < fst c) -> joined N 0 0 cycles un ut ->
  let v := cz_run P N cycles (cz_zero P) in c_alpha v = 1 -> c_Tn v = 0).
Proof.
  intros H. specialize (H viscous 1%nat pull 3 0 ltac:(unfold sane, viscous; cbn; lra) ltac:(lia)).
  destruct pull_second as [A T]. cbv zeta in H.
  assert (C : forall c, In c pull -> 0 < fst c) by (intros c [<-|[<-|[]]]; cbn; lra).
  specialize (H C). assert (J : joined 1 0 0 pull 3 0) by (cbn; tauto). specialize (H J A).
  rewrite T in H. assert (E : exp (-1) < 1) by (rewrite <- exp_0; apply exp_increasing; lra). lra.
Qed.
Print Assumptions C78_prony_refuted.

(** An open pair that rotates rigidly, opened along its normal by [s], whatever the steps: the tangential traction grows with the
    angle turned, although there is never any tangential opening. *)
Definition spinning (s w : R) (c : R * (nat -> opening)) : Prop :=
  exists xA xB vA vB n W, unit_vec n /\ vdot W n = 0 /\ vmag W = w /\ same3 (vminus xB xA) (vscale s n) /\
    same3 (vminus vB vA) (vcross W (vminus xB xA)) /\ forall k, snd c k = ucmap xA xB vA vB n (fst c).
Lemma spinning_opening s w c : 0 <= s -> 0 <= fst c -> spinning s w c -> forall k, snd c k = mkOpening s 0 s (s * w * fst c).
Proof.
  intros S D (xA & xB & vA & vB & n & W & U & WN & WM & X & V & E) k. rewrite E, ucmap_eq.
  assert (A : along (vminus xB xA) n = s).
  { unfold along. rewrite (vdot_ext _ _ _ _ X (fun _ _ => eq_refl)). unfold unit_vec in U.
    replace (vdot (vscale s n) n) with (s * vdot n n) by (unfold vdot, vscale; ring). rewrite U. ring. }
  assert (Z : vmag (across (vminus xB xA) n) = 0).
  { apply vmag_zero_same. intros j J. unfold across. fold (along (vminus xB xA) n). rewrite A, (X j J). unfold vscale, vzero. ring. }
  assert (VV : same3 (vminus vB vA) (vscale s (vcross W n))).
  { intros j J. rewrite (V j J). pose proof (X 0%nat ltac:(lia)) as X0. pose proof (X 1%nat ltac:(lia)) as X1. pose proof (X 2%nat ltac:(lia)) as X2.
    destruct j as [|[|[|j]]]; [| | |lia]; unfold vscale at 1; unfold vcross; rewrite ?X0, ?X1, ?X2; unfold vscale; ring. }
  set (u' := vplus (vminus xB xA) (vscale (fst c) (vminus vB vA))).
  assert (A' : along u' n = s).
  { unfold along, u'. replace (vdot (vplus (vminus xB xA) (vscale (fst c) (vminus vB vA))) n) with (along (vminus xB xA) n + fst c * vdot (vminus vB vA) n)
      by (unfold along, vdot, vplus, vscale; ring).
    rewrite A, (vdot_ext _ _ _ _ VV (fun _ _ => eq_refl)). replace (vdot (vscale s (vcross W n)) n) with 0 by (unfold vdot, vscale, vcross; ring). ring. }
  assert (T : vmag (across u' n) = s * w * fst c).
  { rewrite (vmag_ext _ (vscale (s * fst c) (vcross W n))).
    - rewrite vmag_scale. rewrite Rabs_right by (apply Rle_ge, Rmult_le_pos; assumption).
      assert (M : vmag (vcross W n) = w).
      { rewrite <- WM. unfold vmag. f_equal. replace (vdot (vcross W n) (vcross W n)) with (vdot W W * vdot n n - vdot W n * vdot W n) by (unfold vdot, vcross; ring).
        rewrite WN. unfold unit_vec in U. rewrite U. ring. }
      rewrite M. ring.
    - intros j J. unfold across. fold (along u' n). rewrite A'. unfold u', vplus, vscale at 1. rewrite (X j J), (VV j J). unfold vscale. ring. }
  rewrite A, Z, A', T. reflexivity.
Qed.
Theorem C78_spin_drift : forall P N s w cycles v, sane P -> prony P = [] -> a1 P = 0 -> (1 <= N)%nat -> 0 <= s ->
  (forall c, In c cycles -> 0 < fst c /\ spinning s w c) -> c_alpha v = 0 ->
  c_Tt (cz_run P N cycles v) = c_Tt v + E_inf P * s / u_t_star P * (w * suml fst cycles) /\ c_Tn (cz_run P N cycles v) = c_Tn v.
Proof.
  intros P N s w l. induction l as [|[dt o] l IH]; intros v SA PR A N1 S H V.
  - cbn [cz_run fold_left suml fold_right]. split; ring.
  - rewrite run_cons, suml_cons. destruct (H (dt, o) (or_introl eq_refl)) as [D SP]. cbn [fst] in D.
    pose proof (spinning_opening s w (dt, o) S ltac:(cbn; lra) SP (N - 1)%nat) as O. cbn [fst snd] in O.
    assert (U1 : u_n_star P <> 0) by (destruct SA; lra). assert (U2 : u_t_star P <> 0) by (destruct SA; lra).
    assert (S1 := step_last P N dt o v N1). rewrite O in S1.
    pose proof (update_alpha P dt (mkOpening s 0 s (s * w * dt)) v (reset_vars v) D U1 U2) as AL.
    destruct (plain_increment P dt (mkOpening s 0 s (s * w * dt)) v SA PR D) as [I1 I2]. cbn [un_t ut_t un_tdt ut_tdt] in I1, I2.
    set (d := var_update P dt (mkOpening s 0 s (s * w * dt)) v (reset_vars v)) in *.
    assert (G : growth P dt (mkOpening s 0 s (s * w * dt)) = 0) by (unfold growth; rewrite A; match goal with |- (if ?b then _ else _) = _ => destruct b end; ring).
    rewrite G, V in AL. destruct (Rlt_dec 1 (0 + 0)); [lra|]. rewrite V, AL in I1, I2.
    destruct (IH (cz_step P N dt o v) SA PR A N1 S) as [T1 T2].
    + intros c C. apply H. right. exact C.
    + rewrite S1. cbn [commit c_alpha]. lra.
    + rewrite T1, T2, S1. cbn [commit c_Tn c_Tt fst]. rewrite I1, I2. split; field; assumption.
Qed.
Print Assumptions C78_spin_drift.

Example C78_ex : sane plain /\ prony plain = [] /\ joined 1 0 0 [(1, fun _ => mkOpening 0 0 1 0); (2, fun _ => mkOpening 1 0 2 1)] 2 1.
Proof. split; [unfold sane, plain; cbn; lra|]. split; [reflexivity|]. cbn. tauto. Qed.
Example C78_spin_ex : spinning 2 3 (1, fun _ => ucmap vzero (vscale 2 (axis 0 1)) vzero (vcross (axis 2 3) (vscale 2 (axis 0 1))) (axis 0 1) 1).
Proof.
  exists vzero, (vscale 2 (axis 0 1)), vzero, (vcross (axis 2 3) (vscale 2 (axis 0 1))), (axis 0 1), (axis 2 3).
  split; [exact e_x_unit|]. split; [unfold vdot, axis; cbn [Nat.eqb]; ring|]. split.
  - unfold vmag, vdot, axis. cbn [Nat.eqb]. replace (0 * 0 + 0 * 0 + 3 * 3) with (3 * 3) by ring. apply sqrt_square. lra.
  - split; [intros k K; unfold vminus, vzero; ring|]. split; [|reflexivity].
    intros k K. destruct k as [|[|[|k]]]; [| | |lia]; unfold vminus, vzero, vcross, vscale, axis; cbn [Nat.eqb]; ring.
Qed.

(** ** C79: forces *)
(** they add up to nothing, and only nodes of pairs feel them *)
Theorem C79_momentum : forall nnodes x nodes_in_elem rows force k,
  let F := loads nnodes x nodes_in_elem rows in
  sumn nnodes (fun n => F n k) = 0 /\
  sumn nnodes (fun n => add_forces nnodes force F n k) = sumn nnodes (fun n => force n k) /\
  forall n, (forall gA gB f v d, In (gA, gB, f, v, d) rows -> n <> gA /\ n <> gB) -> add_forces nnodes force F n k = force n k.
Proof.
  intros nn x nodes rows force k. cbv zeta. split; [apply loads_total|]. split.
  - rewrite (sumn_ext nn _ (fun n => force n k + loads nn x nodes rows n k)).
    + rewrite sumn_plus, loads_total. ring.
    + intros n N. unfold add_forces. replace (Nat.ltb n nn) with true by (symmetry; apply Nat.ltb_lt; exact N). reflexivity.
  - intros n H. unfold add_forces. rewrite (loads_other nn x nodes rows n k H). destruct (Nat.ltb n nn); ring.
Qed.
Print Assumptions C79_momentum.

(** the force on node A against the separation from A to B: area times (normal traction times normal opening plus the same tangentially) *)
Theorem C79_resist : forall x n area Tn Tt gA gB, 0 < area -> unit_vec n ->
  let o := ucmap (x gA) (x gB) vzero vzero n 0 in
  vdot (pair_force x n area Tn Tt gA gB) (vminus (x gB) (x gA)) = area * (Tn * un_t o + Tt * ut_t o).
Proof. intros x n area Tn Tt gA gB A U. cbv zeta. rewrite ucmap_eq. cbn [un_t ut_t]. apply pair_work; assumption. Qed.
Print Assumptions C79_resist.

(** with equal stiffness in both directions the force points along the separation, whatever the normal: no torque *)
Theorem C79_aligned_partial : forall x n area c gA gB, 0 < area ->
  let o := ucmap (x gA) (x gB) vzero vzero n 0 in let d := vminus (x gB) (x gA) in
  let f := pair_force x n area (c * un_t o) (c * ut_t o) gA gB in
  same3 f (vscale (c * area) d) /\ same3 (vcross d f) vzero.
Proof.
  intros x n area c gA gB A. cbv zeta. rewrite ucmap_eq. cbn [un_t ut_t].
  assert (E : same3 (pair_force x n area (c * along (vminus (x gB) (x gA)) n) (c * vmag (across (vminus (x gB) (x gA)) n)) gA gB)
                    (vscale (c * area) (vminus (x gB) (x gA)))) by (intros k K; apply pair_aligned; assumption).
  split; [exact E|]. intros k K. pose proof (E 0%nat ltac:(lia)) as E0. pose proof (E 1%nat ltac:(lia)) as E1. pose proof (E 2%nat ltac:(lia)) as E2.
  destruct k as [|[|[|k]]]; [| | |lia]; unfold vcross; rewrite ?E0, ?E1, ?E2; unfold vscale, vzero; ring.
Qed.
Print Assumptions C79_aligned_partial.

(** with different stiffnesses the pair of forces turns the body *)
Theorem C79_torque_refuted : ~ (forall x n area cn ct gA gB, 0 < area -> unit_vec n -> 0 < cn -> 0 < ct ->
  let o := ucmap (x gA) (x gB) vzero vzero n 0 in
  same3 (vcross (vminus (x gB) (x gA)) (pair_force x n area (cn * un_t o) (ct * ut_t o) gA gB)) vzero).
Proof.
  intros H. pose (x := fun g : nat => fun k : nat => if Nat.eqb g 1 then (match k with 0%nat => 1 | 1%nat => 1 | _ => 0 end) else 0).
  specialize (H x e_x 1 1 2 0%nat 1%nat ltac:(lra) e_x_unit ltac:(lra) ltac:(lra) 2%nat ltac:(lia)). cbv zeta in H.
  rewrite ucmap_eq in H. cbn [un_t ut_t] in H.
  set (d := vminus (x 1%nat) (x 0%nat)) in *.
  assert (A : along d e_x = 1) by (unfold along, d, vminus, vdot, e_x, axis, x; cbn [Nat.eqb]; ring).
  assert (T : forall k, (k < 3)%nat -> across d e_x k = axis 1 1 k).
  { intros k K. unfold across. fold (along d e_x). rewrite A. destruct k as [|[|[|k]]]; [| | |lia]; unfold d, vminus, e_x, axis, x; cbn [Nat.eqb]; ring. }
  assert (M : vmag (across d e_x) = 1).
  { rewrite (vmag_ext _ _ T). unfold vmag, vdot, axis. cbn [Nat.eqb]. replace (0 * 0 + 1 * 1 + 0 * 0) with 1 by ring. apply sqrt_1. }
  rewrite A, M in H. unfold vcross in H. rewrite !(pair_force_tan _ _ _ _ _ _ _ _ Rlt_0_1) in H. fold d in H.
  assert (TG : forall k, (k < 3)%nat -> tangent d e_x k = axis 1 1 k).
  { intros k K. rewrite <- (T k K), <- (tangent_mag d e_x k K), M. ring. }
  rewrite !TG in H by lia. unfold vzero, d, vminus, x, e_x, axis in H. cbn [Nat.eqb] in H. lra.
Qed.
Print Assumptions C79_torque_refuted.

(** the area of a planar convex face is exact, on each of the six faces *)
Theorem C79_area : forall x f fc, face_corners f = Some fc ->
  planar_convex (fun a => x (nth a fc O)) -> area_face x f = quad_area (fun a => x (nth a fc O)).
Proof. intros x f fc F C. exact (area_face_exact x f fc F C). Qed.
Print Assumptions C79_area.

(** the normal used for a pair is the same at both ends of the step, and has length 1 unless there is none *)
Theorem C79_normal : forall x nodes_in_elem faces, let '(nt, ndt) := oriented x nodes_in_elem faces in
  same3 nt ndt /\ (unit_vec nt \/ same3 nt vzero).
Proof. exact oriented_spec. Qed.
Print Assumptions C79_normal.

(** a pair carries a quarter of the area of each of its matched faces *)
Theorem C79_share : forall x nodes_in_elem faces,
  (forall e f, In (e, f) faces -> exists fc, face_corners f = Some fc /\ planar_convex (fun a => x (nodes_in_elem e (nth a fc O)))) ->
  pair_area x nodes_in_elem faces =
  suml (fun '(e, f) => match face_corners f with
                       | Some fc => quad_area (fun a => x (nodes_in_elem e (nth a fc O))) / 4 | None => 0 end) faces.
Proof. exact pair_area_exact. Qed.
Print Assumptions C79_share.

(** the normal of a face that is not degenerate is the unit vector of the cross product of its diagonals, to 1e-13 in each component *)
Theorem C79_face_normal : forall x nodes f fc N A, face_corners f = Some fc -> unit_vec N -> 0 < A ->
  let p := fun a => x (nodes (nth a fc O)) in
  same3 (vcross (vminus (p 2%nat) (p 0%nat)) (vminus (p 3%nat) (p 1%nat))) (vscale A N) ->
  ~ same3 (f_n (face_geometry x nodes f)) vzero ->
  forall k, (k < 3)%nat -> Rabs (f_n (face_geometry x nodes f) k - N k) < 1e-13.
Proof. exact face_normal_exact. Qed.
Print Assumptions C79_face_normal.

(** the normal of a pair points along the sum of the normals of its matched faces *)
Theorem C79_direction : forall x nodes_in_elem faces,
  let s := fun d => suml (fun '(e, f) => f_n (face_geometry x (nodes_in_elem e) f) d) faces in
  ~ same3 s vzero -> exists c, 0 < c /\ same3 (fst (oriented x nodes_in_elem faces)) (vscale c s).
Proof. exact oriented_direction. Qed.
Print Assumptions C79_direction.

Definition square (a : nat) : vec := fun k =>
  match a, k with 1%nat, 0%nat => 2 | 2%nat, 0%nat => 2 | 2%nat, 1%nat => 1 | 3%nat, 1%nat => 1 | _, _ => 0 end.
Example C79_ex : planar_convex square /\ quad_area square = 2.
Proof.
  split.
  - exists (axis 2 1), (fun _ => 2). split; [unfold unit_vec, vdot, axis; cbn [Nat.eqb]; ring|]. split; [intros; lra|].
    intros i I k K. destruct i as [|[|[|[|i]]]]; [| | | |lia]; destruct k as [|[|[|k]]]; try lia;
    unfold vcross, vminus, vscale, axis, square; cbn [Nat.eqb Nat.add Nat.modulo Nat.divmod Nat.sub fst snd]; ring.
  - unfold quad_area. rewrite (vmag_ext _ (vscale 4 (axis 2 1))).
    + rewrite vmag_scale, Rabs_right by lra. unfold vmag, vdot, axis. cbn [Nat.eqb]. replace (0 * 0 + 0 * 0 + 1 * 1) with 1 by ring. rewrite sqrt_1. lra.
    + intros k K. destruct k as [|[|[|k]]]; try lia; unfold vcross, vminus, vscale, axis, square; cbn [Nat.eqb]; ring.
Qed.

(** ** C80: the prescribed motion of the reorientation mode *)
Theorem C80_motion : forall oy oz rate X0 flag t dt, dt <> 0 ->
  let x n := fst (reorient oy oz rate X0 flag t dt n) in let v n := snd (reorient oy oz rate X0 flag t dt n) in
  (* each side moves rigidly *)
  (forall a b, flag a = flag b ->
     vdot (vminus (x a) (x b)) (vminus (x a) (x b)) = vdot (vminus (X0 a) (X0 b)) (vminus (X0 a) (X0 b))) /\
  (* a pair opens along a unit normal by rate * t *)
  (exists n, unit_vec n /\ forall a b, flag a = false -> flag b = true -> same3 (X0 a) (X0 b) ->
     same3 (vminus (x b) (x a)) (vscale (rate * t) n)) /\
  (* the velocity carries every node exactly to its position at the end of the step *)
  (forall a k, x a k + dt * v a k = fst (reorient oy oz rate X0 flag (t + dt) dt a) k).
Proof.
  intros oy oz rate X0 flag t dt D. cbv zeta. unfold reorient. cbn [fst snd]. split; [|split].
  - intros a b E. apply rigid_distance. exact E.
  - exists (normal_at oy oz t). split; [apply normal_unit|]. intros a b A B E. apply opening_motion; assumption.
  - intros a k. exact (velocity_exact oy oz rate X0 flag t dt a k D).
Qed.
Print Assumptions C80_motion.

(** which nodes move with the B side *)
Theorem C80_sides : forall ne nn nodes_in_elem X0 x_int g,
  b_side_flags ne nn nodes_in_elem X0 x_int g = true <->
  exists e a, (e < ne)%nat /\ (a < nn)%nat /\ nodes_in_elem e a = g /\ x_int < sumn nn (fun a => X0 (nodes_in_elem e a) 0%nat) / INR nn.
Proof. exact flags_spec. Qed.
Print Assumptions C80_sides.

(** with one characteristic length the effective opening is that of the prescribed separation, whatever the rotation *)
Theorem C80_opening_partial : forall P oy oz rate X0 flag t dt a b n, dt <> 0 -> unit_vec n -> 0 < u_n_star P -> u_t_star P = u_n_star P ->
  flag a = false -> flag b = true -> same3 (X0 a) (X0 b) ->
  let x n := fst (reorient oy oz rate X0 flag t dt n) in let v n := snd (reorient oy oz rate X0 flag t dt n) in
  let o := ucmap (x a) (x b) (v a) (v b) n dt in
  lambda P (un_t o) (ut_t o) = Rabs (rate * t) / u_n_star P /\ lambda P (un_tdt o) (ut_tdt o) = Rabs (rate * (t + dt)) / u_n_star P.
Proof.
  intros P oy oz rate X0 flag t dt a b n D U UN UT A B E. cbv zeta. unfold reorient. cbn [fst snd]. rewrite ucmap_eq. cbn [un_t ut_t un_tdt ut_tdt].
  assert (L : forall u, lambda P (along u n) (vmag (across u n)) = sqrt (vdot u u) / u_n_star P).
  { intros u. unfold lambda. rewrite UT. rewrite <- (along_across u n U).
    replace (along u n / u_n_star P * (along u n / u_n_star P) + vmag (across u n) / u_n_star P * (vmag (across u n) / u_n_star P))
      with ((along u n * along u n + vmag (across u n) * vmag (across u n)) / (u_n_star P * u_n_star P)) by (field; lra).
    rewrite sqrt_div_alt by (apply Rmult_lt_0_compat; exact UN). rewrite sqrt_square by lra. reflexivity. }
  rewrite !L.
  assert (S : forall u s N, unit_vec N -> same3 u (vscale s N) -> sqrt (vdot u u) = Rabs s).
  { intros u s N UNI H. change (vmag u = Rabs s). rewrite (vmag_ext _ _ H), vmag_scale. unfold vmag. unfold unit_vec in UNI. rewrite UNI, sqrt_1. ring. }
  rewrite (S _ (rate * t) (normal_at oy oz t) (normal_unit oy oz t) (opening_motion oy oz rate X0 flag t a b A B E)).
  rewrite (S _ (rate * (t + dt)) (normal_at oy oz (t + dt)) (normal_unit oy oz (t + dt))); [split; reflexivity|].
  intros k K. pose proof (opening_motion oy oz rate X0 flag (t + dt) a b A B E k K) as O. rewrite <- O.
  unfold vplus, vminus, vscale. field. exact D.
Qed.
Print Assumptions C80_opening_partial.

(** with two lengths the rotation shows *)
Theorem C80_opening_refuted : ~ (forall P oy oz rate X0 flag t dt a b, sane P -> 0 < dt ->
  flag a = false -> flag b = true -> same3 (X0 a) (X0 b) ->
  let x n := fst (reorient oy oz rate X0 flag t dt n) in let v n := snd (reorient oy oz rate X0 flag t dt n) in
  let o := ucmap (x a) (x b) (v a) (v b) (normal_at oy oz t) dt in
  lambda P (un_tdt o) (ut_tdt o) = Rabs (rate * (t + dt)) / u_n_star P).
Proof.
  intros H. specialize (H (mkPar 1 1 1 1 2 []) 0 (PI / 2) 1 (fun _ => vzero) (fun n => Nat.eqb n 1) 0 1 0%nat 1%nat
    ltac:(unfold sane; cbn; lra) ltac:(lra) eq_refl eq_refl ltac:(intros k K; reflexivity)).
  cbv zeta in H. unfold reorient in H. cbn [fst snd] in H. rewrite ucmap_eq in H. cbn [un_tdt ut_tdt u_n_star] in H.
  set (u := vplus _ _) in H.
  assert (Uv : same3 u (axis 1 1)).
  { intros k K. unfold u, vplus, vminus, vscale. rewrite !position_eq. unfold normal_at. cbn [Nat.eqb].
    destruct (rot_entries 0 (PI / 2) (0 + 1) k K) as (R0 & _ & _). rewrite R0. replace (PI / 2 * (0 + 1)) with (PI / 2) by field. replace (0 * (0 + 1)) with 0 by ring. rewrite sin_PI2, cos_PI2, cos_0, sin_0.
    unfold turn, vdot, vzero, axis. destruct k as [|[|[|k]]]; [| | |lia]; cbn [Nat.eqb]; field. }
  assert (Nv : same3 (normal_at 0 (PI / 2) 0) (axis 0 1)).
  { intros k K. unfold normal_at. destruct (rot_entries 0 (PI / 2) 0 k K) as (R0 & _ & _). rewrite R0. rewrite !Rmult_0_r, sin_0, cos_0.
    unfold axis. destruct k as [|[|[|k]]]; [| | |lia]; cbn [Nat.eqb]; ring. }
  assert (AL : along u (normal_at 0 (PI / 2) 0) = 0).
  { unfold along. rewrite (vdot_ext _ _ _ _ Uv Nv). unfold vdot, axis. cbn [Nat.eqb]. ring. }
  assert (AC : vmag (across u (normal_at 0 (PI / 2) 0)) = 1).
  { rewrite (vmag_ext _ (axis 1 1)).
    - unfold vmag, vdot, axis. cbn [Nat.eqb]. replace (0 * 0 + 1 * 1 + 0 * 0) with 1 by ring. apply sqrt_1.
    - intros k K. unfold across. fold (along u (normal_at 0 (PI / 2) 0)). rewrite AL, (Uv k K). ring. }
  rewrite AL, AC in H. unfold lambda in H. cbn [u_n_star u_t_star] in H.
  replace (0 / 1 * (0 / 1) + 1 / 2 * (1 / 2)) with (/ 2 * / 2) in H by field. rewrite sqrt_square in H by lra.
  rewrite Rabs_right in H by lra. lra.
Qed.
Print Assumptions C80_opening_refuted.

Example C80_ex : let flag := b_side_flags 1 1 (fun _ _ => 4%nat) (fun _ _ => 1) 0 in flag 4%nat = true /\ flag 0%nat = false.
Proof.
  cbv zeta. split.
  - apply C80_sides. exists 0%nat, 0%nat. repeat split; try lia. cbn. lra.
  - destruct (b_side_flags 1 1 (fun _ _ => 4%nat) (fun _ _ => 1) 0 0%nat) eqn:E; [|reflexivity]. apply C80_sides in E. destruct E as (e & a & _ & _ & E & _). discriminate.
Qed.

(** ** C81: the Prony terms reach the model as given, up to ten of them *)
Theorem C81_terms_partial : forall (vars : nat -> R) n, (n <= 10)%nat ->
  read_prony vars n = Some (map (fun j => (vars (6 + 2 * j)%nat, vars (6 + 2 * j + 1)%nat)) (seq 0 n)).
Proof.
  intros vars n H. unfold read_prony. replace (Nat.leb (6 + 2 * n) 30) with true by (symmetry; apply Nat.leb_le; lia). f_equal.
  apply map_ext_in. intros j J. apply in_seq in J. unfold stage_params.
  replace (Nat.ltb (6 + 2 * j) 6) with false by (symmetry; apply Nat.ltb_ge; lia).
  replace (Nat.ltb (6 + 2 * j + 1) 6) with false by (symmetry; apply Nat.ltb_ge; lia).
  replace (Nat.ltb (6 + 2 * j) (6 + 2 * Nat.min n 10)) with true by (symmetry; apply Nat.ltb_lt; lia).
  replace (Nat.ltb (6 + 2 * j + 1) (6 + 2 * Nat.min n 10)) with true by (symmetry; apply Nat.ltb_lt; lia). reflexivity.
Qed.
Print Assumptions C81_terms_partial.

(** the eleventh and twelfth are read as zero, and with thirteen the read leaves the staging array *)
Theorem C81_terms_refuted :
  (forall vars n l, read_prony vars n = Some l -> (11 <= n)%nat -> nth 10 l (1, 1) = (0, 0)) /\
  (forall vars n, (13 <= n)%nat -> read_prony vars n = None) /\
  exists l, read_prony (fun _ => 1) 11 = Some l /\ length l = 11%nat.
Proof.
  split; [|split].
  - intros vars n l H N. unfold read_prony in H. destruct (Nat.leb (6 + 2 * n) 30); [|discriminate]. inversion H; subst l. clear H.
    rewrite (nth_indep _ (1, 1) ((fun j => (stage_params vars n (6 + 2 * j), stage_params vars n (6 + 2 * j + 1))) n)) by (rewrite map_length, seq_length; lia).
    rewrite (map_nth (fun j => (stage_params vars n (6 + 2 * j), stage_params vars n (6 + 2 * j + 1)))). rewrite seq_nth by lia.
    unfold stage_params. rewrite Nat.min_r by lia. reflexivity.
  - intros vars n N. unfold read_prony. replace (Nat.leb (6 + 2 * n) 30) with false by (symmetry; apply Nat.leb_gt; lia). reflexivity.
  - eexists. split; reflexivity.
Qed.
Print Assumptions C81_terms_refuted.

Example C81_ex : exists l, read_prony (fun i => INR i) 3 = Some l /\ length l = 3%nat.
Proof. eexists. split; [apply C81_terms_partial; lia|reflexivity]. Qed.
