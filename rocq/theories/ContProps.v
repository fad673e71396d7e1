(** Properties C82 - C88: contact in the 3D solver. *)
From Coq Require Import Reals List Lia Lra ZArith Permutation.
From Verif Require Import BaseArr BaseReal FracModel FracSpec ContModel ContSpec ContProofs ContMore ContForce ContExamples.
Import ListNotations.
Open Scope R_scope.

(** ** C82: sorting puts every boundary node in the bucket of the cell that contains it, and in no other, for any schedule *)
Theorem C82_sort : forall (x : nat -> vec) (nb : nat) (bdy : nat -> nat) (order : list nat),
  spread_out x nb bdy -> Permutation order (seq 0 nb) ->
  let g := make_grid x nb bdy in
  exists s, sort_nodes x nb bdy g order = Some s /\
    (forall c, cell_ok g c -> exists ids, stored s (bucket_id g (c 0%nat) (c 1%nat) (c 2%nat)) (map bdy ids) /\ NoDup ids /\
       forall i, In i ids <-> (i < nb)%nat /\ in_cell g c (x (bdy i))) /\
    (forall i, (i < nb)%nat -> exists c, cell_ok g c /\ in_cell g c (x (bdy i)) /\
       forall c', in_cell g c' (x (bdy i)) -> forall d, (d < 3)%nat -> c' d = c d) /\
    (exists l, Permutation l (map bdy (seq 0 nb)) /\ forall t, (t < nb)%nat -> aget (nsort s) t 0 = Some (nth t l O)).
Proof.
  intros x nb bdy order Hsp Hp g. pose proof (spread_size x nb bdy Hsp) as Hs. destruct (sort_ok x nb bdy Hs order Hp) as (s & E & Ok).
  exists s. split; [exact E|]. split; [intros c Hc; now apply sorted_slice|]. split; [intros i Hi; now apply one_cell|]. now apply (sorted_perm x nb bdy s).
Qed.
Print Assumptions C82_sort.
Example C82_sort_ex : spread_out tiny_x 10 (fun i => i).
Proof. exists 0%nat, 9%nat, 0%nat. repeat split; try lia. unfold tiny_x. cbn [Nat.ltb Nat.leb Nat.eqb]. unfold cube, brick, vzero, s_xi, s_eta, s_zeta. cbn [vec3]. lra. Qed.
(** the cells are cubes that cover the boundary, at most 65 in each direction *)
Theorem C82_grid : forall (x : nat -> vec) (nb : nat) (bdy : nat -> nat), spread_out x nb bdy ->
  let g := make_grid x nb bdy in 0 < g_size g /\ forall d, (d < 3)%nat -> (g_n g d <= 65)%nat /\
    (forall i, (i < nb)%nat -> g_lo g d <= x (bdy i) d <= g_hi g d) /\ g_hi g d - g_lo g d <= 64 * g_size g.
Proof.
  intros x nb bdy Hsp g. pose proof (spread_size x nb bdy Hsp) as Hs. split; [exact Hs|]. intros d Hd. split; [now apply g_n_65|]. split.
  - intros i Hi. split; [now apply lo_le|now apply hi_ge].
  - now apply size_max.
Qed.
Print Assumptions C82_grid.

(** ** C83: the search round a box looks at every boundary node inside it, once, and stays inside its arrays if the box is roomy *)
Theorem C83_search : forall (x : nat -> vec) (nb : nat) (bdy : nat -> nat) (order : list nat) (lo hi : vec),
  spread_out x nb bdy -> Permutation order (seq 0 nb) ->
  let g := make_grid x nb bdy in roomy g lo hi ->
  exists s l, sort_nodes x nb bdy g order = Some s /\ NoDup l /\ (forall i, In i l -> (i < nb)%nat) /\
    (forall i, (i < nb)%nat -> in_box lo hi (x (bdy i)) -> In i l) /\
    forall St (body : nat -> St -> St) st, over_nodes bucket_room g s lo hi body st = Some (fold_left (fun st i => body (bdy i) st) l st).
Proof.
  intros x nb bdy order lo hi Hsp Hp g Hr. pose proof (spread_size x nb bdy Hsp) as Hs. destruct (sort_ok x nb bdy Hs order Hp) as (s & E & Ok).
  exists s, (met x nb bdy lo hi). split; [exact E|]. split; [now apply met_nodup|]. split; [intros i Hi; now apply met_lt in Hi|].
  split; [intros i Hi Hb; now apply met_complete|]. intros St body st. apply over_nodes_spec; auto. now apply roomy_enough.
Qed.
Print Assumptions C83_search.
(** the box of a patch is roomy when the patch is, in some direction, shorter than 55/64 of the longest extent of the boundary *)
Theorem C83_patch : forall (x : nat -> vec) nodes (nb : nat) (bdy : nat -> nat) pelem pface preload p d w,
  let g := make_grid x nb bdy in (d < 3)%nat ->
  (forall a b, (a < 4)%nat -> (b < 4)%nat -> quad_of x nodes pelem pface p a d - quad_of x nodes pelem pface p b d <= w) -> w < 55 * g_size g ->
  roomy g (box_lo (quad_of x nodes pelem pface p) (margin x nodes pelem pface preload g p))
          (box_hi (quad_of x nodes pelem pface p) (margin x nodes pelem pface preload g p)).
Proof. exact patch_roomy. Qed.
Print Assumptions C83_patch.
Example C83_ex : spread_out tiny_x 10 (fun i => i) /\ forall p, (p < 6)%nat ->
  roomy tiny_grid (box_lo (quad_of tiny_x (fun _ a => a) (fun _ => O) (fun p => p) p) (margin tiny_x (fun _ a => a) (fun _ => O) (fun p => p) false tiny_grid p))
    (box_hi (quad_of tiny_x (fun _ a => a) (fun _ => O) (fun p => p) p) (margin tiny_x (fun _ a => a) (fun _ => O) (fun p => p) false tiny_grid p)).
Proof. split; [exact C82_sort_ex|exact tiny_roomy]. Qed.
(** without it the list of buckets (64^3 entries) is overrun: there can be 65^3.  One block, whatever the order of the threads *)
Theorem C83_overrun_refuted : exists x nodes nb bdy npatch pelem pface,
  spread_out x nb bdy /\
  forall order, Permutation order (seq 0 nb) -> let g := make_grid x nb bdy in
  exists s, sort_nodes x nb bdy g order = Some s /\ find_penetrating x nodes nb bdy npatch pelem pface false bucket_room g s = None.
Proof.
  exists slab, (fun _ a => a), 8%nat, (fun i => i), 6%nat, (fun _ => O), (fun p => p).
  assert (Hsp : spread_out slab 8 (fun i => i)) by (exists 4%nat, 7%nat, 0%nat; repeat split; try lia; cbn [slab vec3]; lra).
  split; [exact Hsp|]. intros order Hp g. destruct (sort_ok slab 8 (fun i => i) (spread_size _ _ _ Hsp) order Hp) as (s & E & _).
  exists s. split; [exact E|]. apply slab_overrun.
Qed.
Print Assumptions C83_overrun_refuted.

(** ** C84: the penetration test is the geometric one, and the sweep records exactly what it finds *)
Theorem C84_test : forall x nodes pelem pface preload p node, (pface p < 6)%nat ->
  (penetrates x nodes pelem pface preload p node = true <-> deep_in x nodes pelem pface preload p node).
Proof. exact penetrates_spec. Qed.
Print Assumptions C84_test.
Theorem C84_recorded : forall (x : nat -> vec) nodes (nb : nat) (bdy : nat -> nat) (npatch : nat) pelem pface preload order,
  spread_out x nb bdy -> Permutation order (seq 0 nb) ->
  (forall i j, (i < nb)%nat -> (j < nb)%nat -> bdy i = bdy j -> i = j) -> (forall p, (p < npatch)%nat -> (pface p < 6)%nat) ->
  let g := make_grid x nb bdy in
  let lo p := box_lo (quad_of x nodes pelem pface p) (margin x nodes pelem pface preload g p) in
  let hi p := box_hi (quad_of x nodes pelem pface p) (margin x nodes pelem pface preload g p) in
  (forall p, (p < npatch)%nat -> roomy g (lo p) (hi p)) ->
  exists s rows, sort_nodes x nb bdy g order = Some s /\ find_penetrating x nodes nb bdy npatch pelem pface preload bucket_room g s = Some rows /\
    forall j, (j < nb)%nat -> NoDup (rows j) /\ (length (rows j) <= 100)%nat /\
      (forall p, In p (rows j) -> (p < npatch)%nat /\ deep_in x nodes pelem pface preload p (bdy j)) /\
      (forall p, (p < npatch)%nat -> in_box (lo p) (hi p) (x (bdy j)) -> deep_in x nodes pelem pface preload p (bdy j) ->
         In p (rows j) \/ length (rows j) = 100%nat).
Proof.
  intros x nodes nb bdy npatch pelem pface preload order Hsp Hp Hinj Hf g lo hi Hr. pose proof (spread_size x nb bdy Hsp) as Hs.
  destruct (sort_ok x nb bdy Hs order Hp) as (s & E & Ok).
  destruct (find_spec x nodes nb bdy npatch pelem pface preload Hinj bucket_room s Ok) as (rows & Er & Hrow).
  { intros p Hlt. apply roomy_enough; [exact Hs|]. now apply Hr. }
  exists s, rows. split; [exact E|]. split; [exact Er|]. intros j Hj. rewrite (Hrow j Hj).
  set (L := filter (hit x nodes nb bdy pelem pface preload j) (seq 0 npatch)).
  assert (ND : NoDup L) by apply NoDup_filter, seq_NoDup.
  assert (Hin : forall p, In p L -> (p < npatch)%nat /\ deep_in x nodes pelem pface preload p (bdy j)).
  { intros p H. apply filter_In in H as [H1 H2]. apply in_seq in H1. split; [lia|]. apply penetrates_spec; [apply Hf; lia|]. now apply hit_true in H2. }
  assert (Sub : forall p, In p (firstn pen_width L) -> In p L) by (intros p H; rewrite <- (firstn_skipn pen_width L); apply in_or_app; now left).
  split; [|split; [|split]].
  - clear - ND. generalize pen_width. induction ND as [|p l H _ IH]; intros [|k]; cbn [firstn]; constructor; [|apply IH].
    intros K. apply H. rewrite <- (firstn_skipn k l). apply in_or_app. now left.
  - rewrite firstn_length. unfold pen_width. lia.
  - intros p H. apply Hin, Sub, H.
  - intros p Hlt Hb Hd. assert (In p L).
    { apply filter_In. split; [apply in_seq; lia|]. apply hit_complete; auto. apply penetrates_spec; auto. }
    rewrite firstn_length. unfold pen_width. destruct (le_lt_dec (length L) 100) as [Hl|Hl]; [left|right; lia]. rewrite firstn_all2; assumption.
Qed.
Print Assumptions C84_recorded.
Example C84_recorded_ex : spread_out tiny_x 10 (fun i => i) /\ (forall p, (p < 6)%nat -> roomy tiny_grid
     (box_lo (quad_of tiny_x (fun _ a => a) (fun _ => O) (fun p => p) p) (margin tiny_x (fun _ a => a) (fun _ => O) (fun p => p) false tiny_grid p))
     (box_hi (quad_of tiny_x (fun _ a => a) (fun _ => O) (fun p => p) p) (margin tiny_x (fun _ a => a) (fun _ => O) (fun p => p) false tiny_grid p)))
  /\ penetrates pile_x pile_nodes pile_pelem pile_pface false 5 16 = true /\ penetrates pile_x pile_nodes pile_pelem pile_pface false 4 16 = false.
Proof.
  split; [exact C82_sort_ex|]. split; [exact tiny_roomy|]. pose proof pile_row as R. split.
  - assert (I : In 5%nat [5; 10]%nat) by now left. rewrite <- R in I. apply filter_In in I. apply I.
  - destruct (penetrates pile_x pile_nodes pile_pelem pile_pface false 4 16) eqn:E; [|reflexivity]. exfalso.
    assert (I : In 4%nat (filter (fun p => penetrates pile_x pile_nodes pile_pelem pile_pface false p 16) (seq 0 18))) by (apply filter_In; split; [apply in_seq; lia|exact E]).
    rewrite R in I. cbn [In] in I. lia.
Qed.
(** a point of a parallelepiped with positive volume is on the inner side of each of its faces *)
Theorem C84_inside : forall o a b c s t u h, 0 < volume a b c -> 0 <= s <= 1 -> 0 <= t <= 1 -> 0 <= u <= 1 -> (h < 6)%nat ->
  not_beyond (fquad (brick o a b c) h) (fun d => o d + s * a d + t * b d + u * c d).
Proof. intros o a b c s t u h Hv Hs Ht Hu Hh. apply brick_inside; auto. do 6 (destruct h as [|h]; [cbn [depth]; lra|]). lia. Qed.
Print Assumptions C84_inside.
Example C84_inside_ex : 0 < volume (vec3 1 0 0) (vec3 1 2 0) (vec3 0 1 3).
Proof. unfold volume, vdot, vcross. cbn [vec3]. lra. Qed.
(** but a recorded node need not be near the element: the slack of the test is 0.01 in the user's unit of length.  Here the node
    is four widths away from a cube of side 1/1000 *)
Theorem C84_slack_refuted : exists x nodes nb bdy npatch pelem pface j p o l,
  spread_out x nb bdy /\ 0 < l /\ (forall a, (a < 8)%nat -> x (nodes (pelem p) a) = cube o l a) /\ o 0%nat + l + 3 * l < x (bdy j) 0%nat /\
  forall order, Permutation order (seq 0 nb) -> let g := make_grid x nb bdy in
  exists s rows, sort_nodes x nb bdy g order = Some s /\ find_penetrating x nodes nb bdy npatch pelem pface false bucket_room g s = Some rows /\ In p (rows j).
Proof.
  exists tiny_x, (fun _ a => a), 10%nat, (fun i => i), 6%nat, (fun _ => O), (fun p => p), 8%nat, 5%nat, vzero, (/ 1000).
  split; [exact C82_sort_ex|]. split; [lra|]. split; [exact tiny_corners|]. split; [unfold tiny_x; cbn [Nat.ltb Nat.leb Nat.eqb vec3]; unfold vzero; lra|].
  intros order Hp g. pose proof (spread_size _ _ _ C82_sort_ex) as Hs. destruct (sort_ok tiny_x 10 (fun i => i) Hs order Hp) as (s & E & Ok).
  destruct (find_spec tiny_x (fun _ a => a) 10 (fun i => i) 6 (fun _ => O) (fun p => p) false (fun i j _ _ H => H) bucket_room s Ok) as (rows & Er & Hrow).
  { intros p Hlt. apply roomy_enough; [exact Hs|]. now apply tiny_roomy. }
  exists s, rows. split; [exact E|]. split; [exact Er|]. rewrite Hrow by lia. rewrite firstn_all2.
  - apply filter_In. split; [apply in_seq; lia|]. unfold hit. apply andb_true_intro. split; [|apply penetrates_spec; [lia|exact tiny_deep]].
    apply existsb_exists. exists 8%nat. split; [apply tiny_met|reflexivity].
  - transitivity (length (seq 0 6)); [apply filter_length_le|]. rewrite seq_length. unfold pen_width. lia.
Qed.
Print Assumptions C84_slack_refuted.

(** ** C85: a node gets one slot for each element it penetrates; a slot holds the nearest eligible patch of its element, if there is one *)
Theorem C85_slots : forall x nodes elems pelem pface node row, row <> [] ->
  exists es out, pair_node x nodes elems pelem pface false node row = out /\ length out = length es /\ NoDup es /\
    (forall e, In e es <-> exists p, In p row /\ pelem p = e) /\
    forall i, (i < length es)%nat ->
      (exists p, nth i out None = Some p /\ eligible x nodes elems pelem pface node row (nth i es O) p /\
         forall q, eligible x nodes elems pelem pface node row (nth i es O) q -> dist_to x nodes pelem pface node p <= dist_to x nodes pelem pface node q) \/
      (nth i out None = nth i (None :: out) None /\
         forall q, eligible x nodes elems pelem pface node row (nth i es O) q -> 10 ^ 16 <= dist_to x nodes pelem pface node q).
Proof.
  intros x nodes elems pelem pface node row Hr. destruct (pair_node_spec x nodes elems pelem pface false node row Hr) as (es & out & E & L & ND & In_ & S).
  exists es, out. split; [exact E|]. split; [exact L|]. split; [exact ND|]. split; [exact In_|]. intros i Hi.
  destruct (select_spec x nodes elems pelem pface node row (nth i es O) (nth i (None :: out) None)) as [(p & El & _ & Sel & Min)|[Sel Far]]; rewrite (S i Hi), Sel.
  - left. exists p. split; [reflexivity|]. split; [now apply eligible_iff|]. intros q Hq. apply Min. now apply eligible_iff.
  - right. split; [reflexivity|]. intros q Hq. apply Far. now apply eligible_iff.
Qed.
Print Assumptions C85_slots.
(** before the first step (preload) it holds the patch that faces the node's material most *)
Theorem C85_slots_preload : forall x nodes elems pelem pface node row, row <> [] ->
  exists es out, pair_node x nodes elems pelem pface true node row = out /\ length out = length es /\ NoDup es /\
    (forall e, In e es <-> exists p, In p row /\ pelem p = e) /\
    forall i, (i < length es)%nat ->
      (exists p r, nth i out None = Some p /\ In p row /\ pelem p = nth i es O /\ facing_value x nodes elems pelem pface node p r /\ -1 < r /\
         forall q t, In q row -> pelem q = nth i es O -> facing_value x nodes elems pelem pface node q t -> t <= r) \/
      (nth i out None = nth i (None :: out) None /\
         forall q t, In q row -> pelem q = nth i es O -> facing_value x nodes elems pelem pface node q t -> t <= -1).
Proof.
  intros x nodes elems pelem pface node row Hr. destruct (pair_node_spec x nodes elems pelem pface true node row Hr) as (es & out & E & L & ND & In_ & S).
  exists es, out. split; [exact E|]. split; [exact L|]. split; [exact ND|]. split; [exact In_|]. intros i Hi.
  destruct (select_face_spec x nodes elems pelem pface node row (nth i es O) (nth i (None :: out) None)) as [(p & r & I & P & F & Sel & Low & Max)|[Sel Far]]; rewrite (S i Hi), Sel.
  - left. exists p, r. repeat (split; [auto; fail|]). split; [now apply facing_iff|]. split; [exact Low|]. intros q t Hq Hp Ht. apply (Max q t); auto. now apply facing_iff.
  - right. split; [reflexivity|]. intros q t Hq Hp Ht. apply (Far q t); auto. now apply facing_iff.
Qed.
Print Assumptions C85_slots_preload.
Example C85_slots_ex : filter (fun p => penetrates pile_x pile_nodes pile_pelem pile_pface false p 16) (seq 0 18) <> [].
Proof. rewrite pile_row. discriminate. Qed.
(** a slot whose element has no eligible patch repeats the patch of the slot before: the node is paired twice with the same patch *)
Theorem C85_distinct_refuted : exists x nodes elems pelem pface npatch node,
  (forall e, exists o, forall a, (a < 8)%nat -> x (nodes e a) = cube o 1 a) /\ In 2%nat (elems node) /\
  let row := filter (fun p => penetrates x nodes pelem pface false p node) (seq 0 npatch) in
  NoDup row /\ exists p, pair_node x nodes elems pelem pface false node row = [Some p; Some p].
Proof.
  exists pile_x, pile_nodes, pile_elems, pile_pelem, pile_pface, 18%nat, 16%nat.
  split; [intros e; exists (pile_o e); intros a Ha; now apply pile_corners|]. split; [now left|]. cbv zeta. rewrite pile_row. split.
  - repeat constructor; cbn [In]; lia.
  - exists 5%nat. exact pile_pairs.
Qed.
Print Assumptions C85_distinct_refuted.

(** ** C86: the contact point *)
(** when the inverse map reports convergence, the coordinates it returns map to within 1e-8 of the point *)
Theorem C86_inverse : forall fuel X p s, iso_inverse fuel X p = Some (s, true) -> vmag (fun d => p d - trilinear X s d) < 1e-8.
Proof. intros fuel X p s H. eapply iso_loop_converged. exact H. Qed.
Print Assumptions C86_inverse.
(** the coordinates taken over for the patch describe the same point of the face *)
Theorem C86_face : forall X f s d, (f < 6)%nat -> on_face f s ->
  patch_point (fquad X f) (fst (face_coords f s)) (snd (face_coords f s)) d = trilinear X s d.
Proof. exact face_coords_point. Qed.
Print Assumptions C86_face.
Example C86_face_ex : on_face 3 (vec3 (1/3) 1 (-1/5)) /\ face_coords 3 (vec3 (1/3) 1 (-1/5)) = (- (1/3), -1/5).
Proof. split; reflexivity. Qed.
(** for parallelepipeds the first iteration is exact: the contact point is the foot of the perpendicular on the face *)
Theorem C86_foot : forall fuel o a b c f p, (f < 6)%nat -> 0 < volume a b c ->
  exists v, new_pair (S fuel) (brick o a b c) f p = Some v /\ p_inc v = 0 /\ p_tot v = 0 /\
    let q := fquad (brick o a b c) f in
    (forall d, p_n v d = area_vec q d / vmag (area_vec q)) /\
    (forall d, (d < 3)%nat -> patch_point q (p_xi v) (p_eta v) d = p d - vdot (fun d => p d - q 0%nat d) (p_n v) * p_n v d).
Proof.
  intros fuel o a b c f p Hf Hv. destruct (new_pair_brick fuel o a b c f p Hf Hv) as (v & E & Hn & Hp & Hi & Ht). exists v. auto.
Qed.
Print Assumptions C86_foot.
Example C86_inverse_ex : exists s, iso_inverse 1 (brick vzero (vec3 1 0 0) (vec3 1 2 0) (vec3 0 1 3)) (vec3 1 1 1) = Some (s, true).
Proof. destruct (iso_brick 0 vzero (vec3 1 0 0) (vec3 1 2 0) (vec3 0 1 3) (vec3 1 1 1)) as (s & E & _); [unfold volume, vdot, vcross; cbn [vec3]; lra|]. now exists s. Qed.

(** ** C87: contact forces *)
(** they add up to zero, whatever the increments and however many iterations *)
Theorem C87_balance : forall local_iter global_iter dt bdy x vel fcorner mass nn nb l F l' ok d,
  (forall i j, (i < nb)%nat -> (j < nb)%nat -> bdy i = bdy j -> i = j) -> (forall i, (i < nb)%nat -> (bdy i < nn)%nat) ->
  Forall (fun c => (c_id c < nb)%nat /\ forall k, (k < 4)%nat -> (c_map c k < nb)%nat) l ->
  resolve (pair_increment local_iter dt bdy x vel fcorner mass) global_iter (fun _ _ => 0) l = Some (F, l', ok) ->
  sumn nn (fun n => node_contact_force nb bdy F n d) = 0.
Proof.
  intros li gi dt bdy x vel fc mass nn nb l F l' ok d Hinj Hlt Hl H. rewrite node_force_sum by assumption.
  rewrite (resolve_sum _ nb gi d _ _ _ _ _ Hl H). apply sumn_0.
Qed.
Print Assumptions C87_balance.
(** nodes off the boundary get none *)
Theorem C87_interior : forall nb bdy F n d, (forall i j, (i < nb)%nat -> (j < nb)%nat -> bdy i = bdy j -> i = j) ->
  (forall i, (i < nb)%nat -> bdy i <> n) -> node_contact_force nb bdy F n d = 0.
Proof. intros nb bdy F n d Hi Hn. now apply node_force_at. Qed.
Print Assumptions C87_interior.
(** a pair never pulls, and pushes only if its point is on the patch, up to 0.01 in the patch's coordinates *)
Theorem C87_push : forall incr global_iter l F l' ok, Forall (fun c => p_tot (c_pv c) = 0) l ->
  resolve incr global_iter (fun _ _ => 0) l = Some (F, l', ok) ->
  Forall (fun c => 0 <= p_tot (c_pv c) /\ (0 < p_tot (c_pv c) -> Rabs (p_xi (c_pv c)) <= 1.01 /\ Rabs (p_eta (c_pv c)) <= 1.01)) l'.
Proof.
  intros incr gi l F l' ok Hl H. eapply Forall_impl; [|eapply resolve_pushing; [|exact H]].
  - intros c [A B]. split; [exact A|]. intros K. apply B. lra.
  - eapply Forall_impl; [|exact Hl]. intros c E. split; [lra|]. intros K. contradiction.
Qed.
Print Assumptions C87_push.
(** the moment of a pair's force: zero when the node is on the line through the contact point along the normal *)
Theorem C87_moment : forall nb (r F : nat -> vec) cid cmap n s t f d, (cid < nb)%nat -> (forall k, (k < 4)%nat -> (cmap k < nb)%nat) ->
  moment nb r (apply_pair F cid cmap n (pphi s t) f) d
  = moment nb r F d + f * vcross (fun d => r cid d - patch_point (fun k => r (cmap k)) s t d) n d.
Proof. exact apply_pair_moment. Qed.
Print Assumptions C87_moment.
(** if the iterations leave the contact points and normals alone, the forces are those of the pairs: f n on the node and
    - f phi_k n on the corners.  Missing: the iterations move the points and turn the normals *)
Theorem C87_shares_partial : forall incr global_iter l F l' ok i d,
  (forall F c v, incr F c = Some v -> p_tot v = p_tot (c_pv c) /\ p_xi v = p_xi (c_pv c) /\ p_eta v = p_eta (c_pv c) /\ p_n v = p_n (c_pv c)) ->
  Forall (fun c => p_tot (c_pv c) = 0) l -> resolve incr global_iter (fun _ _ => 0) l = Some (F, l', ok) ->
  F i d = suml (fun c => (if Nat.eqb i (c_id c) then p_tot (c_pv c) * p_n (c_pv c) d else 0)
            - sumn 4 (fun k => if Nat.eqb i (c_map c k) then p_tot (c_pv c) * p_n (c_pv c) d * pphi (p_xi (c_pv c)) (p_eta (c_pv c)) k else 0)) l'.
Proof.
  intros incr gi l F l' ok i d Hi Hl H. pose proof (resolve_share incr gi i d Hi _ _ _ _ _ H) as S.
  assert (Z : suml (fun c => share c i d) l = 0).
  { clear H S. induction Hl as [|c l E _ IH]; [reflexivity|]. rewrite suml_cons, IH. unfold share. rewrite E. cbn [sumn].
    destruct (Nat.eqb i (c_id c)), (Nat.eqb i (c_map c 0%nat)), (Nat.eqb i (c_map c 1%nat)), (Nat.eqb i (c_map c 2%nat)), (Nat.eqb i (c_map c 3%nat)); ring. }
  rewrite Z in S. unfold share in S. lra.
Qed.
Print Assumptions C87_shares_partial.
Example C87_ex : exists F l' ok,
  resolve (fun _ c => Some (mkPv (p_xi (c_pv c)) (p_eta (c_pv c)) (p_n (c_pv c)) 1 (p_tot (c_pv c)))) 1 (fun _ _ => 0)
    [mkPair 4 (fun k => k) (mkPv 0 0 (vec3 0 0 1) 0 0)] = Some (F, l', ok) /\ F 4%nat 2%nat = 0.2 * 1 /\ F 0%nat 2%nat = - (0.05).
Proof.
  cbn [resolve all_incs obind spread fold_left c_id c_map c_pv p_xi p_eta p_n p_tot]. unfold spread. cbn [fold_left c_id c_map c_pv].
  unfold distribute. cbn [p_xi p_eta p_n p_inc p_tot]. cbv zeta. rewrite Rabs_R0.
  destruct (Rlt_dec (0.2 * 1 + 0) 0) as [A|_]; [lra|]. destruct (Rlt_dec 1.01 0) as [A|_]; [lra|]. cbn [app].
  destruct (Rle_dec _ _); eexists; eexists; eexists; (split; [reflexivity|]); rewrite !apply_pair_at; cbn [sumn Nat.eqb]; cbn [vec3]; unfold pphi; cbn [pxi peta]; lra.
Qed.
(** when the normal of a pair has turned in between, releasing the pair takes back another force than it had applied: a force
    remains on a node whose only pair carries none *)
Theorem C87_release_refuted : exists F1 F2 v1 v2 n2, let v := mkPv 0 0 (vec3 0 0 1) 1 0 in
  distribute (fun _ _ => 0) 4 (fun k => k) v = (F1, v1) /\
  distribute F1 4 (fun k => k) (mkPv 0 0 n2 (-2) (p_tot v1)) = (F2, v2) /\ unit_vec n2 /\ p_tot v2 = 0 /\ F2 4%nat 2%nat = 0.04.
Proof.
  eexists. eexists. eexists. eexists. exists (vec3 (3/5) 0 (4/5)). cbv zeta.
  unfold distribute at 1. cbn [p_xi p_eta p_n p_inc p_tot]. cbv zeta. rewrite Rabs_R0.
  destruct (Rlt_dec (0.2 * 1 + 0) 0) as [A|_]; [lra|]. destruct (Rlt_dec 1.01 0) as [A|_]; [lra|]. split; [reflexivity|].
  unfold distribute. cbn [p_xi p_eta p_n p_inc p_tot]. cbv zeta. 
  destruct (Rlt_dec (0.2 * -2 + (0 + 0.2 * 1)) 0) as [_|A]; [|lra]. split; [reflexivity|]. split; [unfold unit_vec, vdot; cbn [vec3]; lra|]. split; [reflexivity|].
  rewrite !apply_pair_at. cbn [sumn Nat.eqb vec3]. lra.
Qed.
Print Assumptions C87_release_refuted.

(** ** C88: the force increment *)
(** the carried force is not touched by the Newton iterations; when they converge, the node and the point (xi,eta) of the patch are
    together (distance squared at most 1e-15) at the end of a step with the increment applied on top of the forces so far *)
Theorem C88_converged : forall local_iter dt bdy (x vel fcorner : nat -> vec) mass F c v' ok,
  pair_increment_flag local_iter dt bdy x vel fcorner mass F c = Some (v', ok) -> p_tot v' = p_tot (c_pv c) /\
  (ok = true ->
   let node := end_pos dt (x (bdy (c_id c))) (vel (bdy (c_id c))) (fun d => fcorner (bdy (c_id c)) d + F (c_id c) d + p_inc v' * p_n v' d) (mass (bdy (c_id c))) in
   let corner := fun k => end_pos dt (x (bdy (c_map c k))) (vel (bdy (c_map c k)))
      (fun d => fcorner (bdy (c_map c k)) d + F (c_map c k) d - p_inc v' * pphi (p_xi v') (p_eta v') k * p_n v' d) (mass (bdy (c_map c k))) in
   let apart := fun d => node d - patch_point corner (p_xi v') (p_eta v') d in
   vdot apart apart <= 1e-15).
Proof.
  intros li dt bdy x vel fc mass F c v' ok H. unfold pair_increment_flag, increment in H. cbv zeta in H.
  destruct (first_guess _ _ _ _ _ _) as [gs|]; [|discriminate]. cbn [obind] in H.
  apply newton_result in H as [T C]. split; [exact T|]. intros Hok. specialize (C Hok). cbv zeta. unfold vdot.
  match goal with |- ?l <= _ => match type of C with ?r <= _ => replace l with r; [exact C|] end end.
  unfold gap, node_later, patch_later, patch_point, end_pos. cbn [sumn]. rewrite d5. unfold Rdiv.
  repeat match goal with |- _ + _ = _ + _ => apply f_equal2 | |- _ * _ = _ * _ => apply f_equal2 end; ring.
Qed.
Print Assumptions C88_converged.
(** a node in front of the middle of a flat patch whose corners have equal masses, velocities and forces: three iterations find the
    force that brings the node and the patch together, along the normal.  g is the distance above the patch the node would have at
    the end of the step, and kap the distance per unit of force *)
Theorem C88_head_on : forall dt bdy (x vel fcorner : nat -> vec) mass F cid cmap m (ctr a b vp fp n : vec) g,
  0 < dt -> 0 < mass (bdy cid) -> 0 < m -> vmag (vcross a b) <> 0 -> (forall d, n d = vcross a b d / vmag (vcross a b)) ->
  (forall k d, (k < 4)%nat -> let q := bdy (cmap k) in
     x q d = ctr d + pxi k * a d + peta k * b d /\ vel q d = vp d /\ F (cmap k) d + fcorner q d = fp d /\ mass q = m) ->
  (forall d, (d < 3)%nat ->
     end_pos dt (x (bdy cid)) (vel (bdy cid)) (fun d => F cid d + fcorner (bdy cid) d) (mass (bdy cid)) d - end_pos dt ctr vp fp m d = g * n d) ->
  let kap := dt * dt / 2 * (1 / mass (bdy cid) + 1 / (4 * m)) in
  forall iter inc tot, (3 <= iter)%nat ->
  exists v', pair_increment_flag iter dt bdy x vel fcorner mass F (mkPair cid cmap (mkPv 0 0 n inc tot)) = Some (v', true) /\
    p_xi v' = 0 /\ p_eta v' = 0 /\ p_n v' = n /\ (g + kap * p_inc v') * (g + kap * p_inc v') <= 1e-15.
Proof.
  intros dt bdy x vel fc mass F cid cmap m ctr a b vp fp n g H1 H2 H3 H4 H5 Hq H6 kap iter inc tot Hit.
  unfold pair_increment_flag. cbn [c_id c_map c_pv]. cbv zeta.
  rewrite (increment_ext dt _ _ _ _ (fun k => x (bdy (cmap k))) (fun k => vel (bdy (cmap k))) (fun k d => F (cmap k) d + fc (bdy (cmap k)) d)
    (flat ctr a b) (fun _ => vp) (fun _ => fp) (fun k => mass (bdy (cmap k))) (fun _ => m)).
  - destruct iter as [|[|[|fuel]]]; [lia..|]. apply (head_on dt _ _ _ _ m ctr a b vp fp n g); auto.
    intros d Hd. specialize (H6 d Hd). unfold end_pos in H6. rewrite d5. cbv beta. unfold Rdiv in *. lra.
  - intros k d Hk. exact (Hq k d Hk).
Qed.
Print Assumptions C88_head_on.
(** met: a node (number 4) at rest 1/8 under the middle of a square of side 2 at rest *)
Example C88_head_on_ex :
  let a := vec3 1 0 0 in let b := vec3 0 1 0 in let n := vec3 0 0 1 in
  let x := fun i => if Nat.eqb i 4 then vec3 0 0 (- (1 / 8)) else (fun d => pxi i * a d + peta i * b d) in
  vmag (vcross a b) = 1 /\ (forall d, n d = vcross a b d / vmag (vcross a b)) /\
  (forall k d, (k < 4)%nat -> x k d = vzero d + pxi k * a d + peta k * b d) /\
  forall d, (d < 3)%nat -> end_pos 1 (x 4%nat) vzero vzero 1 d - end_pos 1 vzero vzero vzero 1 d = - (1 / 8) * n d.
Proof.
  cbv zeta. assert (E : vmag (vcross (vec3 1 0 0) (vec3 0 1 0)) = 1) by (apply vmag_is; [lra|]; unfold vdot, vcross; cbn [vec3]; lra).
  split; [exact E|]. split; [|split].
  - intros d. rewrite E. destruct d as [|[|d]]; unfold vcross; cbn [vec3]; lra.
  - intros k d Hk. destruct (Nat.eqb_spec k 4) as [->|_]; [lia|]. unfold vzero. ring.
  - intros d Hd. cbn [Nat.eqb]. unfold end_pos, vzero. destruct d as [|[|d]]; cbn [vec3]; lra.
Qed.
