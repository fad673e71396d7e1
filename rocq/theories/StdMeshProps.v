(* C142: the stand-alone mesh builder. *)
From Coq Require Import Reals List Arith Lia Lra.
From Verif Require Import StdMeshModel StdMeshSpec StdMeshProofs.
Import ListNotations.
Local Open Scope R_scope.

Lemma cyclic_ok x : cyclic x = true <-> Rabs (len x 1%nat - 360) < / 10 ^ 8.
Proof. unfold cyclic. destruct (Rlt_dec _ _); split; intros; try assumption; try reflexivity; [discriminate|contradiction]. Qed.
Lemma closes_ok s x : closes s x <-> (match s with Box => false | Cylinder _ _ => cyclic x end) = true.
Proof.
  destruct s as [|inner start]; split.
  - intros (a & b & E & _). discriminate.
  - discriminate.
  - intros (a & b & E & H). apply cyclic_ok, H.
  - intros H. exists inner, start. split; [reflexivity|apply cyclic_ok, H].
Qed.
Lemma counts s x closed : (closed = true <-> closes s x) ->
  g_points (grid_of s x) 0 = (order x * elems x 0 + 1)%nat /\ g_points (grid_of s x) 1 = (order x * elems x 1 + (if closed then 0 else 1))%nat /\ g_points (grid_of s x) 2 = (if three x then order x * elems x 2 + 1 else 1)%nat.
Proof.
  intros Hc. rewrite closes_ok in Hc. destruct s as [|inner start]; cbn [grid_of box_grid cyl_grid g_points].
  - assert (closed = false) as -> by (destruct closed; [symmetry; apply Hc; reflexivity|reflexivity]). unfold num_points. cbn [Nat.eqb andb]. destruct (three x); cbn [negb]; auto.
  - assert (cyclic x = closed) as -> by (destruct closed, (cyclic x); try reflexivity; [apply Hc; reflexivity|symmetry; apply Hc; reflexivity]). unfold num_points. cbn [Nat.eqb andb]. split; [reflexivity|]. split; [destruct closed; lia|]. destruct (three x); cbn [negb]; reflexivity.
Qed.
Lemma built s x m : build_mesh s x = Some m -> m_elems m = build_elems x (grid_of s x) /\ map fst (m_points m) = map fst (build_points x (grid_of s x)).
Proof.
  unfold build_mesh. destruct (element_type x); [|discriminate]. intros E. inversion E; subst m; clear E. cbn [m_elems m_points]. split; [reflexivity|]. destruct s; rewrite !move_ids; reflexivity.
Qed.
(* the bounds of the wrapped indices *)
Lemma wrapped s x closed i j k il jl kl : sensible x -> (closed = true <-> closes s x) -> inside x i j k il jl kl ->
  ((il + i * order x) mod g_points (grid_of s x) 0 = i * order x + il /\ i * order x + il < g_points (grid_of s x) 0)%nat /\
  ((jl + j * order x) mod g_points (grid_of s x) 1 < g_points (grid_of s x) 1 /\ (jl + j * order x) mod g_points (grid_of s x) 1 = (if closed then (j * order x + jl) mod (order x * elems x 1) else j * order x + jl))%nat /\
  ((kl + k * order x) mod g_points (grid_of s x) 2 < g_points (grid_of s x) 2 /\ (three x = true -> (kl + k * order x) mod g_points (grid_of s x) 2 = k * order x + kl) /\ (three x = false -> (kl + k * order x) mod g_points (grid_of s x) 2 = 0 /\ k = 0 /\ kl = 0))%nat.
Proof.
  intros (Hp & He & H2) Hc (Hi & Hj & Hk & Hil & Hjl & Hkl). destruct (counts s x closed Hc) as (-> & -> & ->). pose proof (He 1%nat) as H1. split.
  - assert (i * order x + il < order x * elems x 0 + 1)%nat by nia. split; [rewrite Nat.mod_small; lia|assumption].
  - split.
    + split; [apply Nat.mod_upper_bound; destruct closed; nia|]. destruct closed; [rewrite Nat.add_0_r; f_equal; lia|]. rewrite Nat.mod_small; nia.
    + split; [apply Nat.mod_upper_bound; destruct (three x); lia|]. split; intros E; rewrite E in *; [rewrite Nat.mod_small; nia|]. specialize (H2 eq_refl). assert (k = 0%nat) as -> by lia. assert (kl = 0%nat) as -> by lia. split; [reflexivity|split; reflexivity].
Qed.
Lemma elem_point s x m closed i j k il jl kl n : sensible x -> (closed = true <-> closes s x) -> inside x i j k il jl kl -> build_mesh s x = Some m ->
  point_of m x i j k il jl kl n <-> n = get_id ((il + i * order x) mod g_points (grid_of s x) 0) ((jl + j * order x) mod g_points (grid_of s x) 1) ((kl + k * order x) mod g_points (grid_of s x) 2) (g_points (grid_of s x) 0) (g_points (grid_of s x) 1).
Proof.
  intros Hs Hc (Hi & Hj & Hk & Hil & Hjl & Hkl) Hb. destruct (built s x m Hb) as [Ee _]. set (g := grid_of s x) in *.
  set (f := fun i j k => loops (S (order x)) (S (order x)) (S (if three x then order x else 0)) (fun il jl kl => get_id ((il + i * order x) mod g_points g 0) ((jl + j * order x) mod g_points g 1) ((kl + k * order x) mod g_points g 2) (g_points g 0) (g_points g 1))).
  assert (Ebe : build_elems x g = loops (elems x 0) (elems x 1) (elems x 2) (fun i j k => (get_id i j k (elems x 0) (elems x 1), f i j k))) by reflexivity.
  assert (Hn : nth_error (f i j k) (local x il jl kl) = Some (get_id ((il + i * order x) mod g_points g 0) ((jl + j * order x) mod g_points g 1) ((kl + k * order x) mod g_points g 2) (g_points g 0) (g_points g 1))).
  { unfold f, local. rewrite loops_nth by lia. reflexivity. }
  assert (Hin : nth_error (build_elems x g) (get_id i j k (elems x 0) (elems x 1)) = Some (get_id i j k (elems x 0) (elems x 1), f i j k)) by (rewrite Ebe; unfold get_id at 2; rewrite loops_nth by assumption; reflexivity).
  split.
  - intros (nodes & Hnd & Hnth). rewrite Ee in Hnd. apply In_nth_error in Hnd. destruct Hnd as (q & Hq).
    assert (Hids : map fst (build_elems x g) = seq 0 (elems x 0 * elems x 1 * elems x 2)) by (rewrite Ebe; apply loops_ids; intros; reflexivity).
    assert (q = get_id i j k (elems x 0) (elems x 1)). { pose proof (map_nth_error fst q _ Hq) as Hm. rewrite Hids in Hm. cbn [fst] in Hm. assert (Hl : (q < elems x 0 * elems x 1 * elems x 2)%nat) by (rewrite <- (seq_length (elems x 0 * elems x 1 * elems x 2) 0); apply nth_error_Some; rewrite Hm; discriminate). rewrite (nth_error_nth' _ 0%nat) in Hm by (rewrite seq_length; exact Hl). rewrite seq_nth in Hm by exact Hl. inversion Hm. unfold get_id. lia. }
    subst q. rewrite Hin in Hq. inversion Hq; subst nodes. rewrite Hn in Hnth. inversion Hnth. reflexivity.
  - intros ->. exists (f i j k). split; [|exact Hn]. rewrite Ee. apply nth_error_In in Hin. exact Hin.
Qed.

(* Every entry of the arrays of points and elements is written, once and in order, nothing is written
   outside them, and every element has the points its order asks for, all of which exist. *)
Theorem C142_filled (s : shape) (x : input) (m : mesh) (closed : bool) :
  sensible x -> (closed = true <-> closes s x) -> build_mesh s x = Some m ->
  map fst (m_points m) = seq 0 (points_in x closed) /\ map fst (m_elems m) = seq 0 (elems x 0 * elems x 1 * elems x 2) /\
  (forall e nodes, In (e, nodes) (m_elems m) -> length nodes = (S (order x) * S (order x) * (if three x then S (order x) else 1))%nat /\ forall n, In n nodes -> (n < points_in x closed)%nat).
Proof.
  intros Hs Hc Hb. destruct (built s x m Hb) as [Ee Ep]. destruct (counts s x closed Hc) as (C0 & C1 & C2). rewrite Ep, Ee. split; [|split].
  - unfold build_points. rewrite loops_ids by (intros; reflexivity). rewrite C0, C1, C2. reflexivity.
  - unfold build_elems. apply loops_ids. intros; reflexivity.
  - intros e nodes H. unfold build_elems in H. apply loops_In in H. destruct H as (i & j & k & Hi & Hj & Hk & E). inversion E; subst e nodes; clear E. destruct Hs as (Hp & He & H2). pose proof (He 1%nat). split.
    + unfold loops. rewrite (flat_len _ (S (order x) * S (order x))); [destruct (three x); lia|]. intros q. apply flat_len. intros r. rewrite map_length, seq_length. reflexivity.
    + intros n Hn. apply loops_In in Hn. destruct Hn as (il & jl & kl & _ & _ & _ & ->). unfold points_in. rewrite <- C0, <- C1, <- C2. apply id_bound; apply Nat.mod_upper_bound; rewrite ?C0, ?C1, ?C2; [lia|destruct closed; nia|destruct (three x); lia].
Qed.
Print Assumptions C142_filled.

Lemma id_inj i j k i' j' k' a b : (i < a)%nat -> (i' < a)%nat -> (j < b)%nat -> (j' < b)%nat -> get_id i j k a b = get_id i' j' k' a b -> i = i' /\ j = j' /\ k = k'.
Proof.
  intros Hi Hi' Hj Hj' E. unfold get_id in E. assert (E1 : (a * (j + b * k) + i = a * (j' + b * k') + i')%nat) by nia. apply Nat.div_mod_unique in E1; [|assumption|assumption]. destruct E1 as [E1 ->]. assert (E2 : (b * k + j = b * k' + j')%nat) by lia. apply Nat.div_mod_unique in E2; [|assumption|assumption]. destruct E2 as [-> ->]. auto.
Qed.

(* Two elements have a point in common exactly where their points are the same points of the grid,
   where the first and the last row are the same if the cylinder closes. *)
Theorem C142_shared (s : shape) (x : input) (m : mesh) (closed : bool) i j k il jl kl i' j' k' il' jl' kl' n n' :
  sensible x -> (closed = true <-> closes s x) -> build_mesh s x = Some m -> inside x i j k il jl kl -> inside x i' j' k' il' jl' kl' ->
  point_of m x i j k il jl kl n -> point_of m x i' j' k' il' jl' kl' n' ->
  n = n' <-> (i * order x + il = i' * order x + il' /\
    (if closed then (j * order x + jl) mod (order x * elems x 1) = (j' * order x + jl') mod (order x * elems x 1) else j * order x + jl = j' * order x + jl') /\
    k * order x + kl = k' * order x + kl')%nat.
Proof.
  intros Hs Hc Hb Hin Hin' Hn Hn'. apply (elem_point s x m closed) in Hn; [|assumption..]. apply (elem_point s x m closed) in Hn'; [|assumption..].
  destruct (wrapped s x closed _ _ _ _ _ _ Hs Hc Hin) as ([A1 A2] & [B1 B2] & (D1 & D2 & D3)). destruct (wrapped s x closed _ _ _ _ _ _ Hs Hc Hin') as ([A1' A2'] & [B1' B2'] & (D1' & D2' & D3')). rewrite A1 in Hn. rewrite A1' in Hn'.
  assert (Ek : ((kl + k * order x) mod g_points (grid_of s x) 2 = (kl' + k' * order x) mod g_points (grid_of s x) 2 <-> k * order x + kl = k' * order x + kl')%nat).
  { destruct (three x); [rewrite D2, D2' by reflexivity; reflexivity|]. destruct (D3 eq_refl) as (-> & -> & ->). destruct (D3' eq_refl) as (-> & -> & ->). split; reflexivity. }
  rewrite <- Ek. split.
  - intros E. rewrite Hn, Hn' in E. apply id_inj in E; [|assumption..]. destruct E as (E1 & E2 & E3). split; [exact E1|]. split; [|exact E3]. rewrite B2, B2' in E2. destruct closed; exact E2.
  - intros (E1 & E2 & E3). rewrite Hn, Hn', E1, E3. f_equal. rewrite B2, B2'. destruct closed; exact E2.
Qed.
Print Assumptions C142_shared.

Lemma INR_pos n : (1 <= n)%nat -> 0 < INR n. Proof. intros H. apply lt_0_INR. lia. Qed.
Lemma delta_along x lo hi a q : sensible x -> INR q * derive_delta x lo hi a = along x a q * (hi a - lo a).
Proof. intros (Hp & He & _). unfold derive_delta, along. rewrite mult_INR. pose proof (INR_pos _ Hp). pose proof (INR_pos _ (He a)). field. split; lra. Qed.
Lemma point_in s x closed i j k il jl kl : sensible x -> (closed = true <-> closes s x) -> inside x i j k il jl kl ->
  let g := grid_of s x in let jm := ((jl + j * order x) mod g_points g 1)%nat in
  In (get_id ((il + i * order x) mod g_points g 0) jm ((kl + k * order x) mod g_points g 2) (g_points g 0) (g_points g 1),
      [g_lower g 0%nat + INR (i * order x + il) * g_delta g 0%nat; g_lower g 1%nat + INR jm * g_delta g 1%nat] ++ (if three x then [g_lower g 2%nat + INR (k * order x + kl) * g_delta g 2%nat] else [])) (build_points x g).
Proof.
  intros Hs Hc Hin g jm. destruct (wrapped s x closed _ _ _ _ _ _ Hs Hc Hin) as ([A1 A2] & [B1 B2] & (D1 & D2 & D3)). fold g in A1, A2, B1, B2, D1, D2, D3. unfold build_points. rewrite A1.
  set (km := ((kl + k * order x) mod g_points g 2)%nat) in *.
  assert (E : (if three x then [g_lower g 2%nat + INR (k * order x + kl) * g_delta g 2%nat] else []) = (if three x then [g_lower g 2%nat + INR km * g_delta g 2%nat] else [])) by (destruct (three x); [rewrite D2 by reflexivity|]; reflexivity).
  rewrite E. apply (loops_at (g_points g 0) (g_points g 1) (g_points g 2) (fun i j k => (get_id i j k (g_points g 0) (g_points g 1), [g_lower g 0%nat + INR i * g_delta g 0%nat; g_lower g 1%nat + INR j * g_delta g 1%nat] ++ (if three x then [g_lower g 2%nat + INR k * g_delta g 2%nat] else [])))); assumption.
Qed.

(* The points of a box are where they are to be. *)
Theorem C142_box (x : input) (m : mesh) i j k il jl kl : sensible x -> build_mesh Box x = Some m -> inside x i j k il jl kl ->
  exists n, point_of m x i j k il jl kl n /\ In (n, box_position x (i * order x + il) (j * order x + jl) (k * order x + kl)) (m_points m).
Proof.
  intros Hs Hb Hin. assert (Hc : false = true <-> closes Box x) by (split; [discriminate|intros (a & b & E & _); discriminate]).
  eexists. split; [apply (elem_point Box x m false); try assumption; reflexivity|]. pose proof (point_in Box x false i j k il jl kl Hs Hc Hin) as P. cbv zeta in P.
  destruct (wrapped Box x false _ _ _ _ _ _ Hs Hc Hin) as (_ & [_ B2] & _). cbn [grid_of] in *. unfold build_mesh in Hb. destruct (element_type x); [|discriminate]. inversion Hb; subst m. cbn [m_points grid_of].
  apply (move_In (translate (origin x))) in P. match type of P with In (_, ?c) _ => assert (E : box_position x (i * order x + il) (j * order x + jl) (k * order x + kl) = c) end; [|rewrite E; exact P].
  rewrite B2. cbn [box_grid g_lower g_delta]. rewrite !(delta_along x _ _ _ _ Hs). unfold box_position, translate. destruct (three x); cbn [app translate_from]; repeat (f_equal; try ring).
Qed.
Print Assumptions C142_box.

(* Those of a cylinder are so about twice the origin: both transformations add it. *)
Theorem C142_cylinder (x : input) (inner start : R) (m : mesh) i j k il jl kl :
  sensible x -> len x 1%nat = 360 \/ / 10 ^ 8 <= Rabs (len x 1%nat - 360) -> build_mesh (Cylinder inner start) x = Some m -> inside x i j k il jl kl ->
  exists n, point_of m x i j k il jl kl n /\
    In (n, cylinder_position (fun a => origin x a + origin x a) x inner start (i * order x + il) (j * order x + jl) (k * order x + kl)) (m_points m).
Proof.
  intros Hs Hl Hb Hin. assert (Hc : cyclic x = true <-> closes (Cylinder inner start) x) by (rewrite closes_ok; reflexivity).
  eexists. split; [apply (elem_point (Cylinder inner start) x m (cyclic x)); try assumption; reflexivity|]. pose proof (point_in (Cylinder inner start) x (cyclic x) i j k il jl kl Hs Hc Hin) as P. cbv zeta in P.
  destruct (wrapped (Cylinder inner start) x (cyclic x) _ _ _ _ _ _ Hs Hc Hin) as (_ & [_ B2] & _). unfold build_mesh in Hb. destruct (element_type x); [|discriminate]. inversion Hb; subst m. cbn [m_points].
  apply (move_In (cylinder_transform (origin x))) in P. apply (move_In (translate (origin x))) in P.
  match type of P with In (_, ?c) _ => assert (E : cylinder_position (fun a => origin x a + origin x a) x inner start (i * order x + il) (j * order x + jl) (k * order x + kl) = c) end; [|rewrite E; exact P].
  rewrite B2. cbn [grid_of cyl_grid g_lower g_delta]. rewrite !(delta_along x _ _ _ _ Hs). cbn [cyl_lower cyl_upper].
  set (jj := (if cyclic x then (j * order x + jl) mod (order x * elems x 1) else j * order x + jl)%nat).
  set (t := 0 + start * (PI / 180) + along x 1 jj * (len x 1%nat * (PI / 180) + start * (PI / 180) - (0 + start * (PI / 180)))).
  assert (T : cos t = cos (angle x start (j * order x + jl) * PI / 180) /\ sin t = sin (angle x start (j * order x + jl) * PI / 180)).
  { destruct Hs as (Hp & He & _). destruct Hin as (_ & Hj & _ & _ & Hjl & _).
    assert (Et : t = angle x start jj * PI / 180) by (unfold t, angle; field). rewrite Et. clear t Et.
    destruct (Nat.eq_dec jj (j * order x + jl)) as [-> | Hne]; [split; reflexivity|].
    assert (Hcy : cyclic x = true) by (destruct (cyclic x); [reflexivity|exfalso; apply Hne; reflexivity]).
    assert (L : len x 1%nat = 360) by (destruct Hl as [Hl | Hl]; [exact Hl|apply cyclic_ok in Hcy; lra]).
    assert (Hq : (j * order x + jl = order x * elems x 1)%nat). { unfold jj in Hne. rewrite Hcy in Hne. destruct (Nat.lt_ge_cases (j * order x + jl) (order x * elems x 1)); [rewrite Nat.mod_small in Hne by assumption; congruence|nia]. }
    assert (J0 : jj = 0%nat) by (unfold jj; rewrite Hcy, Hq; apply Nat.mod_same; pose proof (He 1%nat); nia). rewrite J0, Hq.
    assert (A0 : angle x start 0 * PI / 180 = start * PI / 180) by (unfold angle, along; cbn [INR]; field; split; apply Rgt_not_eq, INR_pos; [apply He|exact Hp]).
    assert (A1 : angle x start (order x * elems x 1) * PI / 180 = start * PI / 180 + 2 * INR 1 * PI) by (unfold angle, along; rewrite mult_INR, L; cbn [INR]; field; split; apply Rgt_not_eq, INR_pos; [apply He|exact Hp]).
    rewrite A0, A1. rewrite cos_period, sin_period. split; reflexivity. }
  destruct T as [T1 T2]. unfold cylinder_position. rewrite <- T1, <- T2. unfold translate, radius. destruct (three x); cbn [app cylinder_transform translate_from]; repeat (f_equal; try ring).
Qed.
Print Assumptions C142_cylinder.
(* So they are right when the axis goes through zero, *)
Theorem C142_cylinder_partial (x : input) (inner start : R) (m : mesh) i j k il jl kl :
  origin x 0%nat = 0 -> origin x 1%nat = 0 ->
  sensible x -> len x 1%nat = 360 \/ / 10 ^ 8 <= Rabs (len x 1%nat - 360) -> build_mesh (Cylinder inner start) x = Some m -> inside x i j k il jl kl ->
  exists n, point_of m x i j k il jl kl n /\ In (n, cylinder_position (origin x) x inner start (i * order x + il) (j * order x + jl) (k * order x + kl)) (m_points m).
Proof.
  intros O0 O1 Hs Hl Hb Hin. destruct (C142_cylinder x inner start m i j k il jl kl Hs Hl Hb Hin) as (n & Hn & Hp). exists n. split; [exact Hn|]. unfold cylinder_position in *. rewrite O0, O1 in *. rewrite !Rplus_0_l in *. exact Hp.
Qed.
Print Assumptions C142_cylinder_partial.
(* and wrong otherwise. *)
Definition pipe : input := Input true (fun _ => 1) (fun a => match a with 1%nat => 360 | _ => 1 end) (fun _ => 4%nat) 2.
Lemma pipe_sensible : sensible pipe. Proof. split; [cbn; lia|]. split; [intros a; cbn; lia|discriminate]. Qed.
Lemma pipe_inside : inside pipe 0 3 0 0 2 0. Proof. unfold inside. cbn. lia. Qed.
Theorem C142_cylinder_refuted : exists x inner start m i j k il jl kl n c,
  sensible x /\ len x 1%nat = 360 /\ accepted (Cylinder inner start) x = true /\ build_mesh (Cylinder inner start) x = Some m /\ inside x i j k il jl kl /\
  point_of m x i j k il jl kl n /\ In (n, c) (m_points m) /\ c <> cylinder_position (origin x) x inner start (i * order x + il) (j * order x + jl) (k * order x + kl).
Proof.
  destruct (build_mesh (Cylinder 1 0) pipe) as [m|] eqn:Hb; [|discriminate].
  destruct (C142_cylinder pipe 1 0 m 0 3 0 0 2 0 pipe_sensible (or_introl eq_refl) Hb pipe_inside) as (n & Hn & Hp).
  exists pipe, 1, 0, m, 0%nat, 3%nat, 0%nat, 0%nat, 2%nat, 0%nat, n. eexists. split; [exact pipe_sensible|]. split; [reflexivity|]. split.
  { cbn [accepted]. unfold cyl_valid. cbn [pipe len]. pose proof PI_RGT_0. pose proof PI_4. cbv zeta. destruct (Rlt_dec _ 0); [lra|]. destruct (Rlt_dec 360 _); [lra|reflexivity]. }
  split; [exact Hb|]. split; [exact pipe_inside|]. split; [exact Hn|]. split; [exact Hp|]. unfold cylinder_position. intros E. injection E as E _ . cbn [pipe origin] in E. lra.
Qed.
Print Assumptions C142_cylinder_refuted.

(* A cylinder of more than a full turn is to be refused; the test is made after the angle has been
   turned into radians, and two turns are accepted. *)
Theorem C142_turns_refuted : exists x inner start, sensible x /\ 360 < len x 1%nat /\ accepted (Cylinder inner start) x = true.
Proof.
  exists (Input true (fun _ => 0) (fun _ => 720) (fun _ => 4%nat) 1), 1, 0. split; [split; [cbn; lia|split; [intros a; cbn; lia|discriminate]]|]. cbn [len]. split; [lra|]. cbn [accepted]. unfold cyl_valid. cbn [len]. cbv zeta. pose proof PI_RGT_0. pose proof PI_4. destruct (Rlt_dec _ 0); [lra|]. destruct (Rlt_dec 360 _); [lra|reflexivity].
Qed.
Print Assumptions C142_turns_refuted.

(* A mesh is built for every order but zero, with the type of its order and dimension. *)
Theorem C142_type (s : shape) (x : input) :
  (build_mesh s x = None <-> order x = 0%nat) /\
  forall m, build_mesh s x = Some m -> m_type m = (if three x then (if Nat.eqb (order x) 1 then 12 else 72) else (if Nat.eqb (order x) 1 then 9 else 70))%nat.
Proof.
  unfold build_mesh, element_type. destruct (order x) as [|[|p]]; cbn [Nat.eqb]; (split; [split; intros H; try reflexivity; discriminate|intros m E; inversion E; destruct (three x); reflexivity]).
Qed.
Print Assumptions C142_type.

Example C142_met : sensible pipe /\ inside pipe 0 3 0 0 2 0 /\ closes (Cylinder 1 0) pipe /\ (exists m, build_mesh Box pipe = Some m) /\ points_in pipe true = 648%nat.
Proof.
  split; [exact pipe_sensible|]. split; [exact pipe_inside|]. split; [exists 1, 0; split; [reflexivity|]|split; [eexists; reflexivity|reflexivity]]. cbn [pipe len]. rewrite Rminus_diag_eq by reflexivity. rewrite Rabs_R0. apply Rinv_0_lt_compat, pow_lt. lra.
Qed.
