(** Properties C118, C119 and C120: quadrature, basis and arrays of the reference
    element. *)
From Coq Require Import Reals List Arith ZArith Lia Lra Psatz Permutation.
From Verif Require Import BaseArr BaseReal RefSpec RefTables RefModel RefLag RefQuad RefLoop RefElem RefThms.
Import ListNotations.
Open Scope R_scope.

(** * C118: the quadrature rules *)

(** Every Gauss-Legendre rule of the table integrates every polynomial of degree
    at most 2n - 1 over [-1,1], up to 1e-29 times the size of its coefficients. *)
Theorem C118_gauss : forall n c v, (1 <= n <= 19)%nat -> (length c <= 2 * n)%nat ->
  integral (peval c) (-1) 1 v ->
  exists xs ws, legendre_nodes n = Some xs /\ legendre_weights n = Some ws /\
    length xs = n /\ length ws = n /\
    Rabs (suml (fun xw => snd xw * peval c (fst xw)) (combine xs ws) - v) <= / IZR (10 ^ 29) * csize c.
Proof.
  intros n c v Hn L Hv. destruct (legendre_sound n Hn) as (xs & ws & E1 & E2 & L1 & L2 & A & _).
  exists xs, ws. split; [exact E1|]. split; [exact E2|]. split; [exact L1|]. split; [exact L2|].
  exact (accurate_poly _ _ xs ws c v A L Hv).
Qed.

(** Every Gauss-Lobatto rule does so for degrees up to 2n - 3: exactly with at most
    six points, and up to 1e-29 with more, save with 8 (1e-23) and 12 (1e-14). *)
Theorem C118_lobatto : forall n c v, (2 <= n <= 20)%nat -> (length c <= 2 * n - 2)%nat ->
  integral (peval c) (-1) 1 v ->
  exists xs ws, lobatto_nodes n = Some xs /\ lobatto_weights n = Some ws /\
    length xs = n /\ length ws = n /\
    Rabs (suml (fun xw => snd xw * peval c (fst xw)) (combine xs ws) - v) <=
      (if (n <=? 6)%nat then 0
       else if (n =? 8)%nat then / IZR (10 ^ 23)
       else if (n =? 12)%nat then / IZR (10 ^ 14) else / IZR (10 ^ 29)) * csize c.
Proof.
  intros n c v Hn L Hv. destruct (lobatto_sound n ltac:(lia)) as (xs & ws & E1 & E2 & L1 & L2 & A & _).
  exists xs, ws. split; [exact E1|]. split; [exact E2|]. split; [exact L1|]. split; [exact L2|].
  match goal with |- _ <= ?e * _ => replace e with (lobatto_error n) end.
  - exact (accurate_poly _ _ xs ws c v A L Hv).
  - unfold lobatto_error. destruct (n <=? 6)%nat; [reflexivity|].
    destruct (Nat.eqb_spec n 8) as [->|N8]; [reflexivity|].
    destruct (Nat.eqb_spec n 12) as [->|N12]; [reflexivity|].
    f_equal. f_equal. unfold lobatto_inverse.
    do 13 (destruct n as [|n]; [reflexivity || lia|]). reflexivity.
Qed.

(** The one-point Lobatto rule (used for the thermodynamic basis of order one) is
    the midpoint rule. *)
Theorem C118_midpoint : forall c v, (length c <= 2)%nat -> integral (peval c) (-1) 1 v ->
  lobatto_nodes 1 = Some [0] /\ lobatto_weights 1 = Some [2] /\ v = 2 * peval c 0.
Proof.
  intros c v L Hv. split; [reflexivity|]. split; [reflexivity|].
  destruct exact_1 as (_ & _ & A & _). pose proof (accurate_poly 0 2 [0] [2] c v A L Hv) as H.
  rewrite Rmult_0_l in H. unfold quad, suml in H. cbn [combine fold_right fst snd] in H.
  destruct (abs_bounds _ _ H). lra.
Qed.

(** The points are distinct, increasing, inside [-1,1] and mirrored; the weights
    are positive and mirrored; a Lobatto rule has both ends. *)
Definition well_placed (n : nat) (xs ws : list R) : Prop :=
  length xs = n /\ length ws = n /\
  (forall i j, (i < j < n)%nat -> nth i xs 0 < nth j xs 0) /\
  (forall x, In x xs -> -1 <= x <= 1) /\ (forall w, In w ws -> 0 < w) /\
  (forall i, (i < n)%nat -> nth (n - 1 - i) xs 0 = - nth i xs 0 /\ nth (n - 1 - i) ws 0 = nth i ws 0).

Lemma sound_well_placed eps D n xs ws : sound eps D n xs ws -> well_placed n xs ws.
Proof.
  intros (L1 & L2 & _ & Inc & B & P & Rx & Rw). unfold well_placed.
  split; [exact L1|]. split; [exact L2|].
  split; [intros i j H; apply (increasing_nth xs Inc); lia|]. split; [exact B|]. split; [exact P|].
  intros i Hi. split.
  - assert (E : nth i (rev xs) 0 = nth i (map Ropp xs) 0) by (rewrite Rx; reflexivity).
    rewrite rev_nth in E by lia. rewrite L1 in E. replace (n - S i)%nat with (n - 1 - i)%nat in E by lia.
    rewrite E. rewrite (nth_indep _ 0 (Ropp 0)) by (rewrite map_length; lia). apply map_nth.
  - assert (E : nth i (rev ws) 0 = nth i ws 0) by (rewrite Rw; reflexivity).
    rewrite rev_nth in E by lia. rewrite L2 in E. replace (n - S i)%nat with (n - 1 - i)%nat in E by lia. exact E.
Qed.

Lemma ends_z : forallb (fun n => match lobatto_nodes_z n with
    | Some (x :: r) => Z.eqb x (- 10 ^ 33) && Z.eqb (last r 0%Z) (10 ^ 33) | _ => false end) (seq 7 14) = true.
Proof. vm_compute. reflexivity. Qed.

Lemma lobatto_ends n xs : (2 <= n <= 20)%nat -> lobatto_nodes n = Some xs ->
  nth 0 xs 0 = -1 /\ nth (n - 1) xs 0 = 1.
Proof.
  intros Hn E. destruct (lobatto_sound n ltac:(lia)) as (ys & ws & E' & _ & L & _ & _ & _ & _ & _ & Rx & _).
  rewrite E' in E. injection E as ->.
  assert (H0 : nth 0 xs 0 = -1).
  { destruct (le_lt_dec n 6) as [H|H].
    - destruct n as [|[|[|[|[|[|[|n]]]]]]]; try lia; injection E' as <-; reflexivity.
    - assert (Hz : lobatto_nodes n = option_map (map dec) (lobatto_nodes_z n)) by (do 7 (destruct n as [|n]; [lia|]); reflexivity).
      rewrite Hz in E'. pose proof ends_z as C. rewrite forallb_forall in C.
      specialize (C n ltac:(apply in_seq; lia)). destruct (lobatto_nodes_z n) as [[|z r]|]; try discriminate.
      apply andb_prop in C as [C _]. apply Z.eqb_eq in C. cbn [option_map map] in E'. injection E' as <-.
      cbn [nth]. rewrite C. unfold dec. rewrite opp_IZR. field. apply not_0_IZR. discriminate. }
  split; [exact H0|].
  assert (E2 : nth 0 (rev xs) 0 = nth 0 (map Ropp xs) 0) by (rewrite Rx; reflexivity).
  rewrite rev_nth in E2 by lia. rewrite L in E2. replace (n - 1)%nat with (n - 1)%nat in E2 by lia. rewrite E2.
  rewrite (nth_indep _ 0 (Ropp 0)) by (rewrite map_length; lia). rewrite map_nth, H0. ring.
Qed.

Theorem C118_points : forall n,
  ((1 <= n <= 19)%nat -> exists xs ws, legendre_nodes n = Some xs /\ legendre_weights n = Some ws /\ well_placed n xs ws) /\
  ((2 <= n <= 20)%nat -> exists xs ws, lobatto_nodes n = Some xs /\ lobatto_weights n = Some ws /\ well_placed n xs ws /\
     nth 0 xs 0 = -1 /\ nth (n - 1) xs 0 = 1).
Proof.
  intros n. split; intros Hn.
  - destruct (legendre_sound n Hn) as (xs & ws & E1 & E2 & S). exists xs, ws.
    split; [exact E1|]. split; [exact E2|]. eapply sound_well_placed; exact S.
  - destruct (lobatto_sound n ltac:(lia)) as (xs & ws & E1 & E2 & S). exists xs, ws.
    split; [exact E1|]. split; [exact E2|]. split; [eapply sound_well_placed; exact S|].
    apply lobatto_ends; assumption.
Qed.

(** A schedule of a parallel loop: its cells in some order. *)
Definition schedule (sch : list (nat * nat * nat) -> list (nat * nat * nat)) : Prop :=
  forall l, Permutation (sch l) l.

Lemma schedule_in sch : schedule sch -> forall l c, In c (sch l) <-> In c l.
Proof.
  intros H l c. split; intros Hin.
  - apply (Permutation_in _ (H l) Hin).
  - apply (Permutation_in _ (Permutation_sym (H l)) Hin).
Qed.

(** The points of the element integrate every polynomial of degree less than 4p in
    each variable over the cube. *)
Theorem C118_element : forall sch p, schedule sch -> (1 <= p <= 9)%nat ->
  exists e X W Y V, init sch p = Some e /\
    table (gauss_point_positions e) (2 * p * (2 * p) * (2 * p)) 3 X /\
    table (gauss_point_weights e) (2 * p * (2 * p) * (2 * p)) 1 W /\
    table (lobotto_point_positions e) ((2 * p + 1) * (2 * p + 1) * (2 * p + 1)) 3 Y /\
    table (lobotto_point_weights e) ((2 * p + 1) * (2 * p + 1) * (2 * p + 1)) 1 V /\
    forall f v, degree3 (4 * p) f -> integral3 (eval3 f) v ->
      Rabs (sumn (2 * p * (2 * p) * (2 * p)) (fun q => W q 0%nat * eval3 f (at_row X q)) - v)
        <= 19 * / IZR (10 ^ 29) * size3 f /\
      Rabs (sumn ((2 * p + 1) * (2 * p + 1) * (2 * p + 1)) (fun q => V q 0%nat * eval3 f (at_row Y q)) - v)
        <= 19 * / IZR (10 ^ 29) * size3 f.
Proof.
  intros sch p HS Hp. destruct (init_filled sch p ltac:(lia) (schedule_in sch HS)) as (e & E & F).
  do 5 eexists. split; [exact E|]. split; [apply F|]. split; [apply F|]. split; [apply F|]. split; [apply F|].
  intros f v HD Hv.
  assert (B : 0 <= / IZR (10 ^ 29) <= 1).
  { assert (1 <= IZR (10 ^ 29)) by (apply IZR_le; lia). split; [left; apply Rinv_0_lt_compat; lra|].
    apply (Rmult_le_reg_r (IZR (10 ^ 29))); [lra|]. rewrite Rinv_l by lra. lra. }
  split.
  - destruct (legendre_sound (2 * p) ltac:(lia)) as (xs & ws & E1 & E2 & S).
    pose proof (element_rule (2 * p) xs ws (/ IZR (10 ^ 29)) (2 * (2 * p)) f v S B) as H.
    replace (2 * (2 * p))%nat with (4 * p)%nat in H by lia. specialize (H HD Hv).
    eapply Rle_trans; [|exact H]. right. f_equal. f_equal. apply sumn_ext. intros q _.
    unfold entry, grid. rewrite E1, E2. reflexivity.
  - destruct (lobatto_sound (2 * p + 1) ltac:(lia)) as (xs & ws & E1 & E2 & S).
    assert (S' : sound (/ IZR (10 ^ 29)) (2 * (2 * p + 1) - 2) (2 * p + 1) xs ws).
    { destruct S as (S1 & S2 & S3 & S4). split; [exact S1|]. split; [exact S2|]. split; [|exact S4].
      intros d Hd. eapply Rle_trans; [apply S3; exact Hd|]. unfold lobatto_error.
      destruct (Nat.leb_spec (2 * p + 1) 6); [lra|]. right. f_equal. f_equal.
      assert (K : (p = 3 \/ p = 4 \/ p = 5 \/ p = 6 \/ p = 7 \/ p = 8 \/ p = 9)%nat) by lia.
      destruct K as [-> | [-> | [-> | [-> | [-> | [-> | ->]]]]]]; reflexivity. }
    pose proof (element_rule (2 * p + 1) xs ws (/ IZR (10 ^ 29)) (2 * (2 * p + 1) - 2) f v S' B) as H.
    replace (2 * (2 * p + 1) - 2)%nat with (4 * p)%nat in H by lia. specialize (H HD Hv).
    eapply Rle_trans; [|exact H]. right. f_equal. f_equal. apply sumn_ext. intros q _.
    unfold entry, grid. rewrite E1, E2. reflexivity.
Qed.

(** A digit is wrong in the fourth and ninth of the twelve Lobatto points
    (0.632876153031869... for 0.632876153031860...): the integral of x^2 is off by
    more than 4e-15, where every other rule is right to rounding. *)
Theorem C118_twelve_refuted : exists xs ws v,
  lobatto_nodes 12 = Some xs /\ lobatto_weights 12 = Some ws /\ integral (peval [0; 0; 1]) (-1) 1 v /\
  (length [0; 0; 1]%R <= 2 * 12 - 2)%nat /\
  suml (fun xw => snd xw * peval [0; 0; 1] (fst xw)) (combine xs ws) - v > 4 / IZR (10 ^ 15) * csize [0; 0; 1].
Proof.
  destruct (lobatto_nodes_z 12) as [xs|] eqn:Ex; [|discriminate].
  destruct (lobatto_weights_z 12) as [ws|] eqn:Ew; [|discriminate].
  exists (map dec xs), (map dec ws), (2 / 3).
  split; [cbn [lobatto_nodes]; rewrite Ex; reflexivity|]. split; [cbn [lobatto_weights]; rewrite Ew; reflexivity|].
  split.
  { apply (integral_ext (fun x => x ^ 2)); [intros x; cbn [peval pow]; ring|]. rewrite <- moment_2. apply integral_power. }
  split; [cbn; lia|].
  assert (S : forall ls lw, suml (fun xw => snd xw * peval [0; 0; 1] (fst xw)) (combine (map dec ls) (map dec lw))
     = IZR (fold_right (fun xw s => snd xw * (fst xw * fst xw) + s)%Z 0%Z (combine ls lw)) / (IZR (10 ^ 33) ^ 3)).
  { induction ls as [|x ls IH]; intros [|w lw]; try (unfold suml; cbn [map combine fold_right]; unfold Rdiv; ring).
    cbn [map combine fold_right]. rewrite suml_cons, IH, plus_IZR, !mult_IZR. cbn [fst snd peval].
    unfold dec. field. apply not_0_IZR. discriminate. }
  rewrite S. set (m := fold_right _ _ _).
  assert (Hm : (3 * m > 2 * (10 ^ 33) ^ 3 + 12 * 10 ^ 84)%Z).
  { assert (C : match lobatto_nodes_z 12, lobatto_weights_z 12 with
      | Some xs, Some ws => Z.ltb (2 * (10 ^ 33) ^ 3 + 12 * 10 ^ 84)
           (3 * fold_right (fun xw s => snd xw * (fst xw * fst xw) + s)%Z 0%Z (combine xs ws))
      | _, _ => false end = true) by (vm_compute; reflexivity).
    rewrite Ex, Ew in C. apply Z.ltb_lt in C. unfold m. lia. }
  apply Z.gt_lt, IZR_lt in Hm. rewrite plus_IZR, !mult_IZR in Hm.
  replace (csize [0; 0; 1]) with 1 by (unfold csize, suml; cbn [fold_right]; rewrite Rabs_R0, Rabs_R1; ring).
  assert (P15 : 0 < IZR (10 ^ 15)) by (apply IZR_lt; reflexivity).
  assert (P99 : IZR (10 ^ 33) ^ 3 = IZR ((10 ^ 33) ^ 3)) by (rewrite pow_IZR; reflexivity).
  assert (Q : IZR ((10 ^ 33) ^ 3) = IZR (10 ^ 84) * IZR (10 ^ 15)) by (rewrite <- mult_IZR; reflexivity).
  assert (P84 : 0 < IZR (10 ^ 84)) by (apply IZR_lt; reflexivity).
  rewrite P99. rewrite Q in *. apply Rlt_gt.
  set (a := IZR (10 ^ 84)) in *. set (b := IZR (10 ^ 15)) in *. set (M := IZR m) in *.
  apply (Rmult_lt_reg_r (3 * (a * b))); [apply Rmult_lt_0_compat; [lra|apply Rmult_lt_0_compat; assumption]|].
  replace (4 / b * 1 * (3 * (a * b))) with (12 * a) by (field; lra).
  replace ((M / (a * b) - 2 / 3) * (3 * (a * b))) with (3 * M - 2 * (a * b)) by (field; lra).
  lra.
Qed.

(** The tables end at 20 and 19 points.  From order ten on all points are at the
    centre with weight zero, and every integral is zero. *)
Theorem C118_order_ten_refuted : forall sch p, schedule sch -> (10 <= p)%nat ->
  exists e W, init sch p = Some e /\ table (gauss_point_weights e) (2 * p * (2 * p) * (2 * p)) 1 W /\
    (forall g : nat -> R, sumn (2 * p * (2 * p) * (2 * p)) (fun q => W q 0%nat * g q) = 0) /\
    integral3 (eval3 [(1, (0, 0, 0)%nat)]) 8.
Proof.
  intros sch p HS Hp. destruct (init_filled sch p ltac:(lia) (schedule_in sch HS)) as (e & E & F).
  do 2 eexists. split; [exact E|]. split; [apply F|]. split.
  - intros g. rewrite (sumn_ext _ _ (fun _ => 0)); [apply sumn_0|]. intros q _.
    unfold entry. replace (legendre_weights (2 * p)) with (@None (list R)); [ring|].
    remember (2 * p)%nat as n eqn:En. do 20 (destruct n as [|n]; [lia|]). reflexivity.
  - pose proof (integral3_exists [(1, (0, 0, 0)%nat)]) as H. unfold suml in H. cbn [fold_right] in H.
    rewrite moment_0 in H. replace 8 with (1 * (2 * 2 * 2) + 0) by ring. exact H.
Qed.

(** * C119: the basis *)

(** The kinematic basis returns, at every point of both rules, the value and the
    gradient of every polynomial of degree at most p in each variable from its
    values at the nodes. *)
Theorem C119_kinematic : forall sch p, schedule sch -> (1 <= p <= 9)%nat ->
  let n3 := ((p + 1) * (p + 1) * (p + 1))%nat in
  let g3 := (2 * p * (2 * p) * (2 * p))%nat in
  let l3 := ((2 * p + 1) * (2 * p + 1) * (2 * p + 1))%nat in
  exists e N X B G Y C H, init sch p = Some e /\
    table (dof_positions e) n3 3 N /\
    table (gauss_point_positions e) g3 3 X /\ table (gauss_point_basis e) g3 n3 B /\
    table (gauss_point_grad_basis e) g3 (n3 * 3) G /\
    table (lobotto_point_positions e) l3 3 Y /\ table (lobotto_point_basis e) l3 n3 C /\
    table (lobotto_point_grad_basis e) l3 (n3 * 3) H /\
    forall f, degree3 (p + 1) f ->
      (forall q, (q < g3)%nat ->
         sumn n3 (fun a => eval3 f (at_row N a) * B q a) = eval3 f (at_row X q) /\
         gradient3 (eval3 f) (at_row X q)
           (sumn n3 (fun a => eval3 f (at_row N a) * G q (a * 3)%nat),
            sumn n3 (fun a => eval3 f (at_row N a) * G q (a * 3 + 1)%nat),
            sumn n3 (fun a => eval3 f (at_row N a) * G q (a * 3 + 2)%nat))) /\
      (forall q, (q < l3)%nat ->
         sumn n3 (fun a => eval3 f (at_row N a) * C q a) = eval3 f (at_row Y q) /\
         gradient3 (eval3 f) (at_row Y q)
           (sumn n3 (fun a => eval3 f (at_row N a) * H q (a * 3)%nat),
            sumn n3 (fun a => eval3 f (at_row N a) * H q (a * 3 + 1)%nat),
            sumn n3 (fun a => eval3 f (at_row N a) * H q (a * 3 + 2)%nat))).
Proof.
  intros sch p HS Hp n3 g3 l3. destruct (init_filled sch p ltac:(lia) (schedule_in sch HS)) as (e & E & F).
  assert (HD : distinct (p + 1) (fun i => entry lobatto_nodes (2 * p + 1) (2 * i)))
    by (apply lobatto_distinct; lia).
  exists e. do 7 eexists. split; [exact E|]. split; [apply F|]. split; [apply F|]. split; [apply F|]. split; [apply F|].
  split; [apply F|]. split; [apply F|]. split; [apply F|].
  assert (D3 : forall a d, (d < 3)%nat -> ((a * 3 + d) / 3 = a /\ (a * 3 + d) mod 3 = d)%nat).
  { intros a d Hd. rewrite Nat.add_comm, Nat.div_add, Nat.mod_add, Nat.div_small, Nat.mod_small by lia. lia. }
  intros f Hf. split; intros q Hq; (split; [apply interpolate; assumption|]).
  - rewrite (sumn_ext n3 _ _ (fun a _ => f_equal (Rmult _) (f_equal2 (dphi _ _ _)
       (proj1 (eq_ind _ (fun m => (m / 3 = a /\ m mod 3 = 0)%nat) (D3 a 0%nat ltac:(lia)) _ (Nat.add_0_r _)))
       (proj2 (eq_ind _ (fun m => (m / 3 = a /\ m mod 3 = 0)%nat) (D3 a 0%nat ltac:(lia)) _ (Nat.add_0_r _)))))).
    rewrite (sumn_ext n3 _ _ (fun a _ => f_equal (Rmult _) (f_equal2 (dphi _ _ _)
       (proj1 (D3 a 1%nat ltac:(lia))) (proj2 (D3 a 1%nat ltac:(lia)))))).
    rewrite (sumn_ext n3 _ _ (fun a _ => f_equal (Rmult _) (f_equal2 (dphi _ _ _)
       (proj1 (D3 a 2%nat ltac:(lia))) (proj2 (D3 a 2%nat ltac:(lia)))))).
    apply differentiate; assumption.
  - rewrite (sumn_ext n3 _ _ (fun a _ => f_equal (Rmult _) (f_equal2 (dphi _ _ _)
       (proj1 (eq_ind _ (fun m => (m / 3 = a /\ m mod 3 = 0)%nat) (D3 a 0%nat ltac:(lia)) _ (Nat.add_0_r _)))
       (proj2 (eq_ind _ (fun m => (m / 3 = a /\ m mod 3 = 0)%nat) (D3 a 0%nat ltac:(lia)) _ (Nat.add_0_r _)))))).
    rewrite (sumn_ext n3 _ _ (fun a _ => f_equal (Rmult _) (f_equal2 (dphi _ _ _)
       (proj1 (D3 a 1%nat ltac:(lia))) (proj2 (D3 a 1%nat ltac:(lia)))))).
    rewrite (sumn_ext n3 _ _ (fun a _ => f_equal (Rmult _) (f_equal2 (dphi _ _ _)
       (proj1 (D3 a 2%nat ltac:(lia))) (proj2 (D3 a 2%nat ltac:(lia)))))).
    apply differentiate; assumption.
Qed.

(** In particular the basis sums to one and its gradients to zero. *)
Theorem C119_unity : forall sch p, schedule sch -> (1 <= p <= 9)%nat ->
  let n3 := ((p + 1) * (p + 1) * (p + 1))%nat in
  let g3 := (2 * p * (2 * p) * (2 * p))%nat in
  exists e B G, init sch p = Some e /\
    table (gauss_point_basis e) g3 n3 B /\ table (gauss_point_grad_basis e) g3 (n3 * 3) G /\
    forall q, (q < g3)%nat -> sumn n3 (fun a => B q a) = 1 /\
      sumn n3 (fun a => G q (a * 3)%nat) = 0 /\ sumn n3 (fun a => G q (a * 3 + 1)%nat) = 0 /\
      sumn n3 (fun a => G q (a * 3 + 2)%nat) = 0.
Proof.
  intros sch p HS Hp n3 g3.
  destruct (C119_kinematic sch p HS Hp) as (e & N & X & B & G & Y & C & H & E & TN & TX & TB & TG & _ & _ & _ & K).
  exists e, B, G. split; [exact E|]. split; [exact TB|]. split; [exact TG|]. intros q Hq.
  assert (Hf : degree3 (p + 1) [(1, (0, 0, 0)%nat)]).
  { intros c i j k [Eq|[]]. injection Eq as <- <- <- <-. lia. }
  destruct (K _ Hf) as [K1 _]. destruct (K1 q Hq) as [K2 K3].
  assert (V : forall pt, eval3 [(1, (0, 0, 0)%nat)] pt = 1).
  { intros [[x y] z]. unfold eval3, suml. cbn [fold_right pow]. ring. }
  assert (One : forall (g : nat -> R), sumn n3 (fun a => eval3 [(1, (0, 0, 0)%nat)] (at_row N a) * g a) = sumn n3 g)
    by (intros g; apply sumn_ext; intros a _; rewrite V; ring).
  fold n3 in K2, K3. rewrite One, V in K2. rewrite !One in K3. split; [exact K2|].
  destruct (at_row X q) as [[x y] z]. destruct K3 as (G1 & G2 & G3).
  assert (Z : forall (h : R -> R) t l, (forall s, h s = 1) -> derivable_pt_lim h t l -> l = 0).
  { intros h t l Hh Hd. apply (uniqueness_limite h t); [exact Hd|].
    apply (derive_ext (fun _ => 1)); [intros; symmetry; apply Hh|apply derivable_pt_lim_const]. }
  split; [|split].
  - exact (Z _ x _ (fun t => V (t, y, z)) G1).
  - exact (Z _ y _ (fun t => V (x, t, z)) G2).
  - exact (Z _ z _ (fun t => V (x, y, t)) G3).
Qed.

(** The nodes are points of the Lobatto rule, where [dof_lobatto_map] says; there
    each basis function is one at its node and zero at the others. *)
Theorem C119_nodal : forall sch p, schedule sch -> (1 <= p <= 9)%nat ->
  let n3 := ((p + 1) * (p + 1) * (p + 1))%nat in
  let l3 := ((2 * p + 1) * (2 * p + 1) * (2 * p + 1))%nat in
  exists e N Y C M, init sch p = Some e /\
    table (dof_positions e) n3 3 N /\ table (lobotto_point_positions e) l3 3 Y /\
    table (lobotto_point_basis e) l3 n3 C /\ table (dof_lobatto_map e) n3 1 M /\
    forall a b, (a < n3)%nat -> (b < n3)%nat ->
      (M a 0 < l3)%nat /\ at_row Y (M a 0%nat) = at_row N a /\
      C (M a 0%nat) b = (if (a =? b)%nat then 1 else 0) /\ (a <> b -> M a 0%nat <> M b 0%nat).
Proof.
  intros sch p HS Hp n3 l3. destruct (init_filled sch p ltac:(lia) (schedule_in sch HS)) as (e & E & F).
  assert (HD : distinct (p + 1) (fun i => entry lobatto_nodes (2 * p + 1) (2 * i)))
    by (apply lobatto_distinct; lia).
  exists e. do 4 eexists. split; [exact E|]. split; [apply F|]. split; [apply F|]. split; [apply F|]. split; [apply F|].
  intros a b Ha Hb. cbv beta.
  destruct (rid_onto _ a Ha) as (i & j & k & (Hi & Hj & Hk) & Ea).
  destruct (rid_onto _ b Hb) as (i' & j' & k' & (Hi' & Hj' & Hk') & Eb).
  assert (Eq : at_row (grid (2 * p + 1) (entry lobatto_nodes (2 * p + 1)))
                 (rid (2 * p + 1) (2 * ix (p + 1) a) (2 * iy (p + 1) a) (2 * iz (p + 1) a))
             = at_row (grid (p + 1) (fun i => entry lobatto_nodes (2 * p + 1) (2 * i))) a).
  { rewrite <- Ea. destruct (rid_ix _ i j k Hi Hj Hk) as (Q1 & Q2 & Q3).
    unfold at_row, grid. rewrite Q1, Q2, Q3.
    destruct (rid_ix (2 * p + 1) (2 * i) (2 * j) (2 * k) ltac:(lia) ltac:(lia) ltac:(lia)) as (-> & -> & ->). reflexivity. }
  split; [|split; [|split]].
  - rewrite <- Ea. destruct (rid_ix _ i j k Hi Hj Hk) as (-> & -> & ->). apply rid_lt; lia.
  - exact Eq.
  - rewrite Eq. apply phi_node; assumption.
  - intros N Q. apply N. rewrite <- Ea, <- Eb in Q |- *.
    destruct (rid_ix _ i j k Hi Hj Hk) as (Q1 & Q2 & Q3). destruct (rid_ix _ i' j' k' Hi' Hj' Hk') as (R1 & R2 & R3).
    rewrite Q1, Q2, Q3, R1, R2, R3 in Q. apply rid_inj in Q as (U1 & U2 & U3); try lia.
    replace i' with i by lia. replace j' with j by lia. replace k' with k by lia. reflexivity.
Qed.

(** The thermodynamic basis returns every polynomial of degree at most p - 1 from
    its values at its own nodes, the tensor grid of [dg_dof_positions_1d]. *)
Theorem C119_thermodynamic : forall sch p, schedule sch -> (1 <= p <= 9)%nat ->
  let g3 := (2 * p * (2 * p) * (2 * p))%nat in
  let l3 := ((2 * p + 1) * (2 * p + 1) * (2 * p + 1))%nat in
  exists e D X B Y C, init sch p = Some e /\
    table (dg_dof_positions_1d e) p 1 D /\
    table (gauss_point_positions e) g3 3 X /\ table (gauss_point_dg_basis e) g3 (p * p * p) B /\
    table (lobotto_point_positions e) l3 3 Y /\ table (lobotto_point_dg_basis e) l3 (p * p * p) C /\
    (forall i j, (i < p)%nat -> (j < p)%nat -> i <> j -> D i 0%nat <> D j 0%nat) /\
    forall f, degree3 p f ->
      let value a := eval3 f (D (a mod p) 0, D ((a / p) mod p) 0, D (a / p / p) 0)%nat in
      (forall q, (q < g3)%nat -> sumn (p * p * p) (fun a => value a * B q a) = eval3 f (at_row X q)) /\
      (forall q, (q < l3)%nat -> sumn (p * p * p) (fun a => value a * C q a) = eval3 f (at_row Y q)).
Proof.
  intros sch p HS Hp g3 l3. destruct (init_filled sch p ltac:(lia) (schedule_in sch HS)) as (e & E & F).
  assert (HD : distinct p (fun i => entry lobatto_nodes (2 * p - 1) (2 * i))).
  { pose proof (lobatto_distinct (2 * p - 1) (p - 1) ltac:(lia) ltac:(lia)) as H.
    replace (p - 1 + 1)%nat with p in H by lia. exact H. }
  exists e. do 5 eexists. split; [exact E|]. split; [apply F|]. split; [apply F|]. split; [apply F|].
  split; [apply F|]. split; [apply F|]. split; [exact HD|].
  intros f Hf value. split; intros q Hq;
    exact (interpolate p (fun i => entry lobatto_nodes (2 * p - 1) (2 * i)) f _ HD Hf).
Qed.

(** The array of positions of the thermodynamic nodes is never filled: from order
    two on it does not hold the nodes. *)
Theorem C119_dg_positions_refuted : forall sch p, schedule sch -> (2 <= p <= 9)%nat ->
  exists e D, init sch p = Some e /\ table (dg_dof_positions_1d e) p 1 D /\
    table (dg_dof_positions e) (p * p * p) 3 (fun _ _ => 0) /\ D 0%nat 0%nat = -1.
Proof.
  intros sch p HS Hp. destruct (init_filled sch p ltac:(lia) (schedule_in sch HS)) as (e & E & F).
  exists e. eexists. split; [exact E|]. split; [apply F|]. split; [apply F|].
  cbv beta. unfold entry. destruct (lobatto_sound (2 * p - 1) ltac:(lia)) as (xs & ws & Ex & _).
  rewrite Ex. exact (proj1 (lobatto_ends (2 * p - 1) xs ltac:(lia) Ex)).
Qed.

(** * C120: filling the arrays *)
Definition same {A} (a b : arr A) : Prop := nrow a = nrow b /\ ncol a = ncol b /\ forall i j, aget a i j = aget b i j.

Lemma table_same {A} (a b : arr A) r c f : table a r c f -> table b r c f -> same a b.
Proof.
  intros (R1 & C1 & H1) (R2 & C2 & H2). split; [congruence|]. split; [congruence|].
  intros i j. destruct (Nat.lt_ge_cases i r) as [Hi|Hi], (Nat.lt_ge_cases j c) as [Hj|Hj];
    try (rewrite H1, H2 by assumption; reflexivity); unfold aget; rewrite R1, R2, C1, C2;
    try (rewrite (proj2 (Nat.ltb_ge i r) Hi)); try (rewrite (proj2 (Nat.ltb_ge j c) Hj));
    rewrite ?Bool.andb_false_r; reflexivity.
Qed.

(** For every order but zero the element is built without an access out of range,
    and the arrays do not depend on the order in which the parallel loops run. *)
Theorem C120_schedules : forall s1 s2 p, schedule s1 -> schedule s2 -> (1 <= p)%nat ->
  exists e1 e2, init s1 p = Some e1 /\ init s2 p = Some e2 /\
    same (lob_points_1D e1) (lob_points_1D e2) /\ same (dual_lob_points_1D e1) (dual_lob_points_1D e2) /\
    same (lob_weights_1D e1) (lob_weights_1D e2) /\ same (leg_nodes_1D e1) (leg_nodes_1D e2) /\
    same (leg_weights_1D e1) (leg_weights_1D e2) /\
    same (lobotto_point_positions e1) (lobotto_point_positions e2) /\
    same (lobotto_point_weights e1) (lobotto_point_weights e2) /\
    same (dof_lobatto_map e1) (dof_lobatto_map e2) /\ same (dual_dof_lobatto_map e1) (dual_dof_lobatto_map e2) /\
    same (gauss_point_positions e1) (gauss_point_positions e2) /\
    same (gauss_point_weights e1) (gauss_point_weights e2) /\
    same (dof_positions_1d e1) (dof_positions_1d e2) /\ same (dg_dof_positions_1d e1) (dg_dof_positions_1d e2) /\
    same (dof_positions e1) (dof_positions e2) /\ same (dg_dof_positions e1) (dg_dof_positions e2) /\
    same (lobotto_point_basis e1) (lobotto_point_basis e2) /\ same (gauss_point_basis e1) (gauss_point_basis e2) /\
    same (gauss_point_dg_basis e1) (gauss_point_dg_basis e2) /\
    same (lobotto_point_dg_basis e1) (lobotto_point_dg_basis e2) /\
    same (lobotto_point_grad_basis e1) (lobotto_point_grad_basis e2) /\
    same (gauss_point_grad_basis e1) (gauss_point_grad_basis e2).
Proof.
  intros s1 s2 p H1 H2 Hp.
  destruct (init_filled s1 p Hp (schedule_in s1 H1)) as (e1 & E1 & F1).
  destruct (init_filled s2 p Hp (schedule_in s2 H2)) as (e2 & E2 & F2).
  exists e1, e2. split; [exact E1|]. split; [exact E2|]. destruct F1, F2.
  repeat match goal with |- _ /\ _ => split end; eapply table_same; eassumption.
Qed.

(** The numbering: points and nodes are numbered with the first direction running
    fastest, and hold the point of each direction's index. *)
Theorem C120_layout : forall sch p i j k, schedule sch -> (1 <= p)%nat ->
  (i <= p)%nat -> (j <= p)%nat -> (k <= p)%nat ->
  exists e L, init sch p = Some e /\ table (lob_points_1D e) (2 * p + 1) 1 L /\
    let a := (i + j * (p + 1) + k * (p + 1) * (p + 1))%nat in
    aget (dof_positions_1d e) i 0 = Some (L (2 * i)%nat 0%nat) /\
    aget (dof_positions e) a 0 = Some (L (2 * i)%nat 0%nat) /\
    aget (dof_positions e) a 1 = Some (L (2 * j)%nat 0%nat) /\
    aget (dof_positions e) a 2 = Some (L (2 * k)%nat 0%nat) /\
    aget (dof_lobatto_map e) a 0
      = Some (2 * i + 2 * j * (2 * p + 1) + 2 * k * (2 * p + 1) * (2 * p + 1))%nat.
Proof.
  intros sch p i j k HS Hp Hi Hj Hk. destruct (init_filled sch p Hp (schedule_in sch HS)) as (e & E & F).
  exists e. eexists. split; [exact E|]. split; [apply F|]. intros a.
  change a with (rid (p + 1) i j k). clear a. cbv beta.
  pose proof (rid_lt (p + 1) i j k ltac:(lia) ltac:(lia) ltac:(lia)) as Ha.
  destruct (rid_ix (p + 1) i j k ltac:(lia) ltac:(lia) ltac:(lia)) as (Q1 & Q2 & Q3).
  split; [rewrite (table_get _ _ _ _ i 0 (F_pos1 p e F)) by lia; reflexivity|].
  split; [rewrite (table_get _ _ _ _ _ 0 (F_pos p e F)) by lia; unfold grid; rewrite Q1; reflexivity|].
  split; [rewrite (table_get _ _ _ _ _ 1 (F_pos p e F)) by lia; unfold grid; rewrite Q2; reflexivity|].
  split; [rewrite (table_get _ _ _ _ _ 2 (F_pos p e F)) by lia; unfold grid; rewrite Q3; reflexivity|].
  rewrite (table_get _ _ _ _ _ 0 (F_map p e F)) by lia. rewrite Q1, Q2, Q3. reflexivity.
Qed.

Theorem C120_points : forall sch p i j k, schedule sch -> (1 <= p)%nat ->
  exists e L V G W, init sch p = Some e /\
    table (lob_points_1D e) (2 * p + 1) 1 L /\ table (lob_weights_1D e) (2 * p + 1) 1 V /\
    table (leg_nodes_1D e) (2 * p) 1 G /\ table (leg_weights_1D e) (2 * p) 1 W /\
    ((i < 2 * p + 1)%nat -> (j < 2 * p + 1)%nat -> (k < 2 * p + 1)%nat ->
       let q := (i + j * (2 * p + 1) + k * (2 * p + 1) * (2 * p + 1))%nat in
       aget (lobotto_point_positions e) q 0 = Some (L i 0%nat) /\
       aget (lobotto_point_positions e) q 1 = Some (L j 0%nat) /\
       aget (lobotto_point_positions e) q 2 = Some (L k 0%nat) /\
       aget (lobotto_point_weights e) q 0 = Some (V i 0%nat * V j 0%nat * V k 0%nat)) /\
    ((i < 2 * p)%nat -> (j < 2 * p)%nat -> (k < 2 * p)%nat ->
       let q := (i + j * (2 * p) + k * (2 * p) * (2 * p))%nat in
       aget (gauss_point_positions e) q 0 = Some (G i 0%nat) /\
       aget (gauss_point_positions e) q 1 = Some (G j 0%nat) /\
       aget (gauss_point_positions e) q 2 = Some (G k 0%nat) /\
       aget (gauss_point_weights e) q 0 = Some (W i 0%nat * W j 0%nat * W k 0%nat)) /\
    ((i < p)%nat -> (j < p)%nat -> (k < p)%nat ->
       aget (dual_dof_lobatto_map e) (i + j * p + k * p * p) 0
         = Some (2 * i + 2 * j * (2 * p - 1) + 2 * k * (2 * p - 1) * (2 * p - 1))%nat).
Proof.
  intros sch p i j k HS Hp. destruct (init_filled sch p Hp (schedule_in sch HS)) as (e & E & F).
  exists e. do 4 eexists. split; [exact E|]. split; [apply F|]. split; [apply F|]. split; [apply F|]. split; [apply F|].
  cbv beta. split; [|split]; intros Hi Hj Hk.
  - intros q. change q with (rid (2 * p + 1) i j k). clear q.
    pose proof (rid_lt (2 * p + 1) i j k Hi Hj Hk) as Ha. destruct (rid_ix (2 * p + 1) i j k Hi Hj Hk) as (Q1 & Q2 & Q3).
    split; [rewrite (table_get _ _ _ _ _ 0 (F_lobp p e F)) by lia; unfold grid; rewrite Q1; reflexivity|].
    split; [rewrite (table_get _ _ _ _ _ 1 (F_lobp p e F)) by lia; unfold grid; rewrite Q2; reflexivity|].
    split; [rewrite (table_get _ _ _ _ _ 2 (F_lobp p e F)) by lia; unfold grid; rewrite Q3; reflexivity|].
    rewrite (table_get _ _ _ _ _ 0 (F_lobpw p e F)) by lia. rewrite Q1, Q2, Q3. reflexivity.
  - intros q. change q with (rid (2 * p) i j k). clear q.
    pose proof (rid_lt (2 * p) i j k Hi Hj Hk) as Ha. destruct (rid_ix (2 * p) i j k Hi Hj Hk) as (Q1 & Q2 & Q3).
    split; [rewrite (table_get _ _ _ _ _ 0 (F_gp p e F)) by lia; unfold grid; rewrite Q1; reflexivity|].
    split; [rewrite (table_get _ _ _ _ _ 1 (F_gp p e F)) by lia; unfold grid; rewrite Q2; reflexivity|].
    split; [rewrite (table_get _ _ _ _ _ 2 (F_gp p e F)) by lia; unfold grid; rewrite Q3; reflexivity|].
    rewrite (table_get _ _ _ _ _ 0 (F_gpw p e F)) by lia. rewrite Q1, Q2, Q3. reflexivity.
  - change (i + j * p + k * p * p)%nat with (rid p i j k).
    pose proof (rid_lt p i j k Hi Hj Hk) as Ha. destruct (rid_ix p i j k Hi Hj Hk) as (Q1 & Q2 & Q3).
    rewrite (table_get _ _ _ _ _ 0 (F_dualmap p e F)) by lia. rewrite Q1, Q2, Q3. reflexivity.
Qed.

(** Order zero reads and writes past the end of one-entry arrays. *)
Theorem C120_order_zero_refuted : forall sch, init sch 0 = None.
Proof.
  intros sch. unfold init.
  change (num_lobatto_1d 0) with 2%nat. change (num_dual_lobatto_1d 0) with 1%nat.
  change (num_gauss_1d 0) with 1%nat. change (num_dofs_1d 0) with 2%nat. change (num_dg_dofs_1d 0) with 1%nat.
  destruct (store lobatto_nodes 2 (zeros 2 1)) as [lob|]; [cbn [obind]|reflexivity].
  destruct (store_entry lobatto_nodes 1 (proj1 (lobatto_lengths 1))) as (dual & -> & T). cbn [obind].
  destruct (store lobatto_weights 2 _) as [lobw|]; [cbn [obind]|reflexivity].
  destruct (store legendre_nodes 1 _) as [leg|]; [cbn [obind]|reflexivity].
  destruct (store legendre_weights 1 _) as [legw|]; [cbn [obind]|reflexivity].
  destruct (place_points sch 2 lob lobw _) as [[lobp lobpw]|]; [cbn [obind]|reflexivity].
  destruct (number_points 2 (evens 2) _) as [map1|]; [cbn [obind]|reflexivity].
  cbn [Nat.eqb Nat.ltb Nat.leb obind].
  destruct (place_points sch 1 leg legw _) as [[gp gpw]|]; [cbn [obind]|reflexivity].
  replace (copy_points 2 lob dual (zeros 2 1) (zeros 1 1)) with (@None (arr R * arr R)); [reflexivity|].
  symmetry. unfold copy_points, for_up. cbn [seq for_each].
  destruct (aget lob 0 0) as [v|]; [cbn [obind]|reflexivity].
  destruct (aset (zeros 2 1) 0 0 v) as [a|]; [cbn [obind]|reflexivity].
  destruct (aget dual 0 0) as [w|]; [cbn [obind]|reflexivity].
  destruct (aset (zeros 1 1) 0 0 w) as [b|]; [cbn [obind]|reflexivity].
  destruct (aget lob 1 0) as [v1|]; [cbn [obind]|reflexivity].
  destruct (aset a 1 0 v1) as [a1|]; [cbn [obind]|reflexivity].
  replace (aget dual 1 0) with (@None R); [reflexivity|].
  destruct T as (R1 & _). unfold aget. rewrite R1. reflexivity.
Qed.

(** The hypotheses are met: schedules exist (here, backwards), so do polynomials of
    each degree, and their integrals. *)
Example C118_met : schedule (@rev _) /\ (length [3; -1; 0; 2]%R <= 2 * 2)%nat /\
  integral (peval [3; -1; 0; 2]) (-1) 1 6 /\ degree3 (4 * 1) [(2, (3, 0, 2)%nat); (-5, (0, 1, 1)%nat)] /\
  integral3 (eval3 [(3, (2, 0, 0)%nat)]) 8.
Proof.
  split; [intros l; symmetry; apply Permutation_rev|]. split; [cbn; lia|]. split.
  - apply (integral_ext (fun x => suml (fun t => fst t * x ^ snd t) [(3, 0%nat); (-1, 1%nat); (2, 3%nat)])).
    { intros x. unfold suml. cbn [fold_right fst snd peval pow]. ring. }
    replace 6 with (suml (fun t => fst t * moment (snd t)) [(3, 0%nat); (-1, 1%nat); (2, 3%nat)]).
    + apply (integral_suml (fun t x => fst t * x ^ snd t) (fun t => fst t * moment (snd t))).
      intros t _. apply integral_scal, integral_power.
    + unfold suml. cbn [fold_right fst snd]. rewrite moment_0, moment_1, moment_3. ring.
  - split.
    + intros c i j k [E|[E|[]]]; injection E as <- <- <- <-; lia.
    + pose proof (integral3_exists [(3, (2, 0, 0)%nat)]) as H. unfold suml in H. cbn [fold_right] in H.
      rewrite moment_0, moment_2 in H. replace 8 with (3 * (2 / 3 * 2 * 2) + 0) by field. exact H.
Qed.

Print Assumptions C118_gauss.
Print Assumptions C118_lobatto.
Print Assumptions C118_midpoint.
Print Assumptions C118_points.
Print Assumptions C118_element.
Print Assumptions C118_twelve_refuted.
Print Assumptions C118_order_ten_refuted.
Print Assumptions C119_kinematic.
Print Assumptions C119_unity.
Print Assumptions C119_nodal.
Print Assumptions C119_thermodynamic.
Print Assumptions C119_dg_positions_refuted.
Print Assumptions C120_schedules.
Print Assumptions C120_layout.
Print Assumptions C120_points.
Print Assumptions C120_order_zero_refuted.
