(** Concrete meshes, layouts and states for the theorems on the 3D solver, and the cases where a property fails. *)
From Verif Require Import BaseReal BaseArr GeomModel GeomSpec GeomProofs SghModel SghSpec SghProofs SghMore MarsModel MarsSpec MarsProofs.
Local Open Scope R_scope.

(** one hexahedron; and two stacked ones sharing a face *)
Definition dummy_mesh : mesh3 := mkMesh3 0 0 (fun _ _ => O) (fun _ _ => O) (fun _ => []).
Definition built (o : option mesh3) : mesh3 := match o with Some m => m | None => dummy_mesh end.
Definition mesh1 : mesh3 := built (build_corners 8 1 8 (fun _ l => l)).
Definition mesh2 : mesh3 := built (build_corners 12 2 8 (fun e l => (4 * e + l)%nat)).

Lemma mesh1_built : build_corners 8 1 8 (fun _ l => l) = Some mesh1.
Proof. unfold mesh1. destruct (build_corners_spec 8 1 8 (fun _ l => l)) as (m & -> & _); [intros e l _ H; exact H|reflexivity]. Qed.
Lemma mesh2_built : build_corners 12 2 8 (fun e l => (4 * e + l)%nat) = Some mesh2.
Proof.
  unfold mesh2. destruct (build_corners_spec 12 2 8 (fun e l => (4 * e + l)%nat)) as (m & -> & _); [|reflexivity].
  intros e l He Hl. lia.
Qed.

(** two materials, both in element 0; and one material in both elements plus a second one in element 1 *)
Definition lay1 : layout := mkLayout 2 (fun _ => 1%nat) (fun _ _ => O).
Definition lay2 : layout := mkLayout 2 (fun mat => if Nat.eqb mat 0 then 2%nat else 1%nat) (fun mat sid => if Nat.eqb mat 0 then sid else 1%nat).

Lemma lay1_ok : layout_ok 1 lay1.
Proof. intros p Hp. cbn in Hp. destruct Hp as [<-|[<-|[]]]; cbn; lia. Qed.
Lemma lay2_ok : layout_ok 2 lay2.
Proof. intros p Hp. cbn in Hp. destruct Hp as [<-|[<-|[<-|[]]]]; cbn; lia. Qed.

(** nodes of the stack: x and y as in the unit cube, z = layer *)
Definition stack_x (n d : nat) : R :=
  match d with O => INR (n mod 2) | S O => INR (n / 2 mod 2) | _ => INR (n / 4) end.

(** a gas with gamma = 2, no strength; options: viscosity, erosion, extra force, wall *)
Definition gas (dis : sgh -> nat -> nat -> nat -> nat -> R) (ero : nat -> bool) (T D : nat -> R) (ext : nat -> nat -> R) (dec : bool) : models :=
  mkModels (fun _ => dec) (fun _ => false) (fun _ => false) ero dis
    (fun s mat sid => s_stress s mat sid) (fun s mat sid => s_den s mat sid * s_sie s mat sid)
    (fun s mat sid => sqrt (2 * s_sie s mat sid)) (fun s mat sid => basic_erosion (T mat) (D mat) s mat sid)
    (fun _ => ext) (fun _ _ _ => 0) false (fun s => s_v s).

Definition no_dis : sgh -> nat -> nat -> nat -> nat -> R := fun _ _ _ _ _ => 0.
Definition plain : models := gas no_dis (fun _ => false) (fun _ => 0) (fun _ => 0) (fun _ _ => 0) true.

(** a state: node velocity v, pressure 1 and mass 1 everywhere, shares vf of the volume, erosion flags er *)
Definition start (nmass : nat -> R) (v : nat -> nat -> R) (vf : R) (er : nat -> nat -> bool) : sgh :=
  mkSgh stack_x stack_x v v nmass (fun _ _ => 0) (fun _ _ => 0) (fun _ => 1) (fun _ _ _ => 0) (fun _ _ _ => 0)
    (fun _ _ => 1) (fun _ _ => 1) (fun _ _ => 1) (fun _ _ => 1) (fun _ _ => 1) (fun _ _ => 1)
    (fun _ _ _ _ => 0) (fun _ _ _ _ => 0) (fun _ _ => vf) (fun _ _ => 1) er.

Definition start_mass : nat -> R := calc_node_mass mesh2 (setup_corner_mass mesh2 lay2 (fun _ _ => 1)).
Definition start2 : sgh := start start_mass stack_x (/ 2) (fun _ _ => false).

Lemma start2_mass : nodes_have_mass mesh2 start2.
Proof.
  destruct (build_corners_ok _ _ _ _ _ mesh2_built) as (Hok & Hn & He & Hnodes & _).
  intros n Hlt. rewrite Hn in Hlt. cbn [start2 start s_nmass]. apply Rgt_not_eq, node_mass_pos; auto.
  - rewrite He. apply lay2_ok.
  - intros; lra.
  - rewrite Hnodes. destruct (Nat.ltb_spec n 8).
    + exists (0, 0)%nat, n. split; [cbn; auto|]. split; [easy|]. split; [reflexivity|lra].
    + exists (0, 1)%nat, (n - 4)%nat. split; [cbn; auto|]. split; [lia|]. split; [|lra]. cbn [point_elem lay2 elem_in_mat fst snd Nat.eqb]. lia.
Qed.

(** *** what an eroded later material does *)

(** If the last material point of an element is eroded, all force of the element is lost. *)
Lemma forces_wiped m L M s q l d : corners_ok 8 m -> layout_ok (num_elems m) L ->
  In q (points L) -> s_eroded s (fst q) (snd q) = true ->
  (forall p, In p (points L) -> before q p -> point_elem L p <> point_elem L q) -> (l < 8)%nat -> (d < 3)%nat ->
  s_cforce (forces_and_stress m L M s) (corners_in_elem m (point_elem L q) l) d = 0.
Proof.
  intros Hok HL Hq Her Hlast Hl Hd. assert (Hqe := HL _ Hq).
  destruct (forces_ind m L M (fun done st => In q done -> fst st (corners_in_elem m (point_elem L q) l) d = 0) s) as (t & f & E & HP).
  - intros [].
  - intros done mat sid rest st t f E Ht IH Hin. assert (Hpin := split_in L _ _ _ E). assert (Hp := HL _ Hpin).
    unfold point_elem in Hp. cbn [fst snd] in Hp.
    set (s' := set_stress t (set_cforce f s)). apply in_app_or in Hin. destruct Hin as [Hin|[<-|[]]].
    + assert (Hb := points_split_before L _ _ _ _ E Hin). assert (Hne := Hlast _ Hpin Hb).
      rewrite elem_force_cf_out; auto.
    + unfold point_elem at 1. cbn [fst snd]. rewrite (elem_force_cf_in m L M Hok s' mat sid st l d Hp Hl Hd).
      change (s_eroded s' mat sid) with (s_eroded s mat sid). cbn [fst snd] in Her. rewrite Her. reflexivity.
  - rewrite E. now apply HP.
Qed.

Definition half_eroded : sgh := start (fun _ => / 4) stack_x (/ 2) (fun mat _ => Nat.eqb mat 1).

Lemma stack_cube d l : (d < 3)%nat -> (l < 8)%nat -> stack_x l d = ucube d l.
Proof.
  intros Hd Hl. do 3 (destruct d as [|d]; [do 8 (destruct l as [|l]; [cbn; lra|]); lia|]). lia.
Qed.

Lemma half_contribution l d : (l < 8)%nat -> (d < 3)%nat ->
  contribution mesh1 lay1 plain half_eroded (0, 0)%nat l d = / 2 * elem_bmat mesh1 stack_x 0 l d.
Proof.
  intros Hl Hd. unfold contribution. cbn [fst snd half_eroded start s_eroded s_volfrac s_geo s_x Nat.eqb point_elem lay1 elem_in_mat].
  unfold cauchy. cbn [fst snd plain gas decoupled half_eroded start s_stress s_pres dissipation no_dis].
  destruct d as [|[|[|d]]]; [| | |lia]; cbn [sumn Nat.eqb]; unfold no_dis; ring.
Qed.

Lemma mesh1_facts : corners_ok 8 mesh1 /\ num_nodes mesh1 = 8%nat /\ num_elems mesh1 = 1%nat /\ nodes_in mesh1 = (fun _ l => l).
Proof. destruct (build_corners_ok _ _ _ _ _ mesh1_built) as (A & B & C & D & _). auto. Qed.

Lemma bmat_ext x y z x' y' z' l d : (forall i, (i < 8)%nat -> x i = x' i /\ y i = y' i /\ z i = z' i) ->
  (l < 8)%nat -> (d < 3)%nat -> bmat x y z l d = bmat x' y' z' l d.
Proof.
  intros H Hl Hd.
  assert (Hx : forall i, (i < 8)%nat -> x i = x' i) by (intros; now apply H).
  assert (Hy : forall i, (i < 8)%nat -> y i = y' i) by (intros; now apply H).
  assert (Hz : forall i, (i < 8)%nat -> z i = z' i) by (intros; now apply H).
  clear H. unfold bmat, bmat0, bmat1, bmat2.
  do 3 (destruct d as [|d]; [do 8 (destruct l as [|l]; [rewrite ?Hx, ?Hy, ?Hz by lia; reflexivity|]); lia|]). lia.
Qed.

Lemma bmat_stack l d : (l < 8)%nat -> (d < 3)%nat -> elem_bmat mesh1 stack_x 0 l d = bmat (ucube 0) (ucube 1) (ucube 2) l d.
Proof.
  intros Hl Hd. destruct mesh1_facts as (_ & _ & _ & Hn). unfold elem_bmat. apply bmat_ext; auto. intros i Hi.
  unfold gather. rewrite Hn. rewrite !stack_cube by lia. repeat split.
Qed.

(** C40: material 0 is intact and pushes, material 1 (later in the list) is eroded: the corner gets no force. *)
Lemma wiped_force :
  s_cforce (forces_and_stress mesh1 lay1 plain half_eroded) (corners_in_elem mesh1 0 0) 0 = 0 /\
  contribution mesh1 lay1 plain half_eroded (0, 0)%nat 0 0 = - (1 / 8) /\
  contribution mesh1 lay1 plain half_eroded (1, 0)%nat 0 0 = 0 /\
  s_mcforce (forces_and_stress mesh1 lay1 plain half_eroded) 0 (corner_in_mat 0 0) 0 = - (1 / 8).
Proof.
  destruct mesh1_facts as (Hok & _ & He & _).
  assert (HL : layout_ok (num_elems mesh1) lay1) by (rewrite He; apply lay1_ok).
  assert (C : contribution mesh1 lay1 plain half_eroded (0, 0)%nat 0 0 = - (1 / 8)).
  { rewrite half_contribution, bmat_stack by lia. unfold bmat, bmat0, ucube, twelth. cbn. lra. }
  split; [|split; [exact C|split; [reflexivity|]]].
  - apply (forces_wiped mesh1 lay1 plain half_eroded (1, 0)%nat 0 0); auto; try lia.
    + cbn. auto.
    + intros p Hp Hb. cbn in Hp. destruct Hp as [<-|[<-|[]]]; unfold before in Hb; cbn in Hb; lia.
  - rewrite <- C. apply (forces_contributions mesh1 lay1 plain half_eroded (0, 0)%nat 0 0); try lia; [|cbn; auto].
    intros s t f mat sid l d. reflexivity.
Qed.

(** C17: in the same situation energy disappears. *)
Lemma before_same v : s_eroded (before_forces mesh1 v) = s_eroded v. Proof. reflexivity. Qed.

Lemma lost_energy :
  let t := rk_step mesh1 lay1 (fun _ => plain) 1 1 half_eroded in
  total_energy mesh1 lay1 t - total_energy mesh1 lay1 half_eroded = - (3 / 2) / (1 + 1e-20) /\
  sum_sie lay1 t - sum_sie lay1 half_eroded = - (3 / 2) / (1 + 1e-20).
Proof.
  cbv zeta. destruct mesh1_facts as (Hok & Hn & He & Hnodes).
  assert (HL : layout_ok (num_elems mesh1) lay1) by (rewrite He; apply lay1_ok).
  destruct (step_last mesh1 lay1 (fun _ => plain) 1 1 half_eroded (le_n _)) as (s' & _ & _ & _).
  unfold rk_step. cbn [seq fold_left]. replace (rk_alpha 1 0) with 1 by (unfold rk_alpha; cbn; field).
  set (s0 := set_start half_eroded). set (t := rk_stage mesh1 lay1 plain 1 1 s0).
  assert (Hf : stage_facts mesh1 lay1 plain 1 1 s0 t) by apply stage_spec.
  assert (Hc : forall l d, (l < 8)%nat -> (d < 3)%nat -> s_cforce t (corners_in_elem mesh1 0 l) d = 0).
  { intros l d Hl Hd. rewrite (sf_cforce _ _ _ _ _ _ _ Hf).
    apply (forces_wiped mesh1 lay1 plain (before_forces mesh1 s0) (1, 0)%nat l d); auto.
    - cbn. auto.
    - intros p Hp Hb. cbn in Hp. destruct Hp as [<-|[<-|[]]]; unfold before in Hb; cbn in Hb; lia. }
  assert (Hi : forall n d, (d < 3)%nat -> internal_force mesh1 t n d = 0).
  { intros n d Hd. unfold internal_force. rewrite (suml_ext _ (fun _ => 0)), suml_0; [easy|]. intros c Hin.
    apply (ok_node _ _ Hok) in Hin. destruct Hin as (e & l & He' & Hl & -> & _). replace e with O by lia. now apply Hc. }
  assert (Hv : forall n d, (d < 3)%nat -> s_v t n d = stack_x n d).
  { intros n d Hd. destruct (sf_v _ _ _ _ _ _ _ Hf) as (s4 & E4 & _ & s3 & E3). rewrite E4.
    change (bdy_velocity plain s4 n d) with (s_v s4 n d). rewrite E3, Hi by auto.
    unfold external_force. cbn [plain gas bdy_stress doing_contact]. cbn [s0 set_start s_v0 half_eroded start s_v]. unfold Rdiv. ring. }
  assert (Hmc : forall l d, (l < 8)%nat -> (d < 3)%nat -> s_mcforce t 0 (corner_in_mat 0 l) d = / 2 * bmat (ucube 0) (ucube 1) (ucube 2) l d).
  { intros l d Hl Hd. rewrite <- bmat_stack, <- half_contribution by auto. rewrite (sf_mcforce _ _ _ _ _ _ _ Hf).
    assert (A := forces_contributions mesh1 lay1 plain (before_forces mesh1 s0) (0, 0)%nat l d). cbn [fst snd] in A. rewrite A; auto; [intros ? ? ? ? ? ? ?; reflexivity|cbn; auto]. }
  assert (Hmc1 : forall l d, (l < 8)%nat -> (d < 3)%nat -> s_mcforce t 1 (corner_in_mat 0 l) d = 0).
  { intros l d Hl Hd. rewrite (sf_mcforce _ _ _ _ _ _ _ Hf).
    apply (forces_eroded mesh1 lay1 plain (before_forces mesh1 s0) (1, 0)%nat l d); auto. cbn. auto. }
  assert (Hw : sumn 8 (fun l => sumn 3 (fun d => / 2 * bmat (ucube 0) (ucube 1) (ucube 2) l d * stack_x l d)) = 3 / 2).
  { rewrite (sumn_exchange 8 3 (fun l d => / 2 * bmat (ucube 0) (ucube 1) (ucube 2) l d * stack_x l d)).
    rewrite (sumn_ext 3 _ (fun _ => / 2)); [rewrite sumn_const; cbn; lra|]. intros d Hd.
    rewrite (sumn_ext 8 _ (fun l => / 2 * (coord (ucube 0) (ucube 1) (ucube 2) d l * bmat (ucube 0) (ucube 1) (ucube 2) l d))).
    - rewrite sumn_scal, bmat_moment by auto. rewrite Nat.eqb_refl, vol_ucube. lra.
    - intros l Hl. rewrite stack_cube by auto. do 3 (destruct d as [|d]; [cbn [coord]; ring|]). lia. }
  assert (Hs0 : s_sie t 0 0 = 1 - (3 / 2) / (1 + 1e-20)).
  { assert (A := sf_sie _ _ _ _ _ _ _ Hf (0, 0)%nat). cbn [fst snd] in A. rewrite A by (cbn; auto). clear A.
    rewrite (sumn_ext 8 _ (fun l => sumn 3 (fun d => / 2 * bmat (ucube 0) (ucube 1) (ucube 2) l d * stack_x l d))).
    - rewrite Hw. cbn [s0 set_start s_sie0 half_eroded start s_sie s_mass]. field; lra.
    - intros l Hl. apply sumn_ext. intros d Hd. rewrite Hmc, Hnodes, Hv by auto. cbn [s0 set_start s_v0 half_eroded start s_v]. field. }
  assert (Hs1 : s_sie t 1 0 = 1).
  { assert (A := sf_sie _ _ _ _ _ _ _ Hf (1, 0)%nat). cbn [fst snd] in A. rewrite A by (cbn; auto). clear A.
    rewrite (sumn_ext 8 _ (fun _ => 0)).
    - rewrite sumn_0. cbn [s0 set_start s_sie0 half_eroded start s_sie]. ring.
    - intros l Hl. rewrite (sumn_ext 3 _ (fun _ => 0)), sumn_0; [easy|]. intros d Hd. rewrite Hmc1 by auto. ring. }
  destruct (sf_const _ _ _ _ _ _ _ Hf) as (_ & _ & Em & Emass & _).
  assert (P : points lay1 = [(0, 0); (1, 0)]%nat) by reflexivity.
  split.
  - unfold total_energy. rewrite P, Em, Emass. cbn [suml fold_right fst snd]. rewrite Hs0, Hs1.
    rewrite (sumn_ext _ (fun n => s_nmass s0 n * sumn 3 (fun d => s_v t n d ^ 2)) (fun n => s_nmass half_eroded n * sumn 3 (fun d => s_v half_eroded n d ^ 2))).
    + cbn [s0 set_start s_mass half_eroded start s_sie]. field; lra.
    + intros n _. cbn [s0 set_start s_nmass half_eroded start s_v]. f_equal. apply sumn_ext. intros d Hd. now rewrite Hv.
  - unfold sum_sie. rewrite P. cbn [suml fold_right fst snd]. rewrite Hs0, Hs1. cbn [half_eroded start s_sie]. field; lra.
Qed.

(** C41: with a coupled equation of state the volume share is ignored *)
Definition coupled : models := gas no_dis (fun _ => false) (fun _ => 0) (fun _ => 0) (fun _ _ => 0) false.
Lemma coupled_density :
  let t := run mesh2 lay2 2 [(0.1, fun _ => coupled)] start2 in
  s_den t 1 0 * (s_vol t 1 * s_volfrac t 1 0 * s_geo t 1 0 + 1e-20) < 0.6 * s_mass t 1 0.
Proof.
  cbv zeta. set (cy := [(0.1, fun _ : nat => coupled)]). set (t := run mesh2 lay2 2 cy start2).
  assert (Hd : s_den t 1 0 * (s_vol t 1 + 1e-20) = 1).
  { apply (run_density_coupled mesh2 lay2 2 cy start2 (1, 0)%nat); [lia|discriminate|cbn; auto| |].
    - intros dt Ms k [[= <- <-]|[]]. reflexivity.
    - unfold run, cy. cbn [fold_left]. rewrite step_eroded_same; auto. }
  assert (Hv : 1e-14 <= s_vol t 1).
  { unfold t. rewrite run_vol; [apply elem_vol_pos|lia|discriminate]. }
  assert (Hc : s_volfrac t = s_volfrac start2 /\ s_geo t = s_geo start2 /\ s_mass t = s_mass start2).
  { unfold t, run, cy. cbn [fold_left]. destruct (stages_start mesh2 lay2 (fun _ => coupled) 2 0.1 start2 2) as (_ & _ & _ & _ & _ & A & B & C). auto. }
  destruct Hc as (-> & -> & ->). cbn [start2 start s_volfrac s_geo s_mass].
  assert (Hpos : 0 < s_den t 1 0).
  { destruct (Rle_or_lt (s_den t 1%nat 0%nat) 0) as [H|H]; [|exact H]. exfalso. nra. }
  set (r := s_den t 1%nat 0%nat) in *. set (w := s_vol t 1%nat) in *. clearbody r w.
  assert (r * w < 1) by nra. assert (r * 1e-14 <= r * w) by (apply Rmult_le_compat_l; lra). 
  replace (r * (w * / 2 * 1 + 1e-20)) with (r * w / 2 + r * 1e-20) by field.
  assert (r * 1e-20 <= 1e-6).
  { replace (r * 1e-20) with (r * 1e-14 * 1e-6) by lra. lra. }
  lra.
Qed.

Lemma c17_refuted_witness : exists nnodes ne nodes m L M s, build_corners nnodes ne 8 nodes = Some m /\ layout_ok (num_elems m) L /\
  nodes_have_mass m s /\ (forall p, In p (points L) -> 0 <= s_mass s (fst p) (snd p)) /\
  (forall s' n d, external_force M s' n d = 0) /\ (forall s' n d, bdy_velocity M s' n d = s_v s' n d) /\
  let t := rk_step m L (fun _ => M) 1 1 s in
  total_energy m L t - total_energy m L s = - (3 / 2) / (1 + 1e-20) /\
  sum_sie L t - sum_sie L s = - (3 / 2) / (1 + 1e-20).
Proof.
  exists 8%nat, 1%nat, (fun _ l => l), mesh1, lay1, plain, half_eroded. destruct mesh1_facts as (_ & _ & He & _).
  split; [exact mesh1_built|]. split; [rewrite He; exact lay1_ok|]. split; [intros n _; cbn [half_eroded start s_nmass]; lra|].
  split; [intros; cbn [half_eroded start s_mass]; lra|].
  split; [intros; unfold external_force, plain, gas; cbn [bdy_stress doing_contact]; ring|]. split; [reflexivity|]. exact lost_energy.
Qed.

Lemma c40_refuted_witness : exists nnodes ne nodes m L M s e l d, build_corners nnodes ne 8 nodes = Some m /\ layout_ok (num_elems m) L /\
  (e < num_elems m)%nat /\ (l < 8)%nat /\ (d < 3)%nat /\
  s_cforce (forces_and_stress m L M s) (corners_in_elem m e l) d <>
  suml (fun p => if Nat.eqb (point_elem L p) e then contribution m L M s p l d else 0) (points L).
Proof.
  exists 8%nat, 1%nat, (fun _ l => l), mesh1, lay1, plain, half_eroded, 0%nat, 0%nat, 0%nat.
  destruct mesh1_facts as (_ & _ & He & _). split; [exact mesh1_built|]. split; [rewrite He; exact lay1_ok|].
  split; [rewrite He; lia|]. split; [lia|]. split; [lia|]. destruct wiped_force as (-> & A & B & _).
  change (points lay1) with [(0, 0); (1, 0)]%nat. rewrite !suml_cons. change (suml _ []) with 0.
  cbn [point_elem lay1 elem_in_mat fst snd Nat.eqb]. rewrite A, B. lra.
Qed.

Lemma c41_coupled_refuted_witness : exists nnodes ne nodes m L M s mat sid,
  build_corners nnodes ne 8 nodes = Some m /\ layout_ok (num_elems m) L /\ In (mat, sid) (points L) /\
  let t := run m L 2 [(0.1, fun _ => M)] s in
  s_den t mat sid * (s_vol t (elem_in_mat L mat sid) * s_volfrac t mat sid * s_geo t mat sid + 1e-20) < 0.6 * s_mass t mat sid.
Proof.
  exists 12%nat, 2%nat, (fun e l => (4 * e + l)%nat), mesh2, lay2, coupled, start2, 1%nat, 0%nat.
  split; [exact mesh2_built|]. split; [destruct (build_corners_ok _ _ _ _ _ mesh2_built) as (_ & _ & -> & _); exact lay2_ok|].
  split; [cbn; auto|]. exact coupled_density.
Qed.

(** a gas that erodes in tension *)
Definition breaking : models := gas no_dis (fun _ => true) (fun _ => -1) (fun _ => 0.01) (fun _ _ => 0) true.
