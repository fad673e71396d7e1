(** Concrete thermal calculations. *)
From Verif Require Import BaseReal BaseArr GeomModel GeomSpec GeomProofs SghModel SghSpec SghProofs SghExamples TableModel TableSpec TableProofs ThermModel ThermSpec ThermProofs ThermFlow.
Local Open Scope R_scope.

Definition no_elems : nat -> list nat := fun _ => [].
Definition elems1 : nat -> list nat := match build_elems 8 1 8 (fun _ l => l) with Some el => el | None => no_elems end.

Lemma elems1_ok L x mass cond cp : elems_ok (mkThermal mesh1 elems1 L x mass cond cp).
Proof.
  destruct (build_elems_ok 8 1 (fun _ l => l)) as (mesh & el & E1 & E2 & _ & _ & _ & _ & H); [intros e l _ Hl; exact Hl|].
  unfold elems1. rewrite E2. rewrite mesh1_built in E1. injection E1 as <-. apply H.
Qed.
Lemma elems1_eq n : (n < 8)%nat -> elems1 n = [0%nat].
Proof.
  intros Hn. destruct (build_elems_some 8 1 8 (fun _ l => l)) as (el & E & H); [intros e l _ Hl; exact Hl|].
  unfold elems1. rewrite E, H. do 8 (destruct n as [|n]; [reflexivity|]). lia.
Qed.

(** one unit cube; mass 1 at each node, conductivity 2 and 5, specific heat 3 and 7 *)
Definition cube (mats : nat) (x : nat -> nat -> R) : thermal :=
  mkThermal mesh1 elems1 (mkLayout mats (fun _ => 1%nat) (fun _ _ => O)) x (fun _ => 1) (fun mat _ => if Nat.eqb mat 0 then 2 else 5) (fun mat _ => if Nat.eqb mat 0 then 3 else 7).

Lemma cube_ok mats x : thermal_ok (cube mats x).
Proof.
  destruct mesh1_facts as (A & B & C & D). split; [exact A|]. split; [apply elems1_ok|]. cbn [cube h_mesh h_L]. split.
  - intros p Hp. rewrite C. cbn. lia.
  - intros mat Hm. cbn [num_mat_elems elem_in_mat seq map]. repeat constructor. easy.
Qed.
Lemma cube_capacity mats x n : (n < 8)%nat -> capacity (cube mats x) n = 3.
Proof. intros Hn. unfold capacity, mean. cbn [cube h_elems h_mass h_cp]. rewrite elems1_eq by exact Hn. unfold suml. cbn. field. Qed.

Definition closed : tbc := mkTbc 0 (fun _ => NoTemp) (fun _ => []) (fun _ => []) (fun _ => 0) (fun _ l => l).
Lemma closed_insulated : insulated closed.
Proof. intros set Hs. cbn in Hs. lia. Qed.

(** temperatures T, volume 1 *)
Definition tstart (P : thermal) (T : nat -> R) : tstate := mkT T T (fun _ => 0) (fun _ => 0) (elem_vol (h_mesh P) (h_x P)) (fun _ _ _ => 0) (fun _ _ _ => 0) (fun _ _ => false).

Lemma cube_stage mats x B src alpha dt s : (0 < mats)%nat -> exists s', therm_stage (cube mats x) B src alpha dt s = Some s'.
Proof.
  intros Hm. destruct mesh1_facts as (A & N & C & D). apply stage_defined. cbn [cube h_mesh h_L num_mat_elems elem_in_mat num_mats]. split; [intros; lia|].
  intros n Hn. rewrite N in Hn. split; [rewrite cube_capacity by exact Hn; lra|]. cbn [h_elems cube]. rewrite elems1_eq by exact Hn. intros e [<-|[]]. lia.
Qed.

Lemma for_each_total {A S} (f : A -> S -> option S) l : (forall a s, exists s', f a s = Some s') -> forall s, exists s', for_each l f s = Some s'.
Proof. intros H. induction l as [|a l IH]; intros s; [eexists; reflexivity|]. cbn [for_each]. destruct (H a s) as (s1 & ->). cbn [obind]. apply IH. Qed.

Lemma cube_step mats x B src N dt s : (0 < mats)%nat -> exists s', therm_step (cube mats x) B src N dt s = Some s'.
Proof. intros Hm. unfold therm_step, for_up. apply for_each_total. intros; apply cube_stage; exact Hm. Qed.

Lemma cube_run mats x B use N t0 dts s : (0 < mats)%nat -> exists st, therm_run (cube mats x) B use N t0 dts s = Some st.
Proof.
  intros Hm. unfold therm_run. apply for_each_total. intros dt [[s1 t1] pos]. unfold therm_cycle.
  destruct (tool_curve tool_points) as (tab & -> & H); [discriminate|]. cbn [obind].
  destruct (H t1) as (_ & _ & _ & q & _ & -> & _). cbn [obind]. destruct (cube_step mats x B (if use then Some (pos, q) else None) N dt s1 Hm) as (s2 & ->). cbn [obind].
  destruct (H (t1 + dt)) as (a & b & c & _ & -> & _). cbn [obind]. eauto.
Qed.

Lemma cube_volume mats : elem_vol (h_mesh (cube mats stack_x)) stack_x 0 = 1.
Proof.
  destruct mesh1_facts as (_ & _ & _ & Hn). unfold elem_vol, vol_hex. cbn [cube h_mesh].
  rewrite (vol_ext _ _ _ (ucube 0) (ucube 1) (ucube 2)), vol_ucube; [unfold fmax; apply Rmax_left; lra|].
  intros i Hi. unfold gather. rewrite Hn, !stack_cube by lia. auto.
Qed.

(** temperature = x: heat leaves the warm side and enters the cold one *)
Lemma cube_conducted mats k l : (l < 8)%nat -> conducted (cube mats stack_x) k (fun n => stack_x n 0) 1 0 l = - k * bmat (ucube 0) (ucube 1) (ucube 2) l 0.
Proof.
  intros Hl. destruct mesh1_facts as (_ & _ & _ & Hn).
  assert (V1 : 1 = vol_hex_raw (gather mesh1 stack_x 0 0) (gather mesh1 stack_x 0 1) (gather mesh1 stack_x 0 2)).
  { rewrite (vol_ext _ _ _ (ucube 0) (ucube 1) (ucube 2)), vol_ucube; [reflexivity|]. intros i Hi. unfold gather. rewrite Hn, !stack_cube by lia. auto. }
  unfold conducted. f_equal. cbn [cube h_mesh h_x].
  rewrite (sumn_ext 3 _ (fun d => if Nat.eqb d 0 then bmat (ucube 0) (ucube 1) (ucube 2) l 0 else 0)); [cbn; ring|].
  intros d Hd. rewrite bmat_stack by auto. rewrite (gradient_linear (cube mats stack_x) _ 1 0 0 (fun d => if Nat.eqb d 0 then 1 else 0) V1).
  - destruct (Nat.eqb_spec d 0) as [->|]; ring.
  - lra.
  - intros i Hi. cbn [cube h_mesh h_x]. cbn. ring.
  - exact Hd.
Qed.
