(** Proofs about the axisymmetric solver. *)
From Coq Require Import Permutation FunctionalExtensionality.
From Verif Require Import BaseReal BaseArr GeomModel GeomSpec GeomProofs SghModel SghSpec SghProofs SghMore RzModel RzSpec.
Local Open Scope R_scope.

(** ** Geometry *)

Lemma fan_total x y : fan x y -> sumn 4 (corner_area x y) = area_quad x y.
Proof. intros (H0 & H1 & H2 & H3). now apply corner_area_total. Qed.

(** the corner areas split the volume of revolution: sum of area times radius *)
Lemma fan_volume x y : fan x y -> sumn 4 (fun l => y l * corner_area x y l) = vol_quad_raw x y.
Proof.
  intros (H0 & H1 & H2 & H3). cbn [sumn]. unfold corner_area, centroid4.
  replace (0 + 0.25 * y 0%nat + 0.25 * y 1%nat + 0.25 * y 2%nat + 0.25 * y 3%nat) with ((y 0%nat + y 1%nat + y 2%nat + y 3%nat) / 4) by lra.
  replace (0 + 0.25 * x 0%nat + 0.25 * x 1%nat + 0.25 * x 2%nat + 0.25 * x 3%nat) with ((x 0%nat + x 1%nat + x 2%nat + x 3%nat) / 4) by lra.
  rewrite !heron_area.
  set (zc := (x 0%nat + x 1%nat + x 2%nat + x 3%nat) / 4) in *. set (rc := (y 0%nat + y 1%nat + y 2%nat + y 3%nat) / 4) in *.
  cbv zeta in *.
  assert (S : forall a b c d, tri_area a b zc rc c d = - tri_area a b c d zc rc) by (intros; unfold tri_area; field).
  rewrite !S, !Rabs_Ropp. rewrite !Rabs_pos_eq by assumption. clear. subst zc rc. unfold tri_area, vol_quad_raw. field.
Qed.

Lemma vol_floor x y : 1e-14 <= vol_quad_raw x y -> vol_quad x y = vol_quad_raw x y.
Proof. intros H. unfold vol_quad, fmax. now apply Rmax_left. Qed.

Lemma vol_pos x y : 0 < vol_quad x y.
Proof. unfold vol_quad, fmax. eapply Rlt_le_trans; [|apply Rmax_r]. lra. Qed.

Lemma bmat2D_axial x y : sumn 4 (fun l => y l * bmat2D x y l 0) = 0 /\ sumn 4 (fun l => y l * bmat2D x y l 1) = area_quad x y.
Proof. cbn [sumn bmat2D]. unfold area_quad. replace (-0.5) with (- (/ 2)) by lra. replace 0.5 with (/ 2) by lra. split; field. Qed.

(** ** Set-up of the masses *)

Lemma setup_rz_list m L x den :
  setup_corner_mass_rz m L x den =
  fold_left (fun cm p => fold_left (fun cm l =>
      fupd cm (corners_in_elem m (point_elem L p) l) (cm (corners_in_elem m (point_elem L p) l)
        + quad_corner_area m x (point_elem L p) l * den (fst p) (snd p)))
      (seq 0 4) cm) (points L) (fun _ => 0).
Proof.
  unfold setup_corner_mass_rz, points, calc_corner_mass_rz. rewrite fold_left_flat_map. apply fold_left_ext. intros cm mat _.
  now rewrite fold_left_map.
Qed.

Lemma setup_rz_corner m L x den e l : corners_ok 4 m -> layout_ok (num_elems m) L -> (e < num_elems m)%nat -> (l < 4)%nat ->
  setup_corner_mass_rz m L x den (corners_in_elem m e l) =
  quad_corner_area m x e l * suml (fun p => if Nat.eqb (point_elem L p) e then den (fst p) (snd p) else 0) (points L).
Proof.
  intros Hok HL He Hl. rewrite setup_rz_list.
  assert (G : forall ps cm, (forall p, In p ps -> In p (points L)) ->
    fold_left (fun cm p => fold_left (fun cm l =>
      fupd cm (corners_in_elem m (point_elem L p) l) (cm (corners_in_elem m (point_elem L p) l)
        + quad_corner_area m x (point_elem L p) l * den (fst p) (snd p)))
      (seq 0 4) cm) ps cm (corners_in_elem m e l) = cm (corners_in_elem m e l) +
      quad_corner_area m x e l * suml (fun p => if Nat.eqb (point_elem L p) e then den (fst p) (snd p) else 0) ps).
  { induction ps as [|p ps IH]; intros cm Hin; [cbn [fold_left]; change (suml _ []) with 0; ring|].
    cbn [fold_left]. rewrite IH by (intros; apply Hin; right; easy).
    rewrite suml_cons, Rmult_plus_distr_l, <- Rplus_assoc. f_equal.
    assert (Hp : (point_elem L p < num_elems m)%nat) by (apply HL, Hin; left; easy).
    assert (K : forall ls cm, NoDup ls -> (forall k, In k ls -> (k < 4)%nat) -> fold_left (fun cm l =>
      fupd cm (corners_in_elem m (point_elem L p) l) (cm (corners_in_elem m (point_elem L p) l)
        + quad_corner_area m x (point_elem L p) l * den (fst p) (snd p))) ls cm
        (corners_in_elem m e l) = cm (corners_in_elem m e l) +
        (if Nat.eqb (point_elem L p) e && existsb (Nat.eqb l) ls then quad_corner_area m x e l * den (fst p) (snd p) else 0)).
    { induction ls as [|k ls IHl]; intros cm0 Hnd Hk.
      { cbn [fold_left existsb]. rewrite andb_false_r. ring. }
      cbn [fold_left]. inversion Hnd as [|? ? Hk1 Hk2]; subst.
      rewrite IHl by (auto; intros; apply Hk; right; easy). cbn [existsb].
      assert (Hk0 : (k < 4)%nat) by (apply Hk; left; easy).
      destruct (Nat.eqb_spec (point_elem L p) e) as [E|E]; cbn [andb].
      - destruct (Nat.eqb_spec l k) as [->|Hlk]; cbn [orb].
        + rewrite E. unfold fupd. rewrite Nat.eqb_refl.
          replace (existsb (Nat.eqb k) ls) with false; [ring|]. symmetry. apply not_true_is_false. intros H.
          apply existsb_exists in H. destruct H as (y & Hy & E'). apply Nat.eqb_eq in E'. now subst.
        + f_equal. unfold fupd. rewrite (proj2 (Nat.eqb_neq _ _)); [easy|]. intros E'. apply Hlk.
          apply (ok_distinct _ _ Hok e l (point_elem L p) k); auto.
      - f_equal. unfold fupd. rewrite (proj2 (Nat.eqb_neq _ _)); [easy|]. intros E'. apply E.
        symmetry. apply (ok_distinct _ _ Hok e l (point_elem L p) k); auto. }
    rewrite K; [|apply seq_NoDup|intros k Hk; apply in_seq in Hk; lia].
    replace (existsb (Nat.eqb l) (seq 0 4)) with true.
    2:{ symmetry. apply existsb_exists. exists l. split; [apply in_seq; lia|apply Nat.eqb_refl]. }
    rewrite andb_true_r. destruct (Nat.eqb (point_elem L p) e); ring. }
  rewrite G by auto. ring.
Qed.

(** node_mass_loop: sum of the corner masses, which get multiplied by the radius *)
Lemma node_loop m x n cm : NoDup (corners_in_node m n) ->
  fst (node_mass_loop m x n cm) = suml cm (corners_in_node m n) /\
  forall c, snd (node_mass_loop m x n cm) c = if in_dec Nat.eq_dec c (corners_in_node m n) then cm c * x n 1%nat else cm c.
Proof.
  unfold node_mass_loop.
  assert (G : forall ls v cm, NoDup ls ->
    fst (fold_left (fun '(nm, cm) c => (nm + cm c, fupd cm c (cm c * x n 1%nat))) ls (v, cm)) = v + suml cm ls /\
    forall c, snd (fold_left (fun '(nm, cm) c => (nm + cm c, fupd cm c (cm c * x n 1%nat))) ls (v, cm)) c =
      if in_dec Nat.eq_dec c ls then cm c * x n 1%nat else cm c).
  { induction ls as [|a ls IH]; intros v cm0 Hnd; [split; [cbn [fold_left fst]; change (suml cm0 []) with 0; ring|reflexivity]|].
    inversion Hnd as [|? ? Ha Hls]; subst. cbn [fold_left]. destruct (IH (v + cm0 a) (fupd cm0 a (cm0 a * x n 1%nat)) Hls) as [A B]. split.
    - rewrite A, suml_cons, (suml_ext _ cm0); [ring|]. intros c Hc. unfold fupd.
      rewrite (proj2 (Nat.eqb_neq _ _)); [easy|]. intros ->. easy.
    - intros c. rewrite B. unfold fupd. destruct (in_dec Nat.eq_dec c ls) as [Hc|Hc], (in_dec Nat.eq_dec c (a :: ls)) as [Hc'|Hc'];
        destruct (Nat.eqb_spec c a) as [->|Hn]; try easy; exfalso.
      + apply Hc'. right; easy.
      + destruct Hc' as [E|E]; [now subst|easy].
      + apply Hc'. left; easy. }
  intros Hnd. destruct (G (corners_in_node m n) 0 cm Hnd) as [A B]. split; [rewrite A; ring|exact B].
Qed.

Lemma node_mass_rz m x cm : corners_ok 4 m ->
  (forall n, (n < num_nodes m)%nat -> fst (calc_node_mass_rz m x cm) n = suml cm (corners_in_node m n)) /\
  (forall e l, (e < num_elems m)%nat -> (l < 4)%nat ->
     snd (calc_node_mass_rz m x cm) (corners_in_elem m e l) = cm (corners_in_elem m e l) * x (nodes_in m e l) 1%nat).
Proof.
  intros Hok. unfold calc_node_mass_rz.
  assert (G : forall k, (k <= num_nodes m)%nat ->
    let st := fold_left (fun '(nm, cm) n => let '(v, cm') := node_mass_loop m x n cm in (fupd nm n v, cm')) (seq 0 k) (fun _ => 0, cm) in
    (forall n, (n < k)%nat -> fst st n = suml cm (corners_in_node m n)) /\
    (forall e l, (e < num_elems m)%nat -> (l < 4)%nat ->
       snd st (corners_in_elem m e l) = if Nat.ltb (nodes_in m e l) k then cm (corners_in_elem m e l) * x (nodes_in m e l) 1%nat
                                         else cm (corners_in_elem m e l))).
  { induction k as [|k IH]; intros Hk; [split; [intros; lia|reflexivity]|].
    destruct (IH ltac:(lia)) as [A B]. rewrite seq_S, fold_left_app. cbn [Nat.add fold_left]. revert A B.
    generalize (fold_left (fun '(nm, cm) n => let '(v, cm') := node_mass_loop m x n cm in (fupd nm n v, cm')) (seq 0 k) (fun _ : nat => 0, cm)).
    intros [nm1 cm1] A B. cbn [fst snd] in A, B.
    destruct (node_loop m x k cm1 (ok_once _ _ Hok k)) as [C D].
    destruct (node_mass_loop m x k cm1) as [v cm']. cbn [fst snd] in *. split.
    - intros n Hn. unfold fupd. destruct (Nat.eqb_spec n k) as [->|Hne].
      + rewrite C. apply suml_ext. intros c Hc. destruct (proj1 (ok_node _ _ Hok k c) Hc) as (e & l & He & Hl & -> & En).
        rewrite (B e l He Hl), En, Nat.ltb_irrefl. reflexivity.
      + apply A. lia.
    - intros e l He Hl. rewrite D, (B e l He Hl).
      destruct (in_dec Nat.eq_dec (corners_in_elem m e l) (corners_in_node m k)) as [Hc|Hc].
      + destruct (proj1 (ok_node _ _ Hok k _) Hc) as (e' & l' & He' & Hl' & E & En).
        destruct (ok_distinct _ _ Hok e l e' l' He Hl He' Hl' E) as [-> ->]. rewrite En, Nat.ltb_irrefl.
        rewrite (proj2 (Nat.ltb_lt k (S k))) by lia. reflexivity.
      + assert (Hne : nodes_in m e l <> k).
        { intros E. apply Hc. apply (ok_node _ _ Hok). exists e, l. auto. }
        destruct (Nat.ltb_spec (nodes_in m e l) k), (Nat.ltb_spec (nodes_in m e l) (S k)); try easy; lia. }
  destruct (G (num_nodes m) (le_n _)) as [A B]. split; [exact A|]. intros e l He Hl. rewrite (B e l He Hl).
  rewrite (proj2 (Nat.ltb_lt _ _) (ok_range _ _ Hok e l He Hl)). reflexivity.
Qed.

Definition setup_nmass_rz (m : mesh3) (L : layout) (x : nat -> nat -> R) (den : nat -> nat -> R) : nat -> R :=
  fst (calc_node_mass_rz m x (setup_corner_mass_rz m L x den)).

(** sum over the nodes of mass times a nodal quantity *)
Lemma setup_rz_moment m L x den (w : nat -> R) : corners_ok 4 m -> layout_ok (num_elems m) L ->
  sumn (num_nodes m) (fun n => setup_nmass_rz m L x den n * w n) =
  suml (fun p => den (fst p) (snd p) * sumn 4 (fun l => w (nodes_in m (point_elem L p) l) * quad_corner_area m x (point_elem L p) l)) (points L).
Proof.
  intros Hok HL. set (cm := setup_corner_mass_rz m L x den).
  rewrite (sumn_ext _ _ (fun n => suml (fun c => cm c * w n) (corners_in_node m n))).
  2:{ intros n Hn. unfold setup_nmass_rz. rewrite (proj1 (node_mass_rz m x _ Hok) n Hn). fold cm.
      rewrite Rmult_comm, <- suml_scal. apply suml_ext. intros; ring. }
  rewrite (node_corner_sum 4 m (fun n c => cm c * w n) Hok).
  rewrite <- (suml_by_key _ (point_elem L) (num_elems m) (points L)) by (intros; now apply HL).
  apply sumn_ext. intros e He. rewrite suml_filter.
  rewrite (sumn_ext 4 _ (fun l => suml (fun p => if Nat.eqb (point_elem L p) e then den (fst p) (snd p) else 0) (points L)
     * (w (nodes_in m e l) * quad_corner_area m x e l))).
  2:{ intros l Hl. unfold cm. rewrite setup_rz_corner by auto. ring. }
  rewrite sumn_scal, Rmult_comm, <- suml_scal. apply suml_ext. intros p _.
  destruct (Nat.eqb_spec (point_elem L p) e) as [->|]; ring.
Qed.

Lemma setup_rz_total m L x den : corners_ok 4 m -> layout_ok (num_elems m) L ->
  (forall p, In p (points L) -> fan (gather m x (point_elem L p) 0) (gather m x (point_elem L p) 1)) ->
  sumn (num_nodes m) (extensive_mass (setup_nmass_rz m L x den) x) =
  suml (fun p => den (fst p) (snd p) * vol_quad_raw (gather m x (point_elem L p) 0) (gather m x (point_elem L p) 1)) (points L).
Proof.
  intros Hok HL Hf. unfold extensive_mass. rewrite (setup_rz_moment m L x den (fun n => x n 1%nat) Hok HL).
  apply suml_ext. intros p Hp. f_equal. rewrite <- (fan_volume _ _ (Hf p Hp)). reflexivity.
Qed.

Lemma setup_rz_areal m L x den : corners_ok 4 m -> layout_ok (num_elems m) L ->
  (forall p, In p (points L) -> fan (gather m x (point_elem L p) 0) (gather m x (point_elem L p) 1)) ->
  sumn (num_nodes m) (setup_nmass_rz m L x den) =
  suml (fun p => den (fst p) (snd p) * quad_area m x (point_elem L p)) (points L).
Proof.
  intros Hok HL Hf. rewrite (sumn_ext _ _ (fun n => setup_nmass_rz m L x den n * 1)) by (intros; ring).
  rewrite (setup_rz_moment m L x den (fun _ => 1) Hok HL).
  apply suml_ext. intros p Hp. f_equal. unfold quad_area. rewrite <- (fan_total _ _ (Hf p Hp)). apply sumn_ext. intros; unfold quad_corner_area; ring.
Qed.

(** ** Areal masses *)

Definition nb_max (mr : mesh_rz) (tiny : R) (x : nat -> nat -> R) (ext : nat -> R) (n : nat) (a : R) : R :=
  fold_left (fun a k => if Rlt_dec tiny (x k 1%nat) then fmax a (areal_first tiny x ext k / 2) else a) (nodes_in_node mr n) a.

Lemma nb_max_ge_aux tiny x ext ls a :
  a <= fold_left (fun a k => if Rlt_dec tiny (x k 1%nat) then fmax a (areal_first tiny x ext k / 2) else a) ls a.
Proof.
  revert a. induction ls as [|k ls IH]; intros a; [apply Rle_refl|]. cbn [fold_left]. eapply Rle_trans; [|apply IH].
  destruct (Rlt_dec _ _); [apply Rmax_l|apply Rle_refl].
Qed.

Lemma nb_max_spec mr tiny x ext n a :
  a <= nb_max mr tiny x ext n a /\
  (forall k, In k (nodes_in_node mr n) -> tiny < x k 1%nat -> ext k / x k 1%nat / 2 <= nb_max mr tiny x ext n a) /\
  (nb_max mr tiny x ext n a = a \/ exists k, In k (nodes_in_node mr n) /\ tiny < x k 1%nat /\ nb_max mr tiny x ext n a = ext k / x k 1%nat / 2).
Proof.
  unfold nb_max. split; [apply nb_max_ge_aux|]. revert a. induction (nodes_in_node mr n) as [|k ls IH]; intros a.
  - split; [easy|left; easy].
  - cbn [fold_left]. destruct (IH (if Rlt_dec tiny (x k 1%nat) then fmax a (areal_first tiny x ext k / 2) else a)) as [A B]. split.
    + intros j [->|Hj] Hr; [|now apply A]. eapply Rle_trans; [|apply nb_max_ge_aux].
      destruct (Rlt_dec tiny (x j 1%nat)); [|easy]. unfold areal_first. destruct (Rlt_dec tiny (x j 1%nat)); [|easy]. apply Rmax_r.
    + destruct B as [B|(j & Hj & Hr & B)].
      * rewrite B. destruct (Rlt_dec tiny (x k 1%nat)) as [Hk|]; [|left; easy]. unfold fmax, areal_first.
        destruct (Rlt_dec tiny (x k 1%nat)); [|easy].
        destruct (Rle_dec a (ext k / x k 1%nat / 2)).
        -- right. exists k. split; [left; easy|]. split; [easy|]. now apply Rmax_right.
        -- left. apply Rmax_left. lra.
      * right. exists j. split; [right; easy|]. split; easy.
Qed.

Lemma nb_max_idem mr tiny x ext n a : nb_max mr tiny x ext n (nb_max mr tiny x ext n a) = nb_max mr tiny x ext n a.
Proof.
  destruct (nb_max_spec mr tiny x ext n a) as (A1 & A2 & A3).
  destruct (nb_max_spec mr tiny x ext n (nb_max mr tiny x ext n a)) as (B1 & B2 & [B3|(k & Hk & Hr & B3)]); [exact B3|].
  apply Rle_antisym; [|exact B1]. rewrite B3. now apply A2.
Qed.

Lemma areal_bdy_spec mr tiny x ext nm n :
  (forall k, tiny < x k 1%nat -> nm k = areal_first tiny x ext k) ->
  forall j, areal_bdy mr tiny x nm n j = if Rlt_dec (x n 1%nat) tiny then if Nat.eqb j n then nb_max mr tiny x ext n (nm n) else nm j else nm j.
Proof.
  intros H j. unfold areal_bdy. destruct (Rlt_dec (x n 1%nat) tiny) as [Hn|]; [|easy]. unfold nb_max.
  assert (G : forall ls nm, (forall k, tiny < x k 1%nat -> nm k = areal_first tiny x ext k) ->
    fold_left (fun nm k => if Rlt_dec tiny (x k 1%nat) then fupd nm n (fmax (nm n) (nm k / 2)) else nm) ls nm j =
    if Nat.eqb j n then fold_left (fun a k => if Rlt_dec tiny (x k 1%nat) then fmax a (areal_first tiny x ext k / 2) else a) ls (nm n) else nm j).
  { induction ls as [|k ls IH]; intros nm0 H0; [cbn [fold_left]; destruct (Nat.eqb_spec j n) as [->|]; easy|]. cbn [fold_left].
    destruct (Rlt_dec tiny (x k 1%nat)) as [Hk|Hk]; [|now apply IH]. rewrite IH.
    - unfold fupd. rewrite Nat.eqb_refl, (H0 k Hk). destruct (Nat.eqb j n); reflexivity.
    - intros i Hi. unfold fupd. destruct (Nat.eqb_spec i n) as [->|]; [lra|auto]. }
  now apply G.
Qed.

Lemma areal_spec mr tiny x ext n :
  areal_mass mr tiny x ext n =
  if Rlt_dec tiny (x n 1%nat) then ext n / x n 1%nat
  else if Rlt_dec (x n 1%nat) tiny then if in_dec Nat.eq_dec n (bdy_nodes mr) then nb_max mr tiny x ext n 0 else 0 else 0.
Proof.
  unfold areal_mass.
  assert (G : forall ls nm, (forall k, tiny < x k 1%nat -> nm k = areal_first tiny x ext k) ->
    (forall k, fold_left (areal_bdy mr tiny x) ls nm k =
      if Rlt_dec tiny (x k 1%nat) then ext k / x k 1%nat
      else if Rlt_dec (x k 1%nat) tiny then if in_dec Nat.eq_dec k ls then nb_max mr tiny x ext k (nm k) else nm k else nm k)).
  { induction ls as [|a ls IH]; intros nm H k.
    - cbn [fold_left]. destruct (Rlt_dec tiny (x k 1%nat)) as [Hk|Hk].
      + rewrite (H k Hk). unfold areal_first. destruct (Rlt_dec _ _); easy.
      + destruct (Rlt_dec (x k 1%nat) tiny); [|easy]. destruct (in_dec Nat.eq_dec k []) as [[]|]; easy.
    - cbn [fold_left]. assert (S := areal_bdy_spec mr tiny x ext nm a H). rewrite IH.
      2:{ intros i Hi. rewrite S. destruct (Rlt_dec (x a 1%nat) tiny); [|auto]. destruct (Nat.eqb_spec i a) as [->|]; [lra|auto]. }
      destruct (Rlt_dec tiny (x k 1%nat)) as [Hk|Hk]; [easy|]. destruct (Rlt_dec (x k 1%nat) tiny) as [Hk'|Hk'].
      + rewrite S. destruct (in_dec Nat.eq_dec k ls) as [Hi|Hi], (in_dec Nat.eq_dec k (a :: ls)) as [Hj|Hj].
        * destruct (Rlt_dec (x a 1%nat) tiny); [|easy]. destruct (Nat.eqb_spec k a) as [->|]; [apply nb_max_idem|easy].
        * exfalso. apply Hj. right; easy.
        * destruct Hj as [->|Hj]; [|easy]. destruct (Rlt_dec (x k 1%nat) tiny); [|easy]. now rewrite Nat.eqb_refl.
        * destruct (Rlt_dec (x a 1%nat) tiny); [|easy]. destruct (Nat.eqb_spec k a) as [->|]; [|easy]. exfalso. apply Hj. left; easy.
      + rewrite S. destruct (Rlt_dec (x a 1%nat) tiny); [|easy]. destruct (Nat.eqb_spec k a) as [->|]; easy. }
  rewrite G by easy. unfold areal_first. destruct (Rlt_dec tiny (x n 1%nat)); [easy|].
  destruct (Rlt_dec (x n 1%nat) tiny); [|easy]. destruct (in_dec Nat.eq_dec n (bdy_nodes mr)); easy.
Qed.
