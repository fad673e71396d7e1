(** What the loops of the reference element leave in the arrays. *)
From Coq Require Import Reals List Arith Lia Lra.
From Verif Require Import BaseArr BaseReal RefSpec RefModel RefLag.
Import ListNotations.
Open Scope R_scope.

(** * Loops *)
Lemma for_each_pure {X S} (l : list X) (body : X -> S -> option S) (g : X -> S -> S) s :
  (forall x s, In x l -> body x s = Some (g x s)) ->
  for_each l body s = Some (fold_left (fun s x => g x s) l s).
Proof.
  revert s. induction l as [|x l IH]; intros s H; [reflexivity|]. cbn [for_each fold_left].
  rewrite (H x s) by (left; reflexivity). cbn [obind]. apply IH. intros; apply H; right; assumption.
Qed.

Lemma writes_table {A} (w : list (write A)) (a : arr A) (f : nat -> nat -> A) :
  (forall r c v, In (r, c, v) w -> (r < nrow a)%nat /\ (c < ncol a)%nat /\ v = f r c) ->
  (forall r c, (r < nrow a)%nat -> (c < ncol a)%nat -> exists v, In (r, c, v) w) ->
  exists a', do_writes w a = Some a' /\ table a' (nrow a) (ncol a) f.
Proof.
  intros H C. destruct (@do_writes_some A w a) as (a' & E & R & K & _ & V).
  { intros r c v Hin. destruct (H r c v Hin) as (? & ? & _). split; assumption. }
  exists a'. split; [exact E|]. split; [exact R|]. split; [exact K|].
  intros r c Hr Hc. destruct (C r c Hr Hc) as (v & Hin). unfold aget. rewrite R, K.
  rewrite (proj2 (Nat.ltb_lt _ _) Hr), (proj2 (Nat.ltb_lt _ _) Hc). cbn [andb].
  rewrite (V ltac:(intros ? ? ? ? H1 H2; rewrite (proj2 (proj2 (H _ _ _ H1))), (proj2 (proj2 (H _ _ _ H2))); reflexivity) r c v Hin).
  f_equal. apply (H r c v Hin).
Qed.

Lemma loop_table {A X} (l : list X) (body : X -> arr A -> option (arr A)) (W : X -> list (write A)) a f :
  (forall x a, In x l -> body x a = do_writes (W x) a) ->
  (forall x r c v, In x l -> In (r, c, v) (W x) -> (r < nrow a)%nat /\ (c < ncol a)%nat /\ v = f r c) ->
  (forall r c, (r < nrow a)%nat -> (c < ncol a)%nat -> exists x v, In x l /\ In (r, c, v) (W x)) ->
  exists a', for_each l body a = Some a' /\ table a' (nrow a) (ncol a) f.
Proof.
  intros B H C. rewrite (@for_each_writes A X l body W a B). apply writes_table.
  - intros r c v Hin. apply in_flat_map in Hin as (x & Hx & Hin). apply (H x); assumption.
  - intros r c Hr Hc. destruct (C r c Hr Hc) as (x & v & Hx & Hin). exists v.
    apply in_flat_map. exists x. split; assumption.
Qed.

Lemma loop_pair {A B X} (l : list X) (body : X -> arr A * arr B -> option (arr A * arr B))
    (W : X -> list (write A)) (V : X -> list (write B)) a b f g :
  (forall x a b, In x l -> body x (a, b) =
     obind (do_writes (W x) a) (fun a => obind (do_writes (V x) b) (fun b => Some (a, b)))) ->
  (forall x r c v, In x l -> In (r, c, v) (W x) -> (r < nrow a)%nat /\ (c < ncol a)%nat /\ v = f r c) ->
  (forall r c, (r < nrow a)%nat -> (c < ncol a)%nat -> exists x v, In x l /\ In (r, c, v) (W x)) ->
  (forall x r c v, In x l -> In (r, c, v) (V x) -> (r < nrow b)%nat /\ (c < ncol b)%nat /\ v = g r c) ->
  (forall r c, (r < nrow b)%nat -> (c < ncol b)%nat -> exists x v, In x l /\ In (r, c, v) (V x)) ->
  exists a' b', for_each l body (a, b) = Some (a', b') /\
    table a' (nrow a) (ncol a) f /\ table b' (nrow b) (ncol b) g.
Proof.
  intros E Ha Ca Hb Cb.
  destruct (loop_table l (fun x => do_writes (W x)) W a f ltac:(reflexivity) Ha Ca) as (a' & Ea & Ta).
  destruct (loop_table l (fun x => do_writes (V x)) V b g ltac:(reflexivity) Hb Cb) as (b' & Eb & Tb).
  exists a', b'. split; [|split; assumption].
  clear Ta Tb Ha Ca Hb Cb. revert a b E Ea Eb. induction l as [|x l IH]; intros a b E Ea Eb; cbn [for_each] in *.
  - injection Ea as ->. injection Eb as ->. reflexivity.
  - rewrite E by (left; reflexivity).
    destruct (do_writes (W x) a) as [a1|]; [|discriminate].
    destruct (do_writes (V x) b) as [b1|]; [|discriminate]. cbn [obind] in *.
    apply IH; try assumption. intros; apply E; right; assumption.
Qed.

Lemma table_get {A} (a : arr A) r c f i j : table a r c f -> (i < r)%nat -> (j < c)%nat -> aget a i j = Some (f i j).
Proof. intros (_ & _ & H). apply H. Qed.

Lemma table_ext {A} (a : arr A) r c f g : (forall i j, (i < r)%nat -> (j < c)%nat -> f i j = g i j) ->
  table a r c f -> table a r c g.
Proof. intros E (H1 & H2 & H3). split; [exact H1|]. split; [exact H2|]. intros i j Hi Hj. rewrite <- E by assumption. auto. Qed.

(** * Numbering *)
Lemma rid_lt n i j k : (i < n)%nat -> (j < n)%nat -> (k < n)%nat -> (rid n i j k < n * n * n)%nat.
Proof. unfold rid. nia. Qed.

Lemma rid_onto n r : (r < n * n * n)%nat -> exists i j k, (i < n /\ j < n /\ k < n)%nat /\ rid n i j k = r.
Proof.
  intros H. assert (n <> 0)%nat by nia.
  exists (r mod n), ((r / n) mod n), (r / n / n)%nat.
  assert (r / n / n < n)%nat.
  { apply Nat.div_lt_upper_bound; [assumption|]. apply Nat.div_lt_upper_bound; [assumption|]. nia. }
  split.
  - split; [apply Nat.mod_upper_bound; assumption|]. split; [apply Nat.mod_upper_bound; assumption|assumption].
  - unfold rid. pose proof (Nat.div_mod r n ltac:(assumption)). pose proof (Nat.div_mod (r / n) n ltac:(assumption)). nia.
Qed.

Lemma rid_inj n i j k i' j' k' : (i < n)%nat -> (j < n)%nat -> (i' < n)%nat -> (j' < n)%nat ->
  rid n i j k = rid n i' j' k' -> i = i' /\ j = j' /\ k = k'.
Proof.
  unfold rid. intros Hi Hj Hi' Hj' E.
  assert (E' : (i + (j + k * n) * n = i' + (j' + k' * n) * n)%nat) by nia.
  assert (n <> 0)%nat by lia.
  assert (Ei : i = i').
  { apply (f_equal (fun m => m mod n)) in E'. rewrite !Nat.mod_add, !Nat.mod_small in E' by assumption. exact E'. }
  subst i'. assert (E2 : (j + k * n = j' + k' * n)%nat) by nia.
  assert (Ej : j = j').
  { apply (f_equal (fun m => m mod n)) in E2. rewrite !Nat.mod_add, !Nat.mod_small in E2 by assumption. exact E2. }
  subst j'. split; [reflexivity|]. split; [reflexivity|]. nia.
Qed.

(** The indices along each direction of a number. *)
Definition ix (n r : nat) : nat := (r mod n)%nat.
Definition iy (n r : nat) : nat := ((r / n) mod n)%nat.
Definition iz (n r : nat) : nat := (r / n / n)%nat.

Lemma rid_ix n i j k : (i < n)%nat -> (j < n)%nat -> (k < n)%nat ->
  ix n (rid n i j k) = i /\ iy n (rid n i j k) = j /\ iz n (rid n i j k) = k.
Proof.
  intros Hi Hj Hk. unfold ix, iy, iz, rid. assert (n <> 0)%nat by lia.
  replace (i + j * n + k * n * n)%nat with (i + (j + k * n) * n)%nat by nia.
  rewrite Nat.mod_add, Nat.div_add, (Nat.div_small i), Nat.mod_small by assumption.
  cbn [plus]. rewrite Nat.mod_add, Nat.mod_small, Nat.div_add, Nat.div_small by assumption. auto.
Qed.

Lemma in_cells_over l i j k : In (i, j, k) (cells_over l) <-> In i l /\ In j l /\ In k l.
Proof.
  unfold cells_over. rewrite in_flat_map. split.
  - intros (k' & Hk & H). apply in_flat_map in H as (j' & Hj & H). apply in_map_iff in H as (i' & E & Hi).
    injection E as <- <- <-. auto.
  - intros (Hi & Hj & Hk). exists k. split; [exact Hk|]. apply in_flat_map. exists j. split; [exact Hj|].
    apply in_map_iff. exists i. auto.
Qed.

Lemma in_cells n i j k : In (i, j, k) (cells n) <-> (i < n /\ j < n /\ k < n)%nat.
Proof. unfold cells. rewrite in_cells_over, !in_seq. lia. Qed.

Lemma sum_cells n (F : nat -> R) :
  sumn (n * n * n) F = sumn n (fun k => sumn n (fun j => sumn n (fun i => F (rid n i j k)))).
Proof.
  assert (S : forall a b G, sumn (a * b) G = sumn b (fun j => sumn a (fun i => G (i + j * a)%nat))).
  { intros a b G. induction b as [|b IH]; [rewrite Nat.mul_0_r; reflexivity|].
    rewrite Nat.mul_succ_r, sumn_split, IH. cbn [sumn]. f_equal.
    apply sumn_ext. intros i _. f_equal. nia. }
  rewrite S. apply sumn_ext. intros k _. rewrite S. apply sumn_ext. intros j _.
  apply sumn_ext. intros i _. unfold rid. f_equal. nia.
Qed.

Lemma sum_cells3 n (a b c : nat -> R) :
  sumn (n * n * n) (fun r => a (ix n r) * b (iy n r) * c (iz n r)) = sumn n a * sumn n b * sumn n c.
Proof.
  rewrite sum_cells.
  rewrite (sumn_ext n _ (fun k => (sumn n a * sumn n b) * c k)).
  - rewrite sumn_scal. reflexivity.
  - intros k Hk. rewrite (sumn_ext n _ (fun j => (sumn n a * c k) * b j)).
    + rewrite sumn_scal. ring.
    + intros j Hj. rewrite (sumn_ext n _ (fun i => (b j * c k) * a i)).
      * rewrite sumn_scal. ring.
      * intros i Hi. destruct (rid_ix n i j k Hi Hj Hk) as (-> & -> & ->). ring.
Qed.

(** * One dimension *)
Lemma table_zeros r c : table (zeros r c) r c (fun _ _ => 0).
Proof.
  split; [reflexivity|]. split; [reflexivity|]. intros i j Hi Hj. unfold aget, zeros. cbn [nrow ncol dat].
  rewrite (proj2 (Nat.ltb_lt _ _) Hi), (proj2 (Nat.ltb_lt _ _) Hj). reflexivity.
Qed.

Lemma column_table {A} n (body : nat -> arr A -> option (arr A)) (g : nat -> A) a :
  nrow a = n -> ncol a = 1%nat -> (forall i a, (i < n)%nat -> body i a = aset a i 0 (g i)) ->
  exists a', for_up 0 n body a = Some a' /\ table a' n 1 (fun i _ => g i).
Proof.
  intros Hr Hc B.
  destruct (loop_table (seq 0 n) body (fun i => [(i, 0%nat, g i)]) a (fun i _ => g i)) as (a' & E & T).
  - intros i a0 Hi. apply in_seq in Hi. rewrite B by lia. unfold do_writes. cbn [for_each].
    destruct (aset a0 i 0 (g i)); reflexivity.
  - intros i r c v Hi [Hin|[]]. apply in_seq in Hi. injection Hin as <- <- <-. split; [lia|]. split; [lia|reflexivity].
  - intros r c H1 H2. exists r, (g r). split; [apply in_seq; lia|left; f_equal; f_equal; lia].
  - exists a'. rewrite Hr, Hc in T. split; assumption.
Qed.

Lemma store_table t n l : t n = Some l -> length l = n ->
  exists a, store t n (zeros n 1) = Some a /\ table a n 1 (fun i _ => nth i l 0).
Proof.
  intros E L. unfold store. rewrite E, L.
  apply (column_table n _ (fun i => nth i l 0)); [reflexivity|reflexivity|].
  intros i a Hi. rewrite (nth_error_nth' l 0) by lia. reflexivity.
Qed.

Section OneD.
Variable n : nat.
Variable pos : arr R.
Variable P : nat -> R.
Hypothesis T : table pos n 1 (fun i _ => P i).

Lemma fold_ratio i x l : forall nu de it,
  fold_left (fun (st : R * R * R) j => let '(nu, de, _) := st in
     if (j =? i)%nat then (nu, de, nu / de)
     else (nu * (x - P j), de * (P i - P j), nu * (x - P j) / (de * (P i - P j)))) l (nu, de, it)
  = (nu * prodl (fun j => x - P j) (filter (fun j => negb (j =? i)%nat) l),
     de * prodl (fun j => P i - P j) (filter (fun j => negb (j =? i)%nat) l),
     match l with [] => it | _ =>
       nu * prodl (fun j => x - P j) (filter (fun j => negb (j =? i)%nat) l) /
       (de * prodl (fun j => P i - P j) (filter (fun j => negb (j =? i)%nat) l)) end).
Proof.
  induction l as [|j l IH]; intros nu de it.
  - cbn. rewrite !Rmult_1_r. reflexivity.
  - cbn [fold_left filter].
    destruct (j =? i)%nat; cbn [negb]; rewrite IH.
    + destruct l; [cbn; rewrite !Rmult_1_r; reflexivity|reflexivity].
    + rewrite !prodl_cons, !Rmult_assoc. destruct l; [cbn [filter prodl fold_right]; rewrite !Rmult_1_r; reflexivity|reflexivity].
Qed.

Lemma basis_1D x : exists a, lagrange_basis_1D n pos (zeros n 1) x = Some a /\
  table a n 1 (fun i _ => lag n P i x).
Proof.
  unfold lagrange_basis_1D. apply column_table; [reflexivity|reflexivity|].
  intros i a Hi. unfold for_up at 1.
  rewrite (for_each_pure (seq 0 n) _ (fun j (st : R * R * R) => let '(nu, de, _) := st in
     if (j =? i)%nat then (nu, de, nu / de)
     else (nu * (x - P j), de * (P i - P j), nu * (x - P j) / (de * (P i - P j))))).
  - rewrite fold_ratio. cbn [obind]. f_equal. unfold lag, others.
    destruct n as [|m]; [lia|]. cbn [seq]. rewrite !Rmult_1_l. reflexivity.
  - intros j [[nu de] it] Hj. apply in_seq in Hj. destruct (j =? i)%nat; [reflexivity|].
    rewrite (table_get _ _ _ _ i 0 T) by lia. rewrite (table_get _ _ _ _ j 0 T) by lia. reflexivity.
Qed.

Lemma filter_both i j l : filter (fun m => negb (m =? j)%nat && negb (m =? i)%nat) l
  = filter (fun m => negb (m =? j)%nat) (filter (fun m => negb (m =? i)%nat) l).
Proof.
  induction l as [|m l IH]; [reflexivity|]. cbn [filter].
  destruct (m =? i)%nat; cbn [negb]; [rewrite Bool.andb_false_r; exact IH|].
  rewrite Bool.andb_true_r. cbn [filter]. destruct (m =? j)%nat; cbn [negb]; rewrite IH; reflexivity.
Qed.

Lemma product_loop i j x :
  for_up 0 n (fun m pg => if negb (m =? j)%nat && negb (m =? i)%nat
                          then obind (aget pos m 0) (fun pm => Some (pg * (x - pm))) else Some pg) 1
  = Some (prodl (fun m => x - P m) (filter (fun m => negb (m =? j)%nat) (others n i))).
Proof.
  unfold for_up, others.
  rewrite (for_each_pure (seq 0 n) _ (fun m pg => if negb (m =? j)%nat && negb (m =? i)%nat then pg * (x - P m) else pg)).
  - f_equal. rewrite <- filter_both.
    assert (F : forall l r, fold_left (fun s m => if negb (m =? j)%nat && negb (m =? i)%nat then s * (x - P m) else s) l r
                = r * prodl (fun m => x - P m) (filter (fun m => negb (m =? j)%nat && negb (m =? i)%nat) l)).
    { induction l as [|m l IH]; intros r; cbn [fold_left filter]; [cbn; ring|].
      rewrite IH. destruct (negb (m =? j)%nat && negb (m =? i)%nat); [rewrite prodl_cons; ring|reflexivity]. }
    rewrite F. ring.
  - intros m pg Hm. apply in_seq in Hm. destruct (negb (m =? j)%nat && negb (m =? i)%nat); [|reflexivity].
    rewrite (table_get _ _ _ _ m 0 T) by lia. reflexivity.
Qed.

Lemma fold_gradient i (Q : nat -> R) l : forall de ng it,
  fold_left (fun (st : R * R * R) j => let '(de, ng, _) := st in
     if (j =? i)%nat then (de, ng, ng / de)
     else (de * (P i - P j), ng + Q j, (ng + Q j) / (de * (P i - P j)))) l (de, ng, it)
  = (de * prodl (fun j => P i - P j) (filter (fun j => negb (j =? i)%nat) l),
     ng + suml Q (filter (fun j => negb (j =? i)%nat) l),
     match l with [] => it | _ =>
       (ng + suml Q (filter (fun j => negb (j =? i)%nat) l)) /
       (de * prodl (fun j => P i - P j) (filter (fun j => negb (j =? i)%nat) l)) end).
Proof.
  induction l as [|j l IH]; intros de ng it.
  - cbn. rewrite Rmult_1_r, Rplus_0_r. reflexivity.
  - cbn [fold_left filter].
    destruct (j =? i)%nat; cbn [negb]; rewrite IH.
    + destruct l; [cbn; rewrite Rmult_1_r, Rplus_0_r; reflexivity|reflexivity].
    + rewrite !prodl_cons, !suml_cons, !Rmult_assoc, !Rplus_assoc.
      destruct l; [cbn [filter]; unfold prodl, suml; cbn [fold_right]; rewrite !Rmult_1_r, !Rplus_0_r; reflexivity|reflexivity].
Qed.

Lemma derivative_1D x : exists a, lagrange_derivative_1D n pos (zeros n 1) x = Some a /\
  table a n 1 (fun i _ => dlag n P i x).
Proof.
  unfold lagrange_derivative_1D. apply column_table; [reflexivity|reflexivity|].
  intros i a Hi. unfold for_up at 1.
  rewrite (for_each_pure (seq 0 n) _ (fun j (st : R * R * R) => let '(de, ng, _) := st in
     if (j =? i)%nat then (de, ng, ng / de)
     else (de * (P i - P j), ng + prodl (fun m => x - P m) (filter (fun m => negb (m =? j)%nat) (others n i)),
           (ng + prodl (fun m => x - P m) (filter (fun m => negb (m =? j)%nat) (others n i))) / (de * (P i - P j))))).
  - rewrite (fold_gradient i (fun j => prodl (fun m => x - P m) (filter (fun m => negb (m =? j)%nat) (others n i)))).
    cbn [obind]. f_equal. unfold dlag. fold (others n i).
    destruct n as [|m] eqn:En; [lia|]. cbn [seq]. rewrite !Rmult_1_l, !Rplus_0_l. reflexivity.
  - intros j [[de ng] it] Hj. apply in_seq in Hj. destruct (j =? i)%nat; [reflexivity|].
    rewrite (table_get _ _ _ _ i 0 T) by lia. rewrite (table_get _ _ _ _ j 0 T) by lia. cbn [obind].
    rewrite product_loop. reflexivity.
Qed.
End OneD.

(** * Three dimensions *)
Lemma tensor_table n v0 v1 v2 f0 f1 f2 :
  table v0 n 1 (fun i _ => f0 i) -> table v1 n 1 (fun i _ => f1 i) -> table v2 n 1 (fun i _ => f2 i) ->
  exists a, tensor n v0 v1 v2 (zeros (n * n * n) 1) = Some a /\
    table a (n * n * n) 1 (fun r _ => f0 (ix n r) * f1 (iy n r) * f2 (iz n r)).
Proof.
  intros T0 T1 T2. unfold tensor.
  apply (loop_table (cells n) _ (fun '(i, j, k) => [(rid n i j k, 0%nat, f0 i * f1 j * f2 k)])
           (zeros (n * n * n) 1) (fun r _ => f0 (ix n r) * f1 (iy n r) * f2 (iz n r))).
  - intros [[i j] k] a H. apply in_cells in H as (Hi & Hj & Hk).
    rewrite (table_get _ _ _ _ i 0 T0), (table_get _ _ _ _ j 0 T1), (table_get _ _ _ _ k 0 T2) by lia.
    unfold do_writes. cbn [obind for_each]. destruct (aset a (rid n i j k) 0 (f0 i * f1 j * f2 k)); reflexivity.
  - intros [[i j] k] r c v H [E|[]]. apply in_cells in H as (Hi & Hj & Hk). injection E as <- <- <-.
    destruct (rid_ix n i j k Hi Hj Hk) as (-> & -> & ->). cbn [zeros nrow ncol].
    split; [apply rid_lt; assumption|]. split; [lia|reflexivity].
  - cbn [zeros nrow ncol]. intros r c Hr Hc. destruct (rid_onto n r Hr) as (i & j & k & (Hi & Hj & Hk) & <-).
    exists (i, j, k), (f0 i * f1 j * f2 k). split; [apply in_cells; auto|]. left. f_equal. f_equal. lia.
Qed.

Section Evaluate.
Variable n : nat.
Variable pos : arr R.
Variable P : nat -> R.
Hypothesis T : table pos n 1 (fun i _ => P i).

Definition phi (pt : R * R * R) (r : nat) : R :=
  let '(x, y, z) := pt in lag n P (ix n r) x * lag n P (iy n r) y * lag n P (iz n r) z.
Definition dphi (pt : R * R * R) (r d : nat) : R :=
  let '(x, y, z) := pt in
  match d with
  | O => dlag n P (ix n r) x * lag n P (iy n r) y * lag n P (iz n r) z
  | S O => lag n P (ix n r) x * dlag n P (iy n r) y * lag n P (iz n r) z
  | _ => lag n P (ix n r) x * lag n P (iy n r) y * dlag n P (iz n r) z
  end%R.

Lemma get_basis_table pt : exists a, get_basis n pos pt = Some a /\ table a (n * n * n) 1 (fun r _ => phi pt r).
Proof.
  destruct pt as [[x y] z]. unfold get_basis.
  destruct (basis_1D n pos P T x) as (a & -> & Ta). destruct (basis_1D n pos P T y) as (b & -> & Tb).
  destruct (basis_1D n pos P T z) as (c & -> & Tc). cbn [obind].
  apply (tensor_table n a b c (fun i => lag n P i x) (fun i => lag n P i y) (fun i => lag n P i z)); assumption.
Qed.

Lemma partial_xi_table pt : exists a, partial_xi_basis n pos pt = Some a /\ table a (n * n * n) 1 (fun r _ => dphi pt r 0).
Proof.
  destruct pt as [[x y] z]. unfold partial_xi_basis.
  destruct (derivative_1D n pos P T x) as (a & -> & Ta). destruct (basis_1D n pos P T y) as (b & -> & Tb).
  destruct (basis_1D n pos P T z) as (c & -> & Tc). cbn [obind].
  apply (tensor_table n a b c (fun i => dlag n P i x) (fun i => lag n P i y) (fun i => lag n P i z)); assumption.
Qed.

Lemma partial_eta_table pt : exists a, partial_eta_basis n pos pt = Some a /\ table a (n * n * n) 1 (fun r _ => dphi pt r 1).
Proof.
  destruct pt as [[x y] z]. unfold partial_eta_basis.
  destruct (basis_1D n pos P T x) as (a & -> & Ta). destruct (derivative_1D n pos P T y) as (b & -> & Tb).
  destruct (basis_1D n pos P T z) as (c & -> & Tc). cbn [obind].
  apply (tensor_table n a b c (fun i => lag n P i x) (fun i => dlag n P i y) (fun i => lag n P i z)); assumption.
Qed.

Lemma partial_mu_table pt : exists a, partial_mu_basis n pos pt = Some a /\ table a (n * n * n) 1 (fun r _ => dphi pt r 2).
Proof.
  destruct pt as [[x y] z]. unfold partial_mu_basis.
  destruct (basis_1D n pos P T x) as (a & -> & Ta). destruct (basis_1D n pos P T y) as (b & -> & Tb).
  destruct (derivative_1D n pos P T z) as (c & -> & Tc). cbn [obind].
  apply (tensor_table n a b c (fun i => lag n P i x) (fun i => lag n P i y) (fun i => dlag n P i z)); assumption.
Qed.
End Evaluate.

(** * The tables of the element *)
Lemma tabulate_basis_table npts nb positions X eval F :
  table positions npts 3 X ->
  (forall pt, exists a, eval pt = Some a /\ table a nb 1 (fun r _ => F pt r)) ->
  exists a, tabulate_basis npts nb positions eval (zeros npts nb) = Some a /\
    table a npts nb (fun q m => F (at_row X q) m).
Proof.
  intros TX TF. unfold tabulate_basis.
  apply (loop_table (seq 0 npts) _ (fun q => map (fun m => (q, m, F (at_row X q) m)) (seq 0 nb)) (zeros npts nb)
          (fun q m => F (at_row X q) m)).
  - intros q a Hq. apply in_seq in Hq.
    rewrite (table_get _ _ _ _ q 0 TX), (table_get _ _ _ _ q 1 TX), (table_get _ _ _ _ q 2 TX) by lia. cbn [obind].
    change (X q 0%nat, X q 1%nat, X q 2%nat) with (at_row X q).
    destruct (TF (at_row X q)) as (b & -> & Tb). cbn [obind].
    unfold for_up. rewrite (@for_each_writes R nat (seq 0 nb) _ (fun m => [(q, m, F (at_row X q) m)])).
    + reflexivity.
    + intros m a0 Hm. apply in_seq in Hm. rewrite (table_get _ _ _ _ m 0 Tb) by lia.
      unfold do_writes. cbn [obind for_each]. destruct (aset a0 q m (F (at_row X q) m)); reflexivity.
  - intros q r c v Hq Hin. apply in_seq in Hq. apply in_map_iff in Hin as (m & E & Hm). apply in_seq in Hm.
    injection E as <- <- <-. cbn [zeros nrow ncol]. split; [lia|]. split; [lia|reflexivity].
  - cbn [zeros nrow ncol]. intros r c Hr Hc. exists r, (F (at_row X r) c). split; [apply in_seq; lia|].
    apply in_map_iff. exists c. split; [reflexivity|apply in_seq; lia].
Qed.

Lemma tabulate_grad_table npts nb positions X dx dy dz F :
  table positions npts 3 X ->
  (forall pt, exists a, dx pt = Some a /\ table a nb 1 (fun r _ => F pt r 0%nat)) ->
  (forall pt, exists a, dy pt = Some a /\ table a nb 1 (fun r _ => F pt r 1%nat)) ->
  (forall pt, exists a, dz pt = Some a /\ table a nb 1 (fun r _ => F pt r 2%nat)) ->
  exists a, tabulate_grad npts nb positions dx dy dz (zeros npts (nb * 3)) = Some a /\
    table a npts (nb * 3) (fun q md => F (at_row X q) (md / 3)%nat (md mod 3)%nat).
Proof.
  intros TX T0 T1 T2. unfold tabulate_grad.
  apply (loop_table (seq 0 npts) _
    (fun q => flat_map (fun m => [(q, (m * 3)%nat, F (at_row X q) m 0%nat); (q, (m * 3 + 1)%nat, F (at_row X q) m 1%nat);
                                   (q, (m * 3 + 2)%nat, F (at_row X q) m 2%nat)]) (seq 0 nb)) (zeros npts (nb * 3))
    (fun q md => F (at_row X q) (md / 3)%nat (md mod 3)%nat)).
  - intros q a Hq. apply in_seq in Hq.
    rewrite (table_get _ _ _ _ q 0 TX), (table_get _ _ _ _ q 1 TX), (table_get _ _ _ _ q 2 TX) by lia. cbn [obind].
    change (X q 0%nat, X q 1%nat, X q 2%nat) with (at_row X q).
    destruct (T0 (at_row X q)) as (b0 & -> & B0). destruct (T1 (at_row X q)) as (b1 & -> & B1).
    destruct (T2 (at_row X q)) as (b2 & -> & B2). cbn [obind]. unfold for_up.
    apply for_each_writes. intros m a0 Hm. apply in_seq in Hm.
    rewrite (table_get _ _ _ _ m 0 B0), (table_get _ _ _ _ m 0 B1), (table_get _ _ _ _ m 0 B2) by lia.
    unfold do_writes. cbn [obind for_each].
    destruct (aset a0 q (m * 3) _) as [a1|]; [|reflexivity]. cbn [obind].
    destruct (aset a1 q (m * 3 + 1) _) as [a2|]; [|reflexivity]. cbn [obind].
    destruct (aset a2 q (m * 3 + 2) _) as [a3|]; reflexivity.
  - intros q r c v Hq Hin. apply in_seq in Hq. apply in_flat_map in Hin as (m & Hm & Hin). apply in_seq in Hm.
    cbn [zeros nrow ncol].
    assert (D : forall d, (d < 3)%nat -> ((m * 3 + d) / 3 = m /\ (m * 3 + d) mod 3 = d)%nat).
    { intros d Hd. rewrite Nat.add_comm, Nat.div_add, Nat.mod_add, Nat.div_small, Nat.mod_small by lia. lia. }
    destruct Hin as [E|[E|[E|[]]]]; injection E as <- <- <-.
    + destruct (D 0%nat ltac:(lia)) as [D1 D2]. rewrite Nat.add_0_r in D1, D2. rewrite D1, D2. split; [lia|]. split; [lia|reflexivity].
    + destruct (D 1%nat ltac:(lia)) as [D1 D2]. rewrite D1, D2. split; [lia|]. split; [lia|reflexivity].
    + destruct (D 2%nat ltac:(lia)) as [D1 D2]. rewrite D1, D2. split; [lia|]. split; [lia|reflexivity].
  - cbn [zeros nrow ncol]. intros r c Hr Hc.
    pose proof (Nat.div_mod c 3 ltac:(lia)) as E. pose proof (Nat.mod_upper_bound c 3 ltac:(lia)).
    exists r, (F (at_row X r) (c / 3)%nat (c mod 3)%nat). split; [apply in_seq; lia|].
    apply in_flat_map. exists (c / 3)%nat. split; [apply in_seq; lia|].
    destruct (c mod 3) as [|[|[|?]]] eqn:Em; [left|right; left|right; right; left|lia]; f_equal; f_equal; lia.
Qed.

Lemma place_points_table sch n nodes weights f w :
  (forall l c, In c (sch l) <-> In c l) ->
  table nodes n 1 (fun i _ => f i) -> table weights n 1 (fun i _ => w i) ->
  exists a b, place_points sch n nodes weights (zeros (n * n * n) 3, zeros (n * n * n) 1) = Some (a, b) /\
    table a (n * n * n) 3 (fun r d => match d with O => f (ix n r) | S O => f (iy n r) | _ => f (iz n r) end) /\
    table b (n * n * n) 1 (fun r _ => w (ix n r) * w (iy n r) * w (iz n r)).
Proof.
  intros HS TN TW. unfold place_points.
  apply (loop_pair (sch (cells n)) _
    (fun '(i, j, k) => [(rid n i j k, 0%nat, f i); (rid n i j k, 1%nat, f j); (rid n i j k, 2%nat, f k)])
    (fun '(i, j, k) => [(rid n i j k, 0%nat, w i * w j * w k)]) (zeros (n * n * n) 3) (zeros (n * n * n) 1)
    (fun r d => match d with O => f (ix n r) | S O => f (iy n r) | _ => f (iz n r) end)
    (fun r _ => w (ix n r) * w (iy n r) * w (iz n r))).
  - intros [[i j] k] a b H. apply HS, in_cells in H as (Hi & Hj & Hk).
    rewrite (table_get _ _ _ _ i 0 TN), (table_get _ _ _ _ j 0 TN), (table_get _ _ _ _ k 0 TN) by lia.
    rewrite (table_get _ _ _ _ i 0 TW), (table_get _ _ _ _ j 0 TW), (table_get _ _ _ _ k 0 TW) by lia.
    unfold do_writes. cbn [obind for_each].
    destruct (aset a (rid n i j k) 0 (f i)) as [a1|]; [|reflexivity]. cbn [obind].
    destruct (aset a1 (rid n i j k) 1 (f j)) as [a2|]; [|reflexivity]. cbn [obind].
    destruct (aset a2 (rid n i j k) 2 (f k)) as [a3|]; [|reflexivity]. cbn [obind].
    destruct (aset b (rid n i j k) 0 (w i * w j * w k)); reflexivity.
  - intros [[i j] k] r c v H Hin. apply HS, in_cells in H as (Hi & Hj & Hk). cbn [zeros nrow ncol].
    pose proof (rid_lt n i j k Hi Hj Hk). destruct (rid_ix n i j k Hi Hj Hk) as (E1 & E2 & E3).
    destruct Hin as [E|[E|[E|[]]]]; injection E as <- <- <-; rewrite ?E1, ?E2, ?E3; (split; [assumption|]); (split; [lia|reflexivity]).
  - cbn [zeros nrow ncol]. intros r c Hr Hc. destruct (rid_onto n r Hr) as (i & j & k & (Hi & Hj & Hk) & <-).
    destruct c as [|[|[|c]]]; [| | |lia].
    + exists (i, j, k), (f i). split; [apply HS, in_cells; auto|left; reflexivity].
    + exists (i, j, k), (f j). split; [apply HS, in_cells; auto|right; left; reflexivity].
    + exists (i, j, k), (f k). split; [apply HS, in_cells; auto|right; right; left; reflexivity].
  - intros [[i j] k] r c v H [E|[]]. apply HS, in_cells in H as (Hi & Hj & Hk). injection E as <- <- <-.
    destruct (rid_ix n i j k Hi Hj Hk) as (-> & -> & ->). cbn [zeros nrow ncol].
    split; [apply rid_lt; assumption|]. split; [lia|reflexivity].
  - cbn [zeros nrow ncol]. intros r c Hr Hc. destruct (rid_onto n r Hr) as (i & j & k & (Hi & Hj & Hk) & <-).
    exists (i, j, k), (w i * w j * w k). split; [apply HS, in_cells; auto|]. left. f_equal. f_equal. lia.
Qed.

Lemma place_dofs_table sch n pos1 f :
  (forall l c, In c (sch l) <-> In c l) -> table pos1 n 1 (fun i _ => f i) ->
  exists a, place_dofs sch n pos1 (zeros (n * n * n) 3) = Some a /\
    table a (n * n * n) 3 (fun r d => match d with O => f (ix n r) | S O => f (iy n r) | _ => f (iz n r) end).
Proof.
  intros HS TN. unfold place_dofs.
  apply (loop_table (sch (cells n)) _
    (fun '(i, j, k) => [(rid n i j k, 0%nat, f i); (rid n i j k, 1%nat, f j); (rid n i j k, 2%nat, f k)])
    (zeros (n * n * n) 3) (fun r d => match d with O => f (ix n r) | S O => f (iy n r) | _ => f (iz n r) end)).
  - intros [[i j] k] a H. apply HS, in_cells in H as (Hi & Hj & Hk).
    rewrite (table_get _ _ _ _ i 0 TN), (table_get _ _ _ _ j 0 TN), (table_get _ _ _ _ k 0 TN) by lia.
    unfold do_writes. cbn [obind for_each].
    destruct (aset a (rid n i j k) 0 (f i)) as [a1|]; [|reflexivity]. cbn [obind].
    destruct (aset a1 (rid n i j k) 1 (f j)) as [a2|]; [|reflexivity]. cbn [obind].
    destruct (aset a2 (rid n i j k) 2 (f k)) as [a3|]; reflexivity.
  - intros [[i j] k] r c v H Hin. apply HS, in_cells in H as (Hi & Hj & Hk). cbn [zeros nrow ncol].
    pose proof (rid_lt n i j k Hi Hj Hk). destruct (rid_ix n i j k Hi Hj Hk) as (E1 & E2 & E3).
    destruct Hin as [E|[E|[E|[]]]]; injection E as <- <- <-; rewrite ?E1, ?E2, ?E3; (split; [assumption|]); (split; [lia|reflexivity]).
  - cbn [zeros nrow ncol]. intros r c Hr Hc. destruct (rid_onto n r Hr) as (i & j & k & (Hi & Hj & Hk) & <-).
    destruct c as [|[|[|c]]]; [| | |lia].
    + exists (i, j, k), (f i). split; [apply HS, in_cells; auto|left; reflexivity].
    + exists (i, j, k), (f j). split; [apply HS, in_cells; auto|right; left; reflexivity].
    + exists (i, j, k), (f k). split; [apply HS, in_cells; auto|right; right; left; reflexivity].
Qed.
