(** Properties C38 (required initial state, allocation) and C39 (storage indices). *)
From Verif Require Import StateModel StateSpec StateProofs.

(** The hydrodynamics solver accepts a parsed input exactly when some region gives velocity, density and one of the
    two energies, whatever the order and repetition of the fields. *)
Theorem C38_sgh_accepts : forall regions fills, fill_states regions = Some fills ->
  (accepts sgh_req fills = true <->
   node_given regions FNVelocity /\ gauss_given regions FDensity /\ (gauss_given regions FSie \/ gauss_given regions FIe)).
Proof. exact sgh_accepts. Qed.
Print Assumptions C38_sgh_accepts.

Theorem C38_sgtm_accepts : forall regions fills, fill_states regions = Some fills ->
  (accepts sgtm_req fills = true <->
   node_given regions FNVelocity /\ node_given regions FNTemperature /\ gauss_given regions FDensity /\
   (gauss_given regions FSie \/ gauss_given regions FIe) /\ gauss_given regions FConductivity /\ gauss_given regions FSpecificHeat).
Proof. exact sgtm_accepts. Qed.
Print Assumptions C38_sgtm_accepts.

Theorem C38_order_and_repetition : forall rq regions regions' fills fills',
  fill_states regions = Some fills -> fill_states regions' = Some fills' ->
  (forall w, In w (concat regions) <-> In w (concat regions')) ->
  accepts rq fills = accepts rq fills'.
Proof. exact accepts_same_words. Qed.
Print Assumptions C38_order_and_repetition.

(** Parsing fails exactly when the first region sets no gauss-point field. *)
Theorem C38_parse_fails : forall regions,
  fill_states regions = None <-> exists r rs, regions = r :: rs /\ forall f, ~ In (WGauss f) r.
Proof. exact fill_states_fails. Qed.
Print Assumptions C38_parse_fails.

(** The check does not look at single regions: an input is accepted although one of its regions gives no density. *)
Theorem C38_every_region_refuted : exists regions fills r,
  fill_states regions = Some fills /\ accepts sgh_req fills = true /\ In r regions /\ ~ In (WGauss FDensity) r.
Proof.
  exists [[WNode FNVelocity; WGauss FDensity; WGauss FSie]; [WNode FNVelocity; WGauss FSie]].
  exists ([FNVelocity], [FDensity; FSie]), [WNode FNVelocity; WGauss FSie].
  split; [reflexivity|]. split; [reflexivity|]. split; [right; left; reflexivity|]. intros [H|[H|[]]]; discriminate.
Qed.
Print Assumptions C38_every_region_refuted.

(** Fed with repeated fields directly, the check accepts a missing field and rejects a complete list. *)
Theorem C38_raw_check_refuted :
  check_fill fill_gauss_eqb [FDensity; FSie] [FDensity; FDensity] = true /\
  check_fill fill_gauss_eqb [FDensity; FSie] [FDensity; FSie; FSie] = false.
Proof. split; reflexivity. Qed.
Print Assumptions C38_raw_check_refuted.

(** Every requested nodal field is allocated with its size, arrays that already exist keep their size, and no other
    array is touched; in particular a second solver does not reallocate the first one's data. *)
Theorem C38_node_allocation : forall nodes dims fields st,
  let st' := initialize node_array_eqb (node_cases nodes dims) fields st in
  (forall f a n, In f fields -> In (a, n) (node_arrays nodes dims f) -> st' a = if Nat.eqb (st a) 0 then n else st a) /\
  (forall a, (forall f, In f fields -> ~ In a (map fst (node_arrays nodes dims f))) -> st' a = st a).
Proof. exact node_allocated. Qed.
Print Assumptions C38_node_allocation.

Theorem C38_gauss_allocation : forall pts dims fields st,
  let st' := initialize gp_array_eqb (gp_cases pts dims) fields st in
  (forall f a n, In f fields -> In (a, n) (gp_arrays pts dims f) -> st' a = if Nat.eqb (st a) 0 then n else st a) /\
  (forall a, (forall f, In f fields -> ~ In a (map fst (gp_arrays pts dims f))) -> st' a = st a).
Proof. exact gauss_allocated. Qed.
Print Assumptions C38_gauss_allocation.

Theorem C38_corner_allocation : forall corners dims fields st,
  let st' := initialize cn_array_eqb (cn_cases corners dims) fields st in
  (forall f a n, In f fields -> In (a, n) (cn_arrays corners dims f) -> st' a = if Nat.eqb (st a) 0 then n else st a) /\
  (forall a, (forall f, In f fields -> ~ In a (map fst (cn_arrays corners dims f))) -> st' a = st a).
Proof. exact corner_allocated. Qed.
Print Assumptions C38_corner_allocation.

Theorem C38_material_allocation : forall pts dims fields st,
  let st' := mp_initialize pts dims fields st in
  (forall f a n, In f fields -> In (a, n) (mp_arrays pts dims f) -> st' a = if Nat.eqb (st a) 0 then n else st a) /\
  st' MTempGrad = (if Nat.eqb (st MTempGrad) 0 then pts * 3 else st MTempGrad) /\
  (forall a, a <> MTempGrad -> (forall f, In f fields -> ~ In a (map fst (mp_arrays pts dims f))) -> st' a = st a).
Proof. exact mat_allocated. Qed.
Print Assumptions C38_material_allocation.

Theorem C38_fill_allocation_partial : forall gauss mats dims fields st, ~ In FIe fields ->
  let st' := initialize fg_array_eqb (fg_cases gauss mats dims) fields st in
  (forall f a n, In f fields -> In (a, n) (fill_arrays gauss mats dims f) -> st' a = if Nat.eqb (st a) 0 then n else st a).
Proof. exact fill_allocated. Qed.
Print Assumptions C38_fill_allocation_partial.

(** When specific energy is requested before extensive energy, the extensive energy array is never allocated. *)
Theorem C38_internal_energy_refuted : forall gauss mats dims before after, 0 < gauss * mats -> ~ In FIe before ->
  initialize fg_array_eqb (fg_cases gauss mats dims) (before ++ FSie :: after) (fun _ => 0) Ie = 0.
Proof. exact ie_never_allocated. Qed.
Print Assumptions C38_internal_energy_refuted.

(** When it is requested first, it is allocated. *)
Theorem C38_internal_energy_first : forall gauss mats dims before after, 0 < gauss * mats -> ~ In FIe before -> ~ In FSie before ->
  initialize fg_array_eqb (fg_cases gauss mats dims) (before ++ FIe :: after) (fun _ => 0) Ie = gauss * mats.
Proof. exact ie_allocated. Qed.
Print Assumptions C38_internal_energy_first.

(** Corner, zone, gauss, lobatto and material-point indices of a material: distinct, in range, and without gaps. *)
Theorem C39_distinct : forall n s l s' l', l < n -> l' < n -> index_in_mat n s l = index_in_mat n s' l' -> s = s' /\ l = l'.
Proof. exact index_injective. Qed.
Print Assumptions C39_distinct.

Theorem C39_in_range : forall n num s l, s < num -> l < n -> index_in_mat n s l < num_storage num n.
Proof. exact index_range. Qed.
Print Assumptions C39_in_range.

Theorem C39_no_gaps : forall n num i, i < num_storage num n -> exists s l, s < num /\ l < n /\ index_in_mat n s l = i.
Proof. exact index_onto. Qed.
Print Assumptions C39_no_gaps.

(** The gauss index used by the region fills is collision free exactly for one gauss point per element (or one element). *)
Theorem C39_fill_gauss_partial : forall n ne, 0 < ne ->
  ((forall e l e' l', e < ne -> e' < ne -> l < n -> l' < n -> fill_gauss_gid e l = fill_gauss_gid e' l' -> e = e' /\ l = l')
   <-> n <= 1 \/ ne = 1).
Proof. exact fill_gauss_injective_iff. Qed.
Print Assumptions C39_fill_gauss_partial.

Theorem C39_fill_gauss_refuted : fill_gauss_gid 0 1 = fill_gauss_gid 1 0.
Proof. reflexivity. Qed.
Print Assumptions C39_fill_gauss_refuted.

Example C38_nonvacuous : fill_states [[WNode FNVelocity; WGauss FDensity; WGauss FSie]; [WGauss FIe; WGauss FDensity]]
  = Some ([FNVelocity], [FDensity; FSie; FIe]).
Proof. reflexivity. Qed.
Print Assumptions C38_nonvacuous.
