(** Properties C30 and C51: pressure equilibration of the materials in an element. *)
From Verif Require Import BaseReal SghModel TiptonModel TiptonSpec TiptonProofs.
From Coq Require Import Reals Lra.
Open Scope R_scope.

(** Whatever the state, every fraction that is visited ends in [0,1]. *)
Theorem C30_range : forall T E div vol nmats pts s, layout_ok nmats pts ->
  forall g i, In i (mats_at nmats pts g) ->
  0 <= m_vf (equilibrate T E div vol nmats pts s) (fst i) (snd i) <= 1.
Proof. exact tip_range. Qed.
Print Assumptions C30_range.

(** The visiting order of the source satisfies the layout hypothesis when each material lists an element once. *)
Theorem C30_source_layout : forall gpe elem_in num nmats,
  (forall mat, (mat < nmats)%nat -> NoDup (map (elem_in mat) (seq 0 (num mat)))) ->
  layout_ok nmats (fun mat => mat_points gpe (elem_in mat) (num mat)).
Proof. exact tip_layout. Qed.
Print Assumptions C30_source_layout.

(** At a gauss point shared by two or more materials, every fraction moves by one common limiter times Tipton's
    change, the limiter is the greatest allowed one, and the fractions' sum changes by the stated amount. *)
Theorem C30_update : forall T E div vol nmats pts s g,
  layout_ok nmats pts -> 0 < t_fuzz T -> 0 < t_c1 T + t_fuzz T ->
  let l := mats_at nmats pts g in
  let f := fun i => m_vf s (fst i) (snd i) in
  let f' := fun i => m_vf (equilibrate T E div vol nmats pts s) (fst i) (snd i) in
  let K := fun i => m_rho s (fst i) (snd i) * m_sspd s (fst i) (snd i) * m_sspd s (fst i) (snd i) in
  let p := fun i => m_pres s (fst i) (snd i) in
  let want := wanted_change (t_fuzz T) (t_c1 T) (div g) (t_alpha T) (t_dt T) f K p l in
  (2 <= length l)%nat -> (forall i, In i l -> 0 <= f i < 1 - t_fuzz T) -> (forall i, In i l -> 0 <= K i) -> total f l <= 1 ->
  exists lim, 0 <= lim /\ greatest (allowed (t_fuzz T) (Rmin 1 (Rmax 0 (t_c0 T))) f want l) lim /\
    (forall i, In i l -> f' i = f i + lim * want i) /\
    total f' l = total f l + lim * (t_fuzz T * mean_pressure (t_fuzz T) f K p l / (t_c1 T + t_fuzz T)
       + (1 - total f l - t_fuzz T / (total (compliance (t_fuzz T) f K) l + t_fuzz T)) * div g * t_alpha T * t_dt T).
Proof. exact tip_update. Qed.
Print Assumptions C30_update.

(** When the fractions sum to one, the sum changes only by terms proportional to the regularisation. *)
Theorem C30_sum : forall T E div vol nmats pts s g,
  layout_ok nmats pts -> 0 < t_fuzz T -> 0 < t_c1 T + t_fuzz T ->
  let l := mats_at nmats pts g in
  let f := fun i => m_vf s (fst i) (snd i) in
  let f' := fun i => m_vf (equilibrate T E div vol nmats pts s) (fst i) (snd i) in
  let K := fun i => m_rho s (fst i) (snd i) * m_sspd s (fst i) (snd i) * m_sspd s (fst i) (snd i) in
  let p := fun i => m_pres s (fst i) (snd i) in
  (forall i, In i l -> 0 <= f i < 1 - t_fuzz T) -> (forall i, In i l -> 0 <= K i) -> total f l = 1 ->
  exists lim, 0 <= lim <= 1 /\
    total f' l = 1 + t_fuzz T * lim * (mean_pressure (t_fuzz T) f K p l / (t_c1 T + t_fuzz T)
       - div g * t_alpha T * t_dt T / (total (compliance (t_fuzz T) f K) l + t_fuzz T)).
Proof. exact tip_sum. Qed.
Print Assumptions C30_sum.

(** The sum is not preserved when it differs from one: two quarter fractions become more than seven tenths in one call. *)
Theorem C30_sum_refuted :
  let T := mkT 1 1 1e-16 1 1 in
  let s := mkM (fun _ _ => 1/4) (fun _ _ => 0) (fun _ _ => 1) (fun _ _ => 0) (fun _ _ => 1) (fun _ _ => 0) (fun _ _ => 1) (fun _ _ => 1) in
  let pts := fun _ : nat => [(0, 0)]%nat in
  layout_ok 2 pts /\
  total (fun i => m_vf s (fst i) (snd i)) (mats_at 2 pts 0) = 1/2 /\
  forall E vol,
  total (fun i => m_vf (equilibrate T E (fun _ => 1) vol 2 pts s) (fst i) (snd i)) (mats_at 2 pts 0) >= 7/10.
Proof. exact tip_sum_refuted. Qed.
Print Assumptions C30_sum_refuted.

(** A pure material is left alone. *)
Theorem C30_pure : forall T E div vol nmats pts s, layout_ok nmats pts ->
  forall g i, In i (mats_at nmats pts g) -> 1 - t_fuzz T <= m_vf s (fst i) (snd i) <= 1 -> 0 <= m_vf s (fst i) (snd i) ->
  let s' := equilibrate T E div vol nmats pts s in
  m_vf s' (fst i) (snd i) = m_vf s (fst i) (snd i) /\ m_sie s' (fst i) (snd i) = m_sie s (fst i) (snd i).
Proof. exact tip_pure. Qed.
Print Assumptions C30_pure.

(** Without volume change, a fraction never shrinks when its material's pressure is above the mean pressure and never
    grows when it is below. *)
Theorem C30_direction : forall T E div vol nmats pts s g,
  layout_ok nmats pts -> 0 < t_fuzz T -> 0 < t_c1 T + t_fuzz T -> div g = 0 ->
  let l := mats_at nmats pts g in
  let f := fun i => m_vf s (fst i) (snd i) in
  let f' := fun i => m_vf (equilibrate T E div vol nmats pts s) (fst i) (snd i) in
  let K := fun i => m_rho s (fst i) (snd i) * m_sspd s (fst i) (snd i) * m_sspd s (fst i) (snd i) in
  let p := fun i => m_pres s (fst i) (snd i) in
  (2 <= length l)%nat -> (forall i, In i l -> 0 <= f i < 1 - t_fuzz T) -> (forall i, In i l -> 0 <= K i) -> total f l <= 1 ->
  forall i, In i l ->
    (mean_pressure (t_fuzz T) f K p l <= p i -> f i <= f' i) /\
    (p i <= mean_pressure (t_fuzz T) f K p l -> f' i <= f i).
Proof. exact tip_direction. Qed.
Print Assumptions C30_direction.

(** The new fractions do not depend on the order in which a material's points are visited. *)
Theorem C30_order_independent : forall T E E' div vol nmats pts pts' s g,
  layout_ok nmats pts -> 0 < t_fuzz T -> 0 < t_c1 T + t_fuzz T ->
  (forall mat, Permutation.Permutation (pts mat) (pts' mat)) ->
  let l := mats_at nmats pts g in
  (2 <= length l)%nat -> (forall i, In i l -> 0 <= m_vf s (fst i) (snd i) < 1 - t_fuzz T) ->
  (forall i, In i l -> 0 <= m_rho s (fst i) (snd i) * m_sspd s (fst i) (snd i) * m_sspd s (fst i) (snd i)) ->
  total (fun i => m_vf s (fst i) (snd i)) l <= 1 ->
  forall i, In i l ->
    m_vf (equilibrate T E div vol nmats pts s) (fst i) (snd i) = m_vf (equilibrate T E' div vol nmats pts' s) (fst i) (snd i).
Proof. exact tip_order. Qed.
Print Assumptions C30_order_independent.

(** Densities are consistent with the (unchanged) masses and the new fractions. *)
Theorem C51_mass : forall T E div vol nmats pts s, layout_ok nmats pts -> 0 < t_fuzz T ->
  let s' := equilibrate T E div vol nmats pts s in
  m_mass s' = m_mass s /\ m_vfin s' = m_vfin s /\
  forall g i, In i (mats_at nmats pts g) ->
    let v := vol g * m_vf s' (fst i) (snd i) * m_vfin s' (fst i) (snd i) in
    0 <= v -> m_rho s' (fst i) (snd i) * (v + 1e-20) = m_mass s (fst i) (snd i).
Proof. exact tip_mass. Qed.
Print Assumptions C51_mass.

(** The energy given to the materials of a gauss point is the work of the mean pressure on the total volume change. *)
Theorem C51_energy : forall T E div vol nmats pts s g, layout_ok nmats pts -> 0 < t_fuzz T ->
  let s' := equilibrate T E div vol nmats pts s in
  let l := mats_at nmats pts g in
  let f := fun i => m_vf s (fst i) (snd i) in
  let K := fun i => m_rho s (fst i) (snd i) * m_sspd s (fst i) (snd i) * m_sspd s (fst i) (snd i) in
  let p := fun i => m_pres s (fst i) (snd i) in
  (forall i, In i l -> 0 <= f i < 1 - t_fuzz T) -> (forall i, In i l -> 0 <= m_mass s (fst i) (snd i)) ->
  total (fun i => (m_mass s (fst i) (snd i) + 1e-20) * (m_sie s' (fst i) (snd i) - m_sie s (fst i) (snd i))) l =
  - mean_pressure (t_fuzz T) f K p l *
    (vol g * total (fun i => (m_vf s' (fst i) (snd i) - m_vf s (fst i) (snd i)) * m_vfin s (fst i) (snd i)) l).
Proof. exact tip_energy. Qed.
Print Assumptions C51_energy.

(** Materials at points that are not visited keep volume fraction, density and energy. *)
Theorem C51_frame : forall T E div vol nmats pts s, layout_ok nmats pts ->
  let s' := equilibrate T E div vol nmats pts s in
  forall i, (forall g, ~ In i (mats_at nmats pts g)) ->
  m_vf s' (fst i) (snd i) = m_vf s (fst i) (snd i) /\ m_sie s' (fst i) (snd i) = m_sie s (fst i) (snd i) /\
  m_rho s' (fst i) (snd i) = m_rho s (fst i) (snd i).
Proof. exact tip_frame. Qed.
Print Assumptions C51_frame.

(** The hypotheses are met by two gases at different pressures sharing gauss point 0. *)
Example C30_nonvacuous :
  let s := mkM (fun m _ => match m with O => 1/4 | _ => 3/4 end) (fun _ _ => 0) (fun _ _ => 1)
               (fun m _ => match m with O => 2 | _ => 1 end) (fun _ _ => 1) (fun _ _ => 1) (fun _ _ => 1) (fun _ _ => 1) in
  let pts := fun _ : nat => [(0, 0)]%nat in
  layout_ok 2 pts /\ (length (mats_at 2 pts 0) = 2)%nat /\
  (forall i, In i (mats_at 2 pts 0) -> 0 <= m_vf s (fst i) (snd i) < 1 - 1e-16) /\
  total (fun i => m_vf s (fst i) (snd i)) (mats_at 2 pts 0) = 1.
Proof. exact tip_nonvacuous. Qed.
Print Assumptions C30_nonvacuous.
