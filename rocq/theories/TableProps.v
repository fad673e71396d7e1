(** Property theorems C27, C47 and C48. *)
From Verif Require Import BaseReal BaseArr StrModel StrSpec StrProofs TableModel TableSpec TableProofs.
Local Open Scope R_scope.

(** C27. A table with the columns X and Y: every read is inside the table and the value is that of the curve. *)
Theorem C27_value : forall T dep ind X Y x, (1 <= nrow T)%nat -> column T ind X -> column T dep Y ->
  exists v, linear_interpolation T x dep ind = Some v /\ curve (nrow T) X Y x v.
Proof. exact interp_curve. Qed.
Print Assumptions C27_value.

Theorem C27_unique : forall n X Y x v w, ascending n X -> curve n X Y x v -> curve n X Y x w -> v = w.
Proof. exact curve_det. Qed.
Print Assumptions C27_unique.

Theorem C27_at_points : forall n X Y i v, strictly_ascending n X -> (i < n)%nat -> curve n X Y (X i) v -> v = Y i.
Proof. exact curve_at_point. Qed.
Print Assumptions C27_at_points.

(** repeated abscissae: inside the table the first of the rows with this abscissa *)
Theorem C27_at_jumps : forall n X Y i v, ascending n X -> (0 < i)%nat -> (i < n)%nat -> X (i - 1)%nat < X i -> X i < X (n - 1)%nat ->
  curve n X Y (X i) v -> v = Y i.
Proof. exact curve_at_jump. Qed.
Print Assumptions C27_at_jumps.

Theorem C27_between_neighbours : forall n X Y x v i, ascending n X -> (S i < n)%nat -> X i <= x <= X (S i) ->
  X 0%nat < x -> x < X (n - 1)%nat -> X i < x -> curve n X Y x v ->
  v = Y i + (x - X i) / (X (S i) - X i) * (Y (S i) - Y i) /\ Rmin (Y i) (Y (S i)) <= v <= Rmax (Y i) (Y (S i)).
Proof. exact curve_neighbours. Qed.
Print Assumptions C27_between_neighbours.

Theorem C27_range : forall n X Y x v lo hi, (1 <= n)%nat -> (forall i, (i < n)%nat -> lo <= Y i <= hi) -> curve n X Y x v -> lo <= v <= hi.
Proof. exact curve_between. Qed.
Print Assumptions C27_range.

Theorem C27_monotone : forall n X Y x x' v v', (1 <= n)%nat -> ascending n X -> ascending n Y -> x <= x' ->
  curve n X Y x v -> curve n X Y x' v' -> v <= v'.
Proof. exact curve_mono. Qed.
Print Assumptions C27_monotone.

(** no jumps when the slopes are bounded *)
Theorem C27_continuous : forall n X Y x x' v v' K, (1 <= n)%nat -> ascending n X -> 0 <= K ->
  (forall i, (S i < n)%nat -> Rabs (Y (S i) - Y i) <= K * (X (S i) - X i)) ->
  curve n X Y x v -> curve n X Y x' v' -> Rabs (v - v') <= K * Rabs (x - x').
Proof. exact curve_lipschitz. Qed.
Print Assumptions C27_continuous.

Theorem C27_straight_lines : forall n X Y x v a b, (1 <= n)%nat -> ascending n X -> (forall i, (i < n)%nat -> Y i = a + b * X i) -> curve n X Y x v ->
  v = a + b * clamp (X 0%nat) (X (n - 1)%nat) x.
Proof. exact curve_linear. Qed.
Print Assumptions C27_straight_lines.

(** a column that is not in the table is never read without being noticed *)
Theorem C27_bad_column : forall T x dep ind, (1 <= nrow T)%nat -> (ncol T <= dep \/ ncol T <= ind)%nat ->
  (forall i c, (i < nrow T)%nat -> (c < ncol T)%nat -> exists v, aget T i c = Some v) -> linear_interpolation T x dep ind = None.
Proof. exact interp_bad_column. Qed.
Print Assumptions C27_bad_column.

Theorem C27_empty : forall T x dep ind, nrow T = 0%nat -> linear_interpolation T x dep ind = Some 0.
Proof. exact interp_empty. Qed.
Print Assumptions C27_empty.

Example C27_ex : strictly_ascending 3 (fun i => INR i) /\ curve 3 (fun i => INR i) (fun i => INR i * INR i) 1.5 2.5.
Proof.
  split; [intros i Hi; rewrite S_INR; lra|].
  replace 2.5 with (INR 1 * INR 1 + (1.5 - INR 1) / (INR 2 - INR 1) * (INR 2 * INR 2 - INR 1 * INR 1)) by (cbn; lra).
  apply (inside 3 (fun i => INR i) (fun i => INR i * INR i) 1.5 1); cbn; try lra; lia.
Qed.

(** C48 *)
Theorem C48_tool_path : forall pts, pts <> [] -> exists T, tool_path pts = Some T /\
  forall t, exists x y z q, get_position T t = Some (x, y, z) /\ get_power T t = Some q /\
    curve (length pts) (fun i => tp_time (nth i pts (mkTool 0 0 0 0 0))) (fun i => tp_x (nth i pts (mkTool 0 0 0 0 0))) t x /\
    curve (length pts) (fun i => tp_time (nth i pts (mkTool 0 0 0 0 0))) (fun i => tp_y (nth i pts (mkTool 0 0 0 0 0))) t y /\
    curve (length pts) (fun i => tp_time (nth i pts (mkTool 0 0 0 0 0))) (fun i => tp_z (nth i pts (mkTool 0 0 0 0 0))) t z /\
    curve (length pts) (fun i => tp_time (nth i pts (mkTool 0 0 0 0 0))) (fun i => tp_power (nth i pts (mkTool 0 0 0 0 0))) t q.
Proof. exact tool_curve. Qed.
Print Assumptions C48_tool_path.

Example C48_ex : forall T, tool_path [mkTool 0 1 2 3 4; mkTool 1 5 6 7 8] = Some T -> nrow T = 2%nat /\ aget T 1 3 = Some 7.
Proof.
  intros T E. destruct (tool_path_spec [mkTool 0 1 2 3 4; mkTool 1 5 6 7 8]) as (T' & E' & N & _ & H). rewrite E in E'. injection E' as <-.
  split; [exact N|]. exact (H 1%nat 3%nat _ eq_refl ltac:(lia)).
Qed.

(** C47. The table of a property is read from its block of the file, wherever the block is and whatever blank and
    comment lines are in it. *)
Theorem C47_read_file : forall stod name pre kl ls rows post,
  Forall (fun l => ~ opens (keyword_of name) l) pre -> opens (keyword_of name) kl -> block stod ls rows ->
  (post = [] \/ exists l rest, post = l :: rest /\ other_keyword (keyword_of name) l) ->
  read_tabular_jmatpro_file stod (pre ++ kl :: ls ++ post) name = fill_table rows.
Proof. exact read_file. Qed.
Print Assumptions C47_read_file.

Theorem C47_value_temperature : forall stod name pre kl ls (pts : list (R * R)) post,
  Forall (fun l => ~ opens (keyword_of name) l) pre -> opens (keyword_of name) kl ->
  block stod ls (map (fun p => [fst p; snd p]) pts) -> (post = [] \/ exists l rest, post = l :: rest /\ other_keyword (keyword_of name) l) ->
  pts <> [] -> ascending (length pts) (fun i => snd (nth i pts (0, 0))) ->
  exists T, read_tabular_jmatpro_file stod (pre ++ kl :: ls ++ post) name = Some T /\ nrow T = length pts /\
    column T 0 (fun i => snd (nth i pts (0, 0))) /\ column T 1 (fun i => fst (nth i pts (0, 0))).
Proof. exact two_columns. Qed.
Print Assumptions C47_value_temperature.

(** a table is only accepted when its rows have one length and its temperatures ascend *)
Theorem C47_accepted : forall rows T, fill_table rows = Some T -> exists nc, (1 <= nc)%nat /\ rows <> [] /\ (forall r, In r rows -> length r = nc) /\
  nrow T = length rows /\ ncol T = nc /\
  (forall j, (j < nc)%nat -> column T j (fun i => nth (nc - j - 1) (nth i rows []) 0)) /\
  ascending (length rows) (fun i => nth (nc - 1) (nth i rows []) 0).
Proof. exact fill_table_spec. Qed.
Print Assumptions C47_accepted.

(** one material with tables gets its own values *)
Theorem C47_own_table_partial : forall stod ti M' f t, parse_tables stod [ti] no_materials = Some M' -> In f (ti_fields ti) ->
  exists T, read_tabular_jmatpro_file stod (ti_file ti) (field_name f) = Some T /\
    tabular_property M' (ti_mat ti) f t = linear_interpolation T t 1 0.
Proof. exact own_table. Qed.
Print Assumptions C47_own_table_partial.

(** with several materials all of them use the table read last *)
Theorem C47_shared_table_refuted : exists stod l M' T,
  parse_tables stod l no_materials = Some M' /\ In (mkTab 0 file1 [Density]) l /\
  read_tabular_jmatpro_file stod file1 (field_name Density) = Some T /\ linear_interpolation T 1 1 0 = Some 1 /\
  tabular_property M' 0 Density 1 = Some 2.
Proof.
  exact (match shared_table with ex_intro _ M' (conj A (conj (ex_intro _ T (conj B C)) D)) =>
    ex_intro _ digit (ex_intro _ _ (ex_intro _ M' (ex_intro _ T (conj A (conj (or_introl eq_refl) (conj B (conj C D))))))) end).
Qed.
Print Assumptions C47_shared_table_refuted.

Theorem C47_last_table_wins : forall stod l M M' f, parse_tables stod l M = Some M' ->
  the_table M' f = fold_left (fun t ti => if existsb (field_eqb f) (ti_fields ti) then read_tabular_jmatpro_file stod (ti_file ti) (field_name f) else t) l (the_table M f) /\
  (forall k, has_function M' k f = existsb (fun ti => Nat.eqb k (ti_mat ti) && existsb (field_eqb f) (ti_fields ti)) l || has_function M k f).
Proof. exact parse_tables_last. Qed.
Print Assumptions C47_last_table_wins.

(** a material whose input does not name the field calls a null pointer *)
Theorem C47_missing_field : forall stod l M' k f t, parse_tables stod l no_materials = Some M' ->
  (forall ti, In ti l -> ti_mat ti = k -> ~ In f (ti_fields ti)) -> tabular_property M' k f t = None.
Proof. exact missing_field. Qed.
Print Assumptions C47_missing_field.

Example C47_ex : exists T, read_tabular_jmatpro_file digit file1 (field_name Density) = Some T /\ nrow T = 2%nat.
Proof. destruct file1_table as (T & E & N & _). eauto. Qed.
