(* C96-C101: the input readers. *)
From Coq Require Import List Ascii String Arith Bool ZArith Lia Permutation.
From Verif Require Import YamlModel YamlSpec YamlProofs YamlLaws YamlExamples InputModel InputSpec InputProofs InputReaders InputOut InputIds InputBc InputBcs.
Import ListNotations.
Local Open Scope nat_scope.

(* In the examples a floating point number is its text. *)
Definition as_text (t : str) : str := t.
Definition some_text (t : str) : option str := Some t.
Definition count_text (t : str) : option Z := Some (to_int t).
Definition minus (t : str) : bool := match t with c :: _ => Ascii.eqb c "-" | [] => false end.

Definition tree (ls : list string) : node := match parse (text ls) with Ok n => n | Err _ => NNone end.
Lemma tree_regular ls : regular (tree ls).
Proof. unfold tree. destruct (parse (text ls)) eqn:E; [eapply parse_regular; exact E|constructor]. Qed.

(* ---------- C96: dynamic options ---------- *)

Theorem C96_dynamic : forall D (dbl : str -> D) root o o', regular root -> parse_dynamic_options dbl root o = Done o' ->
  let sec := get_key root (lit "dynamic_options") in
  is_map sec = true /\ only_keys sec dyn_keys /\ gives sec (lit "time_final") /\ gives sec (lit "cycle_stop") /\
  (forall k, gives sec k -> ~ blank_text (text_at sec k)) /\ dyn_says dbl sec o o'.
Proof. intros D dbl root o o'. apply dyn_done. Qed.
Print Assumptions C96_dynamic.

Theorem C96_accepts : forall D (dbl : str -> D) root o, let sec := get_key root (lit "dynamic_options") in
  is_map sec = true -> only_keys sec dyn_keys -> gives sec (lit "time_final") -> gives sec (lit "cycle_stop") ->
  (forall k, gives sec k -> ~ blank_text (text_at sec k)) -> exists o', parse_dynamic_options dbl root o = Done o'.
Proof. intros D dbl root o. apply dyn_accepts. Qed.
Print Assumptions C96_accepts.

(* A required key that is missing, and a key that is not known, end in an
   exception. *)
Theorem C96_rejects : forall D (dbl : str -> D) root o, let sec := get_key root (lit "dynamic_options") in
  is_map sec = true ->
  (~ gives sec (lit "time_final") \/ ~ gives sec (lit "cycle_stop") -> parse_dynamic_options dbl root o = Throws MissingRequired) /\
  (gives sec (lit "time_final") -> gives sec (lit "cycle_stop") -> (forall k, gives sec k -> ~ blank_text (text_at sec k)) ->
   (exists k, gives sec k /\ ~ In k (map lit dyn_keys)) -> parse_dynamic_options dbl root o = Throws UnknownKey).
Proof.
  intros D dbl root o sec M. split.
  - intros [N|N]; [apply (dyn_missing dbl root o (lit "time_final")); [exact M|left; reflexivity|exact N]|apply (dyn_missing dbl root o (lit "cycle_stop")); [exact M|right; left; reflexivity|exact N]].
  - apply dyn_unknown. exact M.
Qed.
Print Assumptions C96_rejects.

(* The integers of the input: blanks, a sign, digits, and whatever follows. *)
Theorem C96_integers : forall b sign ds rest, Forall blank_char b -> In sign [[]; lit "+"; lit "-"] -> ds <> [] -> is_digits ds -> no_digit_next rest ->
  let v := (if list_eq_dec ascii_dec sign (lit "-") then - decimal ds else decimal ds)%Z in
  to_int (b ++ sign ++ ds ++ rest) = Z.max (-2147483648) (Z.min 2147483647 v) /\
  (- 2 ^ 64 < v < 2 ^ 64 -> to_size (b ++ sign ++ ds ++ rest) = v mod 2 ^ 64)%Z /\
  ~ blank_text (b ++ sign ++ ds ++ rest).
Proof. exact integers. Qed.
Print Assumptions C96_integers.

(* The whole way from the file. *)
Theorem C96_from_file : forall D (dbl : str -> D) t root o o', parse t = Ok root -> parse_dynamic_options dbl root o = Done o' ->
  dyn_says dbl (get_key root (lit "dynamic_options")) o o'.
Proof. intros D dbl t root o o' P H. apply (C96_dynamic D dbl root o o' (parse_regular _ _ P) H). Qed.
Print Assumptions C96_from_file.

(* A file without the section, or with a text in its place, is never refused:
   the reader runs for ever. *)
Theorem C96_missing_refuted : forall D (dbl : str -> D) root o, ~ container (get_key root (lit "dynamic_options")) ->
  parse_dynamic_options dbl root o = Hangs /\
  forall turns, words_loop turns (it_begin (get_key root (lit "dynamic_options"))) (it_end (get_key root (lit "dynamic_options"))) [] = None.
Proof.
  intros D dbl root o N. split; [|exact (proj2 (words_runs _) N)].
  unfold parse_dynamic_options, read_section, validate_inputs. rewrite words_hang by exact N. reflexivity.
Qed.
Print Assumptions C96_missing_refuted.

(* A value left out, or given as a list, is not refused: the option is whatever
   was in memory. *)
Theorem C96_blank_refuted : forall o,
  parse_dynamic_options as_text (tree ["dynamic_options:"; "  time_final: 1.0"; "  dt_max:"; "  cycle_stop: 10"]%string) o = Unset /\
  parse_dynamic_options as_text (tree ["dynamic_options:"; "  time_final: 1.0"; "  dt_max:"; "    - 0.1"; "  cycle_stop: 10"]%string) o = Unset.
Proof. intros []. split; vm_compute; reflexivity. Qed.
Print Assumptions C96_blank_refuted.

(* A number of cycles in exponent form is cut at the exponent, a negative one
   becomes huge. *)
Theorem C96_cycles_refuted : forall o, exists o1 o2,
  parse_dynamic_options as_text (tree ["dynamic_options:"; "  time_final: 1.0"; "  cycle_stop: 2e6"]%string) o = Done o1 /\ cycle_stop o1 = 2%Z /\
  parse_dynamic_options as_text (tree ["dynamic_options:"; "  time_final: 1.0"; "  cycle_stop: -1"]%string) o = Done o2 /\ cycle_stop o2 = 18446744073709551615%Z.
Proof. intros []. do 2 eexists. split; [vm_compute; reflexivity|]. split; [reflexivity|]. split; vm_compute; reflexivity. Qed.
Print Assumptions C96_cycles_refuted.

Definition dyn0 : @dyn str := mkDyn 2000000 (lit "0") (lit "1") (lit "1e-8") (lit "1e-2") (lit "1e-5") (lit "0.4") (lit "1e-16") (lit "1e-12") (lit "1e-8") 2.
Definition dyn_tree : node := tree ["dynamic_options:"; "  time_final: 20.0"; "  dt_min: 1.e-8"; "  dt_start: 1.e-5"; "  cycle_stop: 100"]%string.
Example C96_met : regular dyn_tree /\
  parse_dynamic_options as_text dyn_tree dyn0 = Done (mkDyn 100 (lit "0") (lit "20.0") (lit "1.e-8") (lit "1e-2") (lit "1.e-5") (lit "0.4") (lit "1e-16") (lit "1e-12") (lit "1e-8") 2) /\
  parse_dynamic_options as_text (tree ["dynamic_options:"; "  time_final: 20.0"]%string) dyn0 = Throws MissingRequired /\
  parse_dynamic_options as_text (tree ["dynamic_options:"; "  time_final: 20.0"; "  cycle_stop: 100"; "  dt_stop: 1"]%string) dyn0 = Throws UnknownKey.
Proof. split; [apply tree_regular|]. split; [vm_compute; reflexivity|]. split; vm_compute; reflexivity. Qed.

(* ---------- C97: the list of solvers ---------- *)

Theorem C97_solvers : forall D (dbl : str -> D) neg zero root l, regular root -> parse_solver_input dbl neg zero root = Done l ->
  let sec := entry root "solver_options" "solver" in
  List.length l = node_size (get_key root (lit "solver_options")) /\ numbered_once sec (List.length l) /\
  forall i, i < List.length l -> solver_good dbl neg (sec i) /\
    exists s, nth_error l (Z.to_nat (id_of (sec i))) = Some s /\ solver_says dbl zero (sec i) s.
Proof. intros D dbl neg zero root l. apply solvers_done. Qed.
Print Assumptions C97_solvers.

Theorem C97_accepts : forall D (dbl : str -> D) neg zero root, regular root ->
  let n := node_size (get_key root (lit "solver_options")) in let sec := entry root "solver_options" "solver" in
  (forall i, i < n -> solver_good dbl neg (sec i)) -> numbered_once sec n -> exists l, parse_solver_input dbl neg zero root = Done l.
Proof. intros D dbl neg zero root. apply solvers_accepts. Qed.
Print Assumptions C97_accepts.

(* Without the dashes of the list the reader runs for ever. *)
Theorem C97_no_list_refuted : forall D (dbl : str -> D) neg zero root m, get_key root (lit "solver_options") = NMap m -> m <> [] ->
  parse_solver_input dbl neg zero root = Hangs.
Proof. intros D dbl neg zero root m E N. unfold parse_solver_input. rewrite E. destruct m; [contradiction|]. reflexivity. Qed.
Print Assumptions C97_no_list_refuted.

(* An identifier that is not a number counts as 0. *)
Theorem C97_text_id_refuted :
  parse_solver_input as_text minus (lit "0") (tree ["solver_options:"; "  - solver:"; "      method: dynx_FE"; "      id: first"; "      time_end: 2.0"]%string)
    = Done [mkSolver SGH3D (lit "2.0") false].
Proof. vm_compute. reflexivity. Qed.
Print Assumptions C97_text_id_refuted.

Definition solver_tree : node := tree ["solver_options:"; "  - solver:"; "      method: thrmex_FE"; "      id: 1"; "      use_moving_heat_source: true";
  "  - solver:"; "      method: dynx_FE"; "      id: 0"; "      time_end: 2.0"]%string.
Example C97_met : regular solver_tree /\
  parse_solver_input as_text minus (lit "0") solver_tree = Done [mkSolver SGH3D (lit "2.0") false; mkSolver SGTM3D (lit "0") true] /\
  parse_solver_input as_text minus (lit "0") (tree ["solver_options:"; "  - solver:"; "      method: thrmex_FE"; "      id: 1"]%string) = Throws BadId /\
  parse_solver_input as_text minus (lit "0") (tree ["solver_options:"; "  - solver:"; "      method: thrmex_FE"; "      id: 0"; "  - solver:"; "      method: dynx_FE"; "      id: 0"]%string) = Throws DuplicateId.
Proof. split; [apply tree_regular|]. split; [vm_compute; reflexivity|]. split; vm_compute; reflexivity. Qed.

(* ---------- C98: mesh options ---------- *)

Theorem C98_mesh : forall D (dbl : str -> D) stod count zero root o o', regular root -> parse_mesh_inputs dbl stod count zero root o = Done o' ->
  let sec := get_key root (lit "mesh_options") in
  is_map sec = true /\ only_keys sec mesh_keys /\ gives sec (lit "source") /\ gives sec (lit "num_dims") /\
  (m_source o' = SrcGenerate -> m_path o' = []) /\ mesh_says dbl stod count zero sec o o'.
Proof. intros D dbl stod count zero root o o'. apply mesh_done. Qed.
Print Assumptions C98_mesh.

Theorem C98_accepts : forall D (dbl : str -> D) stod count zero root o, m_source o = SrcNone -> m_path o = [] ->
  let sec := get_key root (lit "mesh_options") in
  is_map sec = true -> only_keys sec mesh_keys -> gives sec (lit "source") -> gives sec (lit "num_dims") ->
  (forall k, gives sec k -> mesh_value stod count zero sec k) ->
  ~ (text_at sec (lit "source") = lit "generate" /\ gives sec (lit "file_path") /\ text_at sec (lit "file_path") <> []) ->
  exists o', parse_mesh_inputs dbl stod count zero root o = Done o'.
Proof. intros D dbl stod count zero root o. apply mesh_accepts. Qed.
Print Assumptions C98_accepts.

Definition mesh0 : @mesh_in str := mkMesh 3 SrcNone [] None (lit "0", lit "0", lit "0") (lit "0", lit "0", lit "0") (1, 1, 1)%Z 1
  (lit "1") (lit "1") (lit "0") (lit "90") 1 1 (lit "1") (lit "1") (lit "1").
Definition read_mesh (ls : list string) : out (@mesh_in str) := parse_mesh_inputs as_text some_text count_text (lit "0") (tree ls) mesh0.

(* A file name together with a generated mesh ends the program as if it had
   succeeded. *)
Theorem C98_exit_refuted : read_mesh ["mesh_options:"; "  source: generate"; "  num_dims: 3"; "  type: box"; "  file_path: a.geo"]%string = Exits.
Proof. vm_compute. reflexivity. Qed.
Print Assumptions C98_exit_refuted.

(* A mesh from a file is accepted without the name of the file (a message is
   printed, and the reader goes on); a generated mesh
   without its type. *)
Theorem C98_incomplete_refuted : exists o1 o2,
  read_mesh ["mesh_options:"; "  source: file"; "  num_dims: 3"]%string = Done o1 /\ m_source o1 = SrcFile /\ m_path o1 = [] /\
  read_mesh ["mesh_options:"; "  source: generate"; "  num_dims: 3"]%string = Done o2 /\ m_source o2 = SrcGenerate /\ m_type o2 = None.
Proof. do 2 eexists. split; [vm_compute; reflexivity|]. split; [reflexivity|]. split; [reflexivity|]. split; [vm_compute; reflexivity|]. split; reflexivity. Qed.
Print Assumptions C98_incomplete_refuted.

(* Numbers without brackets lose their first and last character; of four numbers
   the third is dropped; a single number is read past the end of the array. *)
Theorem C98_numbers_refuted : exists o1 o2,
  read_mesh ["mesh_options:"; "  source: generate"; "  num_dims: 3"; "  origin: 10,20,30"]%string = Done o1 /\ m_origin o1 = (lit "0", lit "20", lit "3") /\
  read_mesh ["mesh_options:"; "  source: generate"; "  num_dims: 3"; "  length: [1,2,3,4]"]%string = Done o2 /\ m_length o2 = (lit "1", lit "2", lit "0") /\
  read_mesh ["mesh_options:"; "  source: generate"; "  num_dims: 3"; "  num_elems: [7]"]%string = OutOfRange.
Proof. do 2 eexists. split; [vm_compute; reflexivity|]. split; [reflexivity|]. split; [vm_compute; reflexivity|]. split; [reflexivity|vm_compute; reflexivity]. Qed.
Print Assumptions C98_numbers_refuted.

Example C98_met : exists o, read_mesh ["mesh_options:"; "  source: generate"; "  num_dims: 3"; "  type: box"; "  origin: [0,1,2]"; "  length: [10,20,30]"; "  num_elems: [4,5,6]"; "  scale_x: 2.0"]%string = Done o /\
  m_source o = SrcGenerate /\ m_type o = Some Box /\ m_origin o = (lit "0", lit "1", lit "2") /\ m_length o = (lit "10", lit "20", lit "30") /\ m_elems o = (4, 5, 6)%Z /\ m_sx o = lit "2.0" /\ m_sy o = lit "1".
Proof. eexists. split; [vm_compute; reflexivity|]. repeat split. Qed.

(* ---------- C99: output options ---------- *)

Theorem C99_output : forall D (dbl : str -> D) root o o', regular root -> parse_output_options dbl root o = Done o' ->
  let sec := get_key root (lit "output_options") in
  container sec /\ only_keys sec out_keys /\ out_says dbl sec o o'.
Proof. intros D dbl root o o'. apply out_done. Qed.
Print Assumptions C99_output.

Theorem C99_accepts : forall D (dbl : str -> D) root o, let sec := get_key root (lit "output_options") in
  is_map sec = true -> only_keys sec out_keys -> (forall k, gives sec k -> out_value sec k) ->
  exists o', parse_output_options dbl root o = Done o'.
Proof. intros D dbl root o. apply out_accepts. Qed.
Print Assumptions C99_accepts.

(* Names written in one line are accepted, and none of them is written. *)
Theorem C99_inline_refuted :
  (forall D (dbl : str -> D) root o o' t, regular root -> parse_output_options dbl root o = Done o' ->
     get_key (get_key root (lit "output_options")) (lit "node_field_outputs") = NScalar t -> o_node o' = o_node o) /\
  parse_output_options as_text (tree ["output_options:"; "  output_file_format: viz"; "  node_field_outputs: [coords, vel]"]%string)
    (mkOut None None (lit "1") 1 [] [] [] []) = Done (mkOut (Some Viz) None (lit "1") 1 [] [] [] []).
Proof.
  split; [|vm_compute; reflexivity]. intros D dbl root o o' t R H E. destruct (C99_output _ _ _ _ _ R H) as (_ & _ & _ & _ & _ & _ & _ & [L N] & _).
  destruct (gives_dec (get_key root (lit "output_options")) (lit "node_field_outputs")) as [G|G]; [|exact (N G)].
  destruct (L G) as (new & [NL _] & ->). rewrite E in NL. destruct new; [apply app_nil_r|discriminate].
Qed.
Print Assumptions C99_inline_refuted.

Example C99_met : parse_output_options as_text (tree ["output_options:"; "  output_file_format: viz_and_state"; "  graphics_time_step: 0.25"; "  elem_field_outputs:"; "    - sie"; "    - den"; "  node_field_outputs:"; "    - vel"; "    - coords"]%string)
    (mkOut None None (lit "1") 1 [] [] [] []) = Done (mkOut (Some VizState) None (lit "0.25") 1 [MSie; MDen; MMass] [NVel; NCoords] [] []) /\
  parse_output_options as_text (tree ["output_options:"; "  elem_field_outputs:"; "    - density"]%string) (mkOut None None (lit "1") 1 [] [] [] []) = Throws UnknownOption.
Proof. split; vm_compute; reflexivity. Qed.

(* ---------- C100: boundary conditions ---------- *)

Theorem C100_conditions : forall D (dbl : str -> D) stod zero nsolvers b0 root st0 st bs, regular root ->
  parse_bcs dbl stod zero nsolvers b0 root st0 = Done (st, bs) ->
  let k := node_size (get_key root (lit "boundary_conditions")) in let sec := bc_sec root in
  List.length bs = k /\
  (forall i b, nth_error bs i = Some b -> is_map (sec i) = true /\ gives (sec i) (lit "solver_id") /\ gives (sec i) (lit "surface") /\
     container (get_key (sec i) (lit "surface")) /\ (0 <= to_int (text_at (sec i) (lit "solver_id")) < Z.of_nat nsolvers)%Z /\ bc_says dbl stod zero (sec i) b0 b) /\
  ((forall s, vel_sets st0 s = []) -> forall s, chosen root "velocity_model" k s (vel_sets st s)) /\
  ((forall s, temp_sets st0 s = []) -> forall s, chosen root "temperature_model" k s (temp_sets st s)) /\
  ((forall s, str_sets st0 s = []) -> forall s, chosen root "stress_model" k s (str_sets st s)) /\
  (allow_contact st = true <-> allow_contact st0 = true \/ exists i, i < k /\ stress_is (sec i) [lit "global_contact"; lit "preload_contact"]) /\
  (allow_preload st = true <-> allow_preload st0 = true \/ exists i, i < k /\ stress_is (sec i) [lit "preload_contact"]) /\
  (allow_fracture st = true <-> allow_fracture st0 = true \/ exists i, i < k /\ stress_is (sec i) [lit "fracture"]) /\
  set_by_last k (fun i => stress_is (sec i) [lit "fracture"]) Z.of_nat (fracture_id st0) (fracture_id st) /\
  set_by_last k (fun i => gives (sec i) (lit "contact_bc_vars"))
    (fun i => (to_size (as_string (get_index (get_key (sec i) (lit "contact_bc_vars")) 0)), to_size (as_string (get_index (get_key (sec i) (lit "contact_bc_vars")) 1))))
    (max_local st0, max_global st0) (max_local st, max_global st).
Proof. intros D dbl stod zero nsolvers b0 root st0 st bs. apply bcs_done. Qed.
Print Assumptions C100_conditions.

Definition bc0 : @bc str := mkBc None (lit "0", lit "0", lit "0") (lit "0") (lit "1e-7") None None None None [] [] [].
Definition sets0 : bcsets := mkSets (fun _ => []) (fun _ => []) (fun _ => []) false false false (-1) 0 0.
Definition read_bcs (n : nat) (ls : list string) := parse_bcs as_text some_text (lit "0") n bc0 (tree ls) sets0.

(* A misspelled temperature model is accepted, and no model is set. *)
Theorem C100_temperature_refuted : exists st b,
  read_bcs 1 ["boundary_conditions:"; "  - boundary_condition:"; "      solver_id: 0"; "      surface:"; "        type: x_plane"; "      temperature_model: constnat"]%string = Done (st, [b]) /\
  temp_sets st 0 = [0] /\ b_temp b = None.
Proof. do 2 eexists. split; [vm_compute; reflexivity|]. split; reflexivity. Qed.
Print Assumptions C100_temperature_refuted.

(* A heat flux condition, which the list of valid keys offers, is refused. *)
Theorem C100_heat_flux_refuted :
  read_bcs 1 ["boundary_conditions:"; "  - boundary_condition:"; "      solver_id: 0"; "      surface:"; "        type: x_plane"; "      heat_flux_model: constant"]%string = Throws UnknownKey.
Proof. vm_compute. reflexivity. Qed.
Print Assumptions C100_heat_flux_refuted.

Example C100_met : exists st b1 b2 b3,
  read_bcs 2 ["boundary_conditions:"; "  - boundary_condition:"; "      solver_id: 0"; "      surface:"; "        type: x_plane"; "        plane_position: 1.5"; "      velocity_model: reflected";
    "  - boundary_condition:"; "      solver_id: 1"; "      surface:"; "        type: sphere"; "        radius: 2.0"; "        origin: [1,2,3]"; "      velocity_model: constant"; "      velocity_bc_global_vars:"; "        - 5"; "        - 6";
    "  - boundary_condition:"; "      solver_id: 0"; "      surface:"; "        type: global"; "      stress_model: fracture"; "      velocity_model: fixed"]%string = Done (st, [b1; b2; b3]) /\
  vel_sets st 0 = [0; 2] /\ vel_sets st 1 = [1] /\ str_sets st 0 = [2] /\ allow_fracture st = true /\ fracture_id st = 2%Z /\ allow_contact st = false /\
  b_surf b1 = Some XPlane /\ b_value b1 = lit "1.5" /\ b_vel b1 = Some VReflected /\ b_value b2 = lit "2.0" /\ b_origin b2 = (lit "1", lit "2", lit "3") /\ b_velv b2 = [lit "5"; lit "6"] /\
  b_stress b3 = Some SFracture /\ b_vel b3 = Some VZero.
Proof. do 4 eexists. split; [vm_compute; reflexivity|]. repeat split. Qed.

(* ---------- C101: identifiers of materials and regions ---------- *)

Theorem C101_materials : forall root l, regular root -> parse_material_ids root = Done l ->
  let n := node_size (get_key root (lit "materials")) in
  0 < n /\ (forall i, i < n -> gives (entry root "materials" "material" i) (lit "id")) /\
  numbered_once (entry root "materials" "material") n /\ l = map (fun i => Z.to_nat (id_of (entry root "materials" "material" i))) (seq 0 n).
Proof. exact materials_done. Qed.
Print Assumptions C101_materials.

Theorem C101_regions : forall n root f, regular root -> parse_region_sets n root = Done f ->
  let k := node_size (get_key root (lit "regions")) in
  let sec := entry root "regions" "region" in
  (forall i, i < k -> is_map (sec i) = true /\ gives (sec i) (lit "material_id") /\ gives (sec i) (lit "volume") /\
     (gives (sec i) (lit "solver_id") -> (0 <= to_int (text_at (sec i) (lit "solver_id")) < Z.of_nat n)%Z)) /\
  forall s, (forall i, In i (f s) <-> i < k /\ gives (sec i) (lit "solver_id") /\ to_int (text_at (sec i) (lit "solver_id")) = Z.of_nat s) /\
    forall a b i j, nth_error (f s) a = Some i -> nth_error (f s) b = Some j -> a < b -> i < j.
Proof. exact regions_done. Qed.
Print Assumptions C101_regions.

(* A region without a solver is filled by none, without a word; a solver that
   does not exist is used as an index. *)
Theorem C101_region_refuted :
  (forall n root f i, regular root -> parse_region_sets n root = Done f -> ~ gives (entry root "regions" "region" i) (lit "solver_id") -> forall s, ~ In i (f s)) /\
  (exists f, parse_region_sets 1 (tree ["regions:"; "  - region:"; "      material_id: 0"; "      volume:"; "        type: global"]%string) = Done f) /\
  parse_region_sets 1 (tree ["regions:"; "  - region:"; "      material_id: 0"; "      solver_id: 1"; "      volume:"; "        type: global"]%string) = OutOfRange.
Proof.
  split; [|split; [eexists; vm_compute; reflexivity|vm_compute; reflexivity]].
  intros n root f i R H N s I. destruct (C101_regions n root f R H) as [_ X]. apply (proj1 (X s)) in I. tauto.
Qed.
Print Assumptions C101_region_refuted.

Theorem C101_multimaterial : forall root o o' m, root = NMap m -> regular root -> parse_multimaterial root o = Done o' ->
  mm_geo o' = mm_geo o /\
  (~ gives root (lit "multimaterial_options") -> o' = o) /\
  (gives root (lit "multimaterial_options") -> let sec := get_key root (lit "multimaterial_options") in
     container sec /\ field sec "max_num_mats_per_element" to_size (mm_max o) (mm_max o') /\
     (gives sec (lit "mat_equilibration_model") -> In (text_at sec (lit "mat_equilibration_model"), mm_mat o') equilibrations) /\
     (~ gives sec (lit "mat_equilibration_model") -> gives sec (lit "geo_equilibration_model") -> In (text_at sec (lit "geo_equilibration_model"), mm_mat o') equilibrations) /\
     (~ gives sec (lit "mat_equilibration_model") -> ~ gives sec (lit "geo_equilibration_model") -> mm_mat o' = mm_mat o) /\
     (forall k, k = lit "mat_equilibration_global_vars" \/ k = lit "geo_equilibration_global_vars" -> gives sec k -> 2 <= node_size (get_key sec k))).
Proof. exact mm_done. Qed.
Print Assumptions C101_multimaterial.

(* The geometric equilibration model a user asks for is stored as the one of the
   materials, and never as the geometric one. *)
Theorem C101_geo_refuted :
  parse_multimaterial (tree ["multimaterial_options:"; "  geo_equilibration_model: tipton"]%string) (mkMm NoEquil NoEquil 1) = Done (mkMm Tipton NoEquil 1).
Proof. vm_compute. reflexivity. Qed.
Print Assumptions C101_geo_refuted.

Example C101_met :
  parse_material_ids (tree ["materials:"; "  - material:"; "      id: 1"; "  - material:"; "      id: 0"]%string) = Done [1; 0] /\
  (exists f, parse_region_sets 2 (tree ["regions:"; "  - region:"; "      material_id: 0"; "      solver_id: 1"; "      volume:"; "        type: global"; "  - region:"; "      material_id: 0"; "      volume:"; "        type: global"]%string) = Done f /\ f 1 = [0] /\ f 0 = []) /\
  parse_multimaterial (tree ["multimaterial_options:"; "  mat_equilibration_model: tipton"; "  max_num_mats_per_element: 4"]%string) (mkMm NoEquil NoEquil 1) = Done (mkMm Tipton NoEquil 4).
Proof. split; [vm_compute; reflexivity|]. split; [eexists; split; [vm_compute; reflexivity|split; reflexivity]|vm_compute; reflexivity]. Qed.
