(* What the input readers are relied on for, in terms of the tree a program sees
   with IsMap, Size, operator[] and As<std::string>. *)
From Coq Require Import List Ascii String Arith Bool ZArith Permutation.
From Verif Require Import YamlModel YamlSpec InputModel.
From Verif Require StrModel StrSpec.
Import ListNotations.
Local Open Scope nat_scope.

(* The words of the input language. *)
Definition solver_methods : list (str * method) :=
  [(lit "dynx_FE", SGH3D); (lit "dynx_FE_rz", SGHRZ); (lit "thrmex_FE", SGTM3D); (lit "level_set", LevelSet); (lit "qstatx_FE", TLQS3D)].
Definition mesh_sources : list (str * msource) := [(lit "generate", SrcGenerate); (lit "file", SrcFile)].
Definition mesh_types : list (str * mtype) := [(lit "box", Box); (lit "polar", Polar)].
Definition file_formats : list (str * oformat) :=
  [(lit "viz", Viz); (lit "ensight", Ensight); (lit "state", State); (lit "viz_and_state", VizState)].
Definition timer_levels : list (str * tlevel) := [(lit "thorough", Thorough)].
Definition node_fields : list (str * nodef) :=
  [(lit "coords", NCoords); (lit "vel", NVel); (lit "temp", NTemp); (lit "mass", NMass); (lit "force", NForce); (lit "grad_level_set", NGradLs)].
Definition gauss_fields : list (str * gaussf) := [(lit "volume", GVolume); (lit "level_set", GLevelSet); (lit "vel_grad", GVelGrad)].
Definition elem_fields : list (str * matf) :=
  [(lit "den", MDen); (lit "pres", MPres); (lit "stress", MStress); (lit "sie", MSie); (lit "sspd", MSspd); (lit "mass", MMass)].
Definition point_fields : list (str * matf) := elem_fields ++ [(lit "volfrac", MVolfrac); (lit "eroded", MEroded)].
Definition velocity_models : list (str * option velm) :=
  [(lit "none", None); (lit "constant", Some VConstant); (lit "time_varying", Some VTimeVarying); (lit "reflected", Some VReflected);
   (lit "fixed", Some VZero); (lit "user_defined", Some VUser); (lit "piston", Some VPiston)].
Definition temperature_models : list (str * option tempm) :=
  [(lit "none", None); (lit "constant", Some TConstant); (lit "convection", Some TConvection); (lit "radiation", Some TRadiation)].
Definition stress_models : list (str * option strm) :=
  [(lit "none", None); (lit "constant", Some SConstant); (lit "time_varying", Some STimeVarying); (lit "user_defined", Some SUser);
   (lit "global_contact", Some SContact); (lit "preload_contact", Some SPreload); (lit "fracture", Some SFracture)].
Definition surfaces : list (str * surf) :=
  [(lit "x_plane", XPlane); (lit "y_plane", YPlane); (lit "z_plane", ZPlane); (lit "cylinder", Cylinder); (lit "sphere", Sphere); (lit "global", Global)].
Definition locations : list (str * bool) := [(lit "host", true); (lit "device", false)].
Definition equilibrations : list (str * equil) :=
  [(lit "no_equilibration", NoEquil); (lit "tipton", Tipton); (lit "user_defined", UserEquil)].

(* A sequence of decimal digits and its value. *)
Definition is_digits (ds : str) : Prop := Forall (fun c => 48 <= nat_of_ascii c <= 57) ds.
Fixpoint decimal (ds : str) : Z :=
  match ds with
  | [] => 0
  | c :: r => (Z.of_nat (nat_of_ascii c - 48) * 10 ^ Z.of_nat (List.length r) + decimal r)%Z
  end.
Definition blank_char (c : ascii) : Prop := In (nat_of_ascii c) [9; 10; 11; 12; 13; 32].
Definition no_digit_next (rest : str) : Prop := forall c r, rest = c :: r -> nat_of_ascii c < 48 \/ 57 < nat_of_ascii c.

(* The mapping gives the key. *)
Definition gives (sec : node) (k : str) : Prop := In k (map fst (map_of sec)).

(* The text under a key. *)
Definition text_at (sec : node) (k : str) : str := as_string (get_key sec k).

(* Nothing but blanks. *)
Definition blank_text (s : str) : Prop := Forall (fun c => is_space c = true) s.

(* The option [x] read from key [k]: the value of the text when the key is
   given, else the default. *)
Definition field {A} (sec : node) (k : string) (conv : str -> A) (default x : A) : Prop :=
  (gives sec (lit k) -> x = conv (text_at sec (lit k))) /\
  (~ gives sec (lit k) -> x = default).

(* The same for options that are chosen from a list of words. *)
Definition choice {A} (sec : node) (k : string) (allowed : list (str * A)) (default x : A) : Prop :=
  (gives sec (lit k) -> In (text_at sec (lit k), x) allowed) /\
  (~ gives sec (lit k) -> x = default).

Definition only_keys (sec : node) (allowed : list string) : Prop :=
  forall k, gives sec k -> In k (map lit allowed).

(* A section that can be walked: a mapping or a sequence. *)
Definition container (n : node) : Prop := is_map n = true \/ is_seq n = true.

Definition dyn_keys : list string :=
  ["time_initial"; "time_final"; "dt_min"; "dt_max"; "dt_start"; "dt_cfl"; "cycle_stop"; "fuzz"; "tiny"; "small"; "rk_num_stages"]%string.

Definition mesh_keys : list string :=
  ["num_dims"; "source"; "file_path"; "type"; "origin"; "length"; "num_elems"; "polynomial_order"; "inner_radius";
   "outer_radius"; "starting_angle"; "ending_angle"; "num_radial_elems"; "num_angular_elems"; "scale_x"; "scale_y"; "scale_z"]%string.

Definition out_keys : list string :=
  ["timer_output_level"; "output_file_format"; "graphics_time_step"; "graphics_iteration_step"; "elem_field_outputs";
   "node_field_outputs"; "mat_pt_field_outputs"; "gauss_pt_field_outputs"]%string.

(* The entries of a list of names, looked up one by one. *)
Definition names_of {A} (v : node) (allowed : list (str * A)) (l : list A) : Prop :=
  List.length l = node_size v /\
  forall i x, nth_error l i = Some x -> In (as_string (get_index v i), x) allowed.

(* The [i]-th entry of a list of sections such as "- solver: ...". *)
Definition entry (root : node) (list_key item : string) (i : nat) : node :=
  get_key (get_index (get_key root (lit list_key)) i) (lit item).

(* Conditions of solver [s] that give key [k], in the order of the file. *)
Definition chosen (root : node) (key : string) (n s : nat) (l : list nat) : Prop :=
  (forall i, In i l <->
     i < n /\ gives (entry root "boundary_conditions" "boundary_condition" i) (lit key) /\
     to_int (text_at (entry root "boundary_conditions" "boundary_condition" i) (lit "solver_id")) = Z.of_nat s) /\
  (forall a b i j, nth_error l a = Some i -> nth_error l b = Some j -> a < b -> i < j).

(* ---------- what each reader stores ---------- *)

Section Says.
Context {D : Type} (dbl : str -> D).

Definition dyn_says (sec : node) (o o' : dyn) : Prop :=
  field sec "time_initial" dbl (time_initial o) (time_initial o') /\
  field sec "time_final" dbl (time_final o) (time_final o') /\
  field sec "dt_min" dbl (dt_min o) (dt_min o') /\
  field sec "dt_max" dbl (dt_max o) (dt_max o') /\
  field sec "dt_start" dbl (dt_start o) (dt_start o') /\
  field sec "dt_cfl" dbl (dt_cfl o) (dt_cfl o') /\
  field sec "cycle_stop" (fun t => (to_int t mod two64)%Z) (cycle_stop o) (cycle_stop o') /\
  field sec "fuzz" dbl (fuzz o) (fuzz o') /\
  field sec "tiny" dbl (tiny o) (tiny o') /\
  field sec "small" dbl (small o) (small o') /\
  field sec "rk_num_stages" to_int (rk_num_stages o) (rk_num_stages o').

(* Three numbers between brackets; a missing third one is zero. *)
Definition three {B} (num : str -> option B) (zero : B) (text : str) (p : B * B * B) : Prop :=
  exists o l c, text = o :: StrSpec.join (lit ",") l ++ [c] /\ Forall (fun t => ~ In ","%char t) l /\
    2 <= List.length l /\
    num (nth 0 l []) = Some (fst (fst p)) /\ num (nth 1 l []) = Some (snd (fst p)) /\
    (List.length l = 3 -> num (nth 2 l []) = Some (snd p)) /\ (List.length l <> 3 -> snd p = zero).

Definition three_at {B} (sec : node) (k : string) (num : str -> option B) (zero : B) (default p : B * B * B) : Prop :=
  (gives sec (lit k) -> three num zero (text_at sec (lit k)) p) /\ (~ gives sec (lit k) -> p = default).

Definition some_fst {A} (l : list (str * A)) : list (str * option A) := map (fun p => (fst p, Some (snd p))) l.

Definition mesh_says (stod : str -> option D) (count : str -> option Z) (zero : D) (sec : node) (o o' : @mesh_in D) : Prop :=
  field sec "num_dims" to_int (m_dims o) (m_dims o') /\
  choice sec "source" mesh_sources (m_source o) (m_source o') /\
  field sec "file_path" (fun t => t) (m_path o) (m_path o') /\
  choice sec "type" (some_fst mesh_types) (m_type o) (m_type o') /\
  three_at sec "origin" stod zero (m_origin o) (m_origin o') /\
  three_at sec "length" stod zero (m_length o) (m_length o') /\
  three_at sec "num_elems" count 0%Z (m_elems o) (m_elems o') /\
  field sec "polynomial_order" (fun t => (to_int t mod two64)%Z) (m_order o) (m_order o') /\
  field sec "inner_radius" dbl (m_inner o) (m_inner o') /\
  field sec "outer_radius" dbl (m_outer o) (m_outer o') /\
  field sec "starting_angle" dbl (m_start o) (m_start o') /\
  field sec "ending_angle" dbl (m_ending o) (m_ending o') /\
  field sec "num_radial_elems" to_int (m_nrad o) (m_nrad o') /\
  field sec "num_angular_elems" to_int (m_nang o) (m_nang o') /\
  field sec "scale_x" dbl (m_sx o) (m_sx o') /\
  field sec "scale_y" dbl (m_sy o) (m_sy o') /\
  field sec "scale_z" dbl (m_sz o) (m_sz o').

(* The names under a key, after those already there. *)
Definition listed {A} (sec : node) (k : string) (allowed : list (str * A)) (old l : list A) : Prop :=
  (gives sec (lit k) -> exists new, names_of (get_key sec (lit k)) allowed new /\ l = old ++ new) /\
  (~ gives sec (lit k) -> l = old).

(* The same where the mass is added to the specific energy. *)
Definition listed_mass (sec : node) (k : string) (allowed : list (str * matf)) (old l : list matf) : Prop :=
  (gives sec (lit k) -> exists new, names_of (get_key sec (lit k)) allowed new /\
     (In MSie (old ++ new) /\ ~ In MMass (old ++ new) -> l = old ++ new ++ [MMass]) /\
     (~ In MSie (old ++ new) \/ In MMass (old ++ new) -> l = old ++ new)) /\
  (~ gives sec (lit k) -> l = old).

Definition out_says (sec : node) (o o' : @outopts D) : Prop :=
  choice sec "output_file_format" (some_fst file_formats) (o_format o) (o_format o') /\
  choice sec "timer_output_level" (some_fst timer_levels) (o_timer o) (o_timer o') /\
  field sec "graphics_time_step" dbl (o_dt o) (o_dt o') /\
  field sec "graphics_iteration_step" to_int (o_it o) (o_it o') /\
  listed_mass sec "elem_field_outputs" elem_fields (o_elem o) (o_elem o') /\
  listed sec "node_field_outputs" node_fields (o_node o) (o_node o') /\
  listed sec "gauss_pt_field_outputs" gauss_fields (o_gauss o) (o_gauss o') /\
  listed sec "mat_pt_field_outputs" point_fields (o_mat o) (o_mat o').

(* What the mesh options must look like to be read. *)
Definition mesh_value (stod : str -> option D) (count : str -> option Z) (zero : D) (sec : node) (k : str) : Prop :=
  (k = lit "source" -> In (text_at sec k) (map fst mesh_sources)) /\
  (k = lit "type" -> In (text_at sec k) (map fst mesh_types)) /\
  (k = lit "origin" -> exists p, three stod zero (text_at sec k) p) /\
  (k = lit "length" -> exists p, three stod zero (text_at sec k) p) /\
  (k = lit "num_elems" -> exists p, three count 0%Z (text_at sec k) p) /\
  (k <> lit "source" -> k <> lit "type" -> k <> lit "origin" -> k <> lit "length" -> k <> lit "num_elems" -> k <> lit "file_path" ->
     ~ blank_text (text_at sec k)).

(* What the output options must look like to be read. *)
Definition out_value (sec : node) (k : str) : Prop :=
  (k = lit "output_file_format" -> In (text_at sec k) (map fst file_formats)) /\
  (k = lit "timer_output_level" -> In (text_at sec k) (map fst timer_levels)) /\
  (k = lit "graphics_time_step" \/ k = lit "graphics_iteration_step" -> ~ blank_text (text_at sec k)) /\
  (forall i, i < node_size (get_key sec k) ->
     (k = lit "elem_field_outputs" -> In (as_string (get_index (get_key sec k) i)) (map fst elem_fields)) /\
     (k = lit "node_field_outputs" -> In (as_string (get_index (get_key sec k) i)) (map fst node_fields)) /\
     (k = lit "gauss_pt_field_outputs" -> In (as_string (get_index (get_key sec k) i)) (map fst gauss_fields)) /\
     (k = lit "mat_pt_field_outputs" -> In (as_string (get_index (get_key sec k) i)) (map fst point_fields))).

End Says.

(* ---------- lists of sections ---------- *)

Definition solver_keys : list string := ["method"; "id"; "time_end"; "use_moving_heat_source"]%string.

Section Lists.
Context {D : Type} (dbl : str -> D).

(* A solver section that can be read. *)
Definition solver_good (neg : D -> bool) (sec : node) : Prop :=
  is_map sec = true /\ only_keys sec solver_keys /\ gives sec (lit "method") /\ gives sec (lit "id") /\
  In (text_at sec (lit "method")) (map fst solver_methods) /\ ~ blank_text (text_at sec (lit "id")) /\
  (gives sec (lit "time_end") -> ~ blank_text (text_at sec (lit "time_end")) /\ neg (dbl (text_at sec (lit "time_end"))) = false).

Definition solver_says (zero : D) (sec : node) (s : @solver D) : Prop :=
  In (text_at sec (lit "method"), s_method s) solver_methods /\
  field sec "time_end" dbl zero (s_time_end s) /\
  field sec "use_moving_heat_source" (fun t => as_bool (NScalar t)) false (s_heat s).

(* The identifier of a section. *)
Definition id_of (sec : node) : Z := to_int (text_at sec (lit "id")).

(* The identifiers of [n] sections are 0 .. n-1, each once. *)
Definition numbered_once (sec : nat -> node) (n : nat) : Prop :=
  (forall i, i < n -> (0 <= id_of (sec i))%Z) /\
  Permutation (map (fun i => Z.to_nat (id_of (sec i))) (seq 0 n)) (seq 0 n).

Definition surface_keys : list string := ["type"; "plane_position"; "radius"; "tolerance"; "origin"]%string.
Definition bc_keys : list string :=
  ["solver_id"; "velocity_model"; "temperature_model"; "stress_model"; "location"; "surface"; "velocity_bc_global_vars";
   "temperature_bc_global_vars"; "stress_bc_global_vars"; "contact_bc_vars"]%string.

(* The surface of a condition.  The position of a plane and the radius share one
   place. *)
Definition surf_says (stod : str -> option D) (zero : D) (sec : node) (b0 b : @bc D) : Prop :=
  only_keys sec surface_keys /\
  choice sec "type" (some_fst surfaces) (b_surf b0) (b_surf b) /\
  field sec "tolerance" dbl (b_tol b0) (b_tol b) /\
  three_at sec "origin" stod zero (b_origin b0) (b_origin b) /\
  (gives sec (lit "plane_position") \/ gives sec (lit "radius") ->
     exists k, (k = lit "plane_position" \/ k = lit "radius") /\ gives sec k /\ b_value b = dbl (text_at sec k)) /\
  (~ gives sec (lit "plane_position") -> ~ gives sec (lit "radius") -> b_value b = b_value b0).

(* The numbers of a list. *)
Definition values_at (sec : node) (k : string) (default l : list D) : Prop :=
  (gives sec (lit k) -> List.length l = node_size (get_key sec (lit k)) /\
     forall i x, nth_error l i = Some x -> x = dbl (as_string (get_index (get_key sec (lit k)) i))) /\
  (~ gives sec (lit k) -> l = default).

(* The models of a condition that are recorded for it. *)
Definition bc_says (stod : str -> option D) (zero : D) (sec : node) (b0 b : @bc D) : Prop :=
  only_keys sec bc_keys /\
  surf_says stod zero (get_key sec (lit "surface")) b0 b /\
  choice sec "velocity_model" velocity_models (b_vel b0) (b_vel b) /\
  (gives sec (lit "velocity_model") -> b_vel b <> None) /\
  (gives sec (lit "temperature_model") -> In (text_at sec (lit "temperature_model"), b_temp b) temperature_models /\ b_temp b <> None \/
     ~ In (text_at sec (lit "temperature_model")) (map fst temperature_models) /\ b_temp b = b_temp b0) /\
  (~ gives sec (lit "temperature_model") -> b_temp b = b_temp b0) /\
  (gives sec (lit "stress_model") ->
     In (text_at sec (lit "stress_model"), b_stress b) stress_models /\ b_stress b <> None \/
     In (text_at sec (lit "stress_model")) [lit "global_contact"; lit "preload_contact"] /\ b_stress b = b_stress b0) /\
  (~ gives sec (lit "stress_model") -> b_stress b = b_stress b0) /\
  choice sec "location" (some_fst locations) (b_host b0) (b_host b) /\
  values_at sec "velocity_bc_global_vars" (b_velv b0) (b_velv b) /\
  values_at sec "temperature_bc_global_vars" (b_tempv b0) (b_tempv b) /\
  values_at sec "stress_bc_global_vars" (b_strv b0) (b_strv b).
End Lists.

(* The stress model of a condition is one of these words. *)
Definition stress_is (sec : node) (ws : list str) : Prop :=
  gives sec (lit "stress_model") /\ In (text_at sec (lit "stress_model")) ws.

(* A value that the last of the conditions with [c] sets. *)
Definition set_by_last {T} (n : nat) (c : nat -> Prop) (val : nat -> T) (old new : T) : Prop :=
  (forall i, i < n -> ~ c i) /\ new = old \/
  exists i, i < n /\ c i /\ (forall j, i < j -> j < n -> ~ c j) /\ new = val i.

Definition bc_sec (root : node) (i : nat) : node := entry root "boundary_conditions" "boundary_condition" i.
