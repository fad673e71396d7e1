(* Model of the input readers on top of the YAML tree:
   /repo/apps/multiphysics/src/input/parse_tools.cpp (validate_inputs),
   parse_dynamic_inputs.cpp, parse_solver_inputs.cpp, parse_mesh_inputs.cpp,
   parse_output_options.cpp, parse_bdy_conds_inputs.cpp, and the identifiers of
   parse_regions.cpp, parse_material_inputs.cpp.

   Simplifications.  The readers use operator[], which adds missing keys to the
   tree; reading afterwards gives the same values (C91_lookup), so the tree is
   read with [get_key] and [get_index] and not threaded.  Floating point numbers
   are values of an arbitrary type [D] obtained from their text by an arbitrary
   function; integers are read digit by digit as operator>> does.  Messages on
   the screen are left out. *)
From Coq Require Import List Ascii String Arith Bool ZArith.
From Verif Require Import YamlModel.
From Verif Require StrModel.
Import ListNotations.
Local Open Scope nat_scope.

(* What can happen: a result, a C++ exception, a loop that never ends, the use
   of a variable that was never set, an access outside an array, a call of
   exit(0). *)
Inductive ierr := MissingRequired | UnknownKey | UnknownOption | BadId | DuplicateId | MissingId | NegativeTime
  | NotANumber | TooMany | NoMaterials.
Inductive out (A : Type) :=
| Done (a : A) | Throws (e : ierr) | Hangs | Unset | OutOfRange | Exits.
Arguments Done {A}. Arguments Throws {A}. Arguments Hangs {A}. Arguments Unset {A}. Arguments OutOfRange {A}. Arguments Exits {A}.

Definition obnd {A B} (x : out A) (f : A -> out B) : out B :=
  match x with
  | Done a => f a | Throws e => Throws e | Hangs => Hangs | Unset => Unset | OutOfRange => OutOfRange | Exits => Exits
  end.

(* ---------- iterators (Yaml.cpp 1602-1790, 2460-2570) ---------- *)

(* An iterator is of no type, or stands before the remaining entries. *)
Inductive iter := ItNone | ItSeq (rest : list (nat * node)) | ItMap (rest : list (str * node)).

(* Node::Begin (2460-2486), Node::End (2504-2570): a node without type or a
   scalar gives an iterator of no type. *)
Definition it_begin (n : node) : iter :=
  match n with NSeq m => ItSeq m | NMap m => ItMap m | _ => ItNone end.
Definition it_end (n : node) : iter :=
  match n with NSeq m => ItSeq [] | NMap m => ItMap [] | _ => ItNone end.

(* Iterator::operator== (1752-1772): false for iterators of no type.  Iterators
   over one container are equal when they stand at the same place. *)
Definition it_eq (a b : iter) : bool :=
  match a, b with
  | ItSeq x, ItSeq y => Nat.eqb (List.length x) (List.length y)
  | ItMap x, ItMap y => Nat.eqb (List.length x) (List.length y)
  | _, _ => false
  end.

(* Iterator::operator* (1656-1672), the name part: empty except in a mapping. *)
Definition it_name (a : iter) : str :=
  match a with ItMap ((k, _) :: _) => k | _ => [] end.

(* Iterator::operator++ (1690-1704). *)
Definition it_next (a : iter) : iter :=
  match a with ItSeq (_ :: r) => ItSeq r | ItMap (_ :: r) => ItMap r | _ => a end.

(* The first loop of validate_inputs (parse_tools.cpp:722-733), [turns] turns of
   it; [None] = still running.  A word that is not valid is only reported. *)
Fixpoint words_loop (turns : nat) (it last : iter) (acc : list str) : option (list str) :=
  match turns with
  | 0 => None
  | S t => if it_eq it last then Some acc else words_loop t (it_next it) last (acc ++ [it_name it])
  end.

(* Its outcome: enough turns for every container, or it never ends (proved in
   InputProofs.words_runs). *)
Definition words (n : node) : out (list str) :=
  match words_loop (S (node_size n)) (it_begin n) (it_end n) [] with
  | Some l => Done l
  | None => Hangs
  end.

Definition mem (w : str) (l : list str) : bool := existsb (str_eqb w) l.

(* validate_inputs (parse_tools.cpp:716-753). *)
Definition validate_inputs (n : node) (required : list str) : out (list str) :=
  obnd (words n) (fun user =>
    if forallb (fun r => mem r user) required then Done user else Throws MissingRequired).

(* ---------- numbers ---------- *)

(* std::isspace in the C locale. *)
Definition is_space (c : ascii) : bool :=
  let n := nat_of_ascii c in Nat.eqb n 32 || ((9 <=? n) && (n <=? 13)).

(* Node::As<T> for numbers (Yaml.hpp:68-76): "T type; ss >> type; return type".
   When only blanks are left the stream fails before it touches [type], which
   stays unset; a node that is not a scalar has the text "". *)
Definition as_num {D : Type} (conv : str -> D) (n : node) : out D :=
  if forallb is_space (as_string n) then Unset else Done (conv (as_string n)).

Definition digit (c : ascii) : option Z :=
  let n := nat_of_ascii c in
  if (48 <=? n) && (n <=? 57) then Some (Z.of_nat (n - 48)) else None.

Fixpoint digits (s : str) (acc : Z) (any : bool) : Z * bool :=
  match s with
  | [] => (acc, any)
  | c :: r => match digit c with Some d => digits r (acc * 10 + d)%Z true | None => (acc, any) end
  end.

Fixpoint skip_blank (s : str) : str :=
  match s with c :: r => if is_space c then skip_blank r else s | [] => [] end.

(* operator>> for int: leading blanks, a sign, decimal digits; reading stops at
   the first other character; no digit gives 0; out of range gives the nearest
   int. *)
Definition to_int (s : str) : Z :=
  let s := skip_blank s in
  let '(neg, s) := match s with
                   | c :: r => if Ascii.eqb c "-" then (true, r) else if Ascii.eqb c "+" then (false, r) else (false, s)
                   | [] => (false, [])
                   end in
  let (v, any) := digits s 0 false in
  let v := if neg then (- v)%Z else v in
  Z.max (- 2147483648) (Z.min 2147483647 v).

Definition two64 : Z := 18446744073709551616.

(* operator>> for size_t: a minus sign is accepted and wraps. *)
Definition to_size (s : str) : Z :=
  let s := skip_blank s in
  let '(neg, s) := match s with
                   | c :: r => if Ascii.eqb c "-" then (true, r) else if Ascii.eqb c "+" then (false, r) else (false, s)
                   | [] => (false, [])
                   end in
  let (v, any) := digits s 0 false in
  if (two64 <=? v)%Z then (two64 - 1)%Z else if neg then ((- v) mod two64)%Z else v.

(* An int stored in an unsigned long or size_t. *)
Definition to_unsigned (z : Z) : Z := (z mod two64)%Z.

(* ---------- the loop over the words of a section ---------- *)

(* for (auto& a_word : user_inputs) { ... yaml[a_word] ... } *)
Fixpoint over_words {S} (step : S -> str -> node -> out S) (sec : node) (ws : list str) (s : S) : out S :=
  match ws with
  | [] => Done s
  | w :: r => obnd (step s w (get_key sec w)) (over_words step sec r)
  end.

Definition read_section {S} (step : S -> str -> node -> out S) (required : list str) (sec : node) (s : S) : out S :=
  obnd (validate_inputs sec required) (fun ws => over_words step sec ws s).

Section Numbers.
Context {D : Type} (dbl : str -> D).

(* ---------- dynamic options (parse_dynamic_inputs.cpp:70-148) ---------- *)

(* dynamic_options.hpp:47-66. *)
Record dyn := mkDyn {
  cycle_stop : Z; time_initial : D; time_final : D; dt_min : D; dt_max : D; dt_start : D; dt_cfl : D;
  fuzz : D; tiny : D; small : D; rk_num_stages : Z }.

(* dynamic_options.hpp:88-92. *)
Definition dyn_required : list str := [lit "time_final"; lit "cycle_stop"].

(* parse_dynamic_inputs.cpp:82-147, one word. *)
Definition dyn_step (o : dyn) (w : str) (v : node) : out dyn :=
  let '(mkDyn cs ti tf mn mx st cfl fz tn sm rk) := o in
  if str_eqb w (lit "time_initial") then obnd (as_num dbl v) (fun x => Done (mkDyn cs x tf mn mx st cfl fz tn sm rk))
  else if str_eqb w (lit "time_final") then obnd (as_num dbl v) (fun x => Done (mkDyn cs ti x mn mx st cfl fz tn sm rk))
  else if str_eqb w (lit "dt_min") then obnd (as_num dbl v) (fun x => Done (mkDyn cs ti tf x mx st cfl fz tn sm rk))
  else if str_eqb w (lit "dt_max") then obnd (as_num dbl v) (fun x => Done (mkDyn cs ti tf mn x st cfl fz tn sm rk))
  else if str_eqb w (lit "dt_start") then obnd (as_num dbl v) (fun x => Done (mkDyn cs ti tf mn mx x cfl fz tn sm rk))
  else if str_eqb w (lit "dt_cfl") then obnd (as_num dbl v) (fun x => Done (mkDyn cs ti tf mn mx st x fz tn sm rk))
  else if str_eqb w (lit "cycle_stop") then
    obnd (as_num to_int v) (fun x => Done (mkDyn (to_unsigned x) ti tf mn mx st cfl fz tn sm rk))
  else if str_eqb w (lit "fuzz") then obnd (as_num dbl v) (fun x => Done (mkDyn cs ti tf mn mx st cfl x tn sm rk))
  else if str_eqb w (lit "tiny") then obnd (as_num dbl v) (fun x => Done (mkDyn cs ti tf mn mx st cfl fz x sm rk))
  else if str_eqb w (lit "small") then obnd (as_num dbl v) (fun x => Done (mkDyn cs ti tf mn mx st cfl fz tn x rk))
  else if str_eqb w (lit "rk_num_stages") then
    obnd (as_num to_int v) (fun x => Done (mkDyn cs ti tf mn mx st cfl fz tn sm x))
  else Throws UnknownKey.

Definition parse_dynamic_options (root : node) (o : dyn) : out dyn :=
  read_section dyn_step dyn_required (get_key root (lit "dynamic_options")) o.

(* ---------- solvers (parse_solver_inputs.cpp:72-187) ---------- *)

(* solver_inputs.hpp:41-61. *)
Inductive method := MNone | SGH3D | SGHRZ | SGTM3D | LevelSet | TLQS3D.

Definition solver_map : list (str * method) :=
  [(lit "dynx_FE", SGH3D); (lit "dynx_FE_rz", SGHRZ); (lit "thrmex_FE", SGTM3D); (lit "level_set", LevelSet);
   (lit "qstatx_FE", TLQS3D)].

Fixpoint assoc {A} (m : list (str * A)) (k : str) : option A :=
  match m with [] => None | (j, x) :: r => if str_eqb j k then Some x else assoc r k end.

(* solver_inputs.hpp:71-78. *)
Record solver := mkSolver { s_method : method; s_time_end : D; s_heat : bool }.

Definition solver_required : list str := [lit "method"; lit "id"].

(* The words before "method" in 96-128: the identifier, checked against the
   number of solvers and the identifiers met before. *)
Fixpoint find_id (sec : node) (n : nat) (ws : list str) (seen : list bool) (id : option nat) : out (list bool * option nat) :=
  match ws with
  | [] => Done (seen, id)
  | w :: r =>
      if str_eqb w (lit "id") then
        obnd (as_num to_int (get_key sec (lit "id"))) (fun z =>
          if (z <? 0)%Z || (Z.of_nat n <=? z)%Z then Throws BadId
          else let i := Z.to_nat z in
               match nth_error seen i with
               | None => OutOfRange
               | Some true => Throws DuplicateId
               | Some false => find_id sec n r (firstn i seen ++ true :: skipn (S i) seen) (Some i)
               end)
      else find_id sec n r seen id
  end.

(* 131-185, one word; [neg x] = (x < 0). *)
Definition solver_step (neg : D -> bool) (s : solver) (w : str) (v : node) : out solver :=
  if str_eqb w (lit "method") then
    match assoc solver_map (as_string v) with
    | Some m => Done (mkSolver m (s_time_end s) (s_heat s))
    | None => Throws UnknownOption
    end
  else if str_eqb w (lit "id") then Done s
  else if str_eqb w (lit "time_end") then
    obnd (as_num dbl v) (fun t => if neg t then Throws NegativeTime else Done (mkSolver (s_method s) t (s_heat s)))
  else if str_eqb w (lit "use_moving_heat_source") then Done (mkSolver (s_method s) (s_time_end s) (as_bool v))
  else Throws UnknownKey.

Definition put {A} (l : list A) (i : nat) (x : A) : list A := firstn i l ++ x :: skipn (S i) l.

(* One turn of 84-186 for entry [e] of the list. *)
Definition solver_entry (neg : D -> bool) (n : nat) (e : node) (st : list bool * list solver) : out (list bool * list solver) :=
  let sec := get_key e (lit "solver") in
  obnd (validate_inputs sec solver_required) (fun ws =>
  obnd (find_id sec n ws (fst st) None) (fun r =>
    match snd r with
    | None => Throws MissingId
    | Some i =>
        match nth_error (snd st) i with
        | None => OutOfRange
        | Some s0 => obnd (over_words (solver_step neg) sec ws s0) (fun s => Done (fst r, put (snd st) i s))
        end
    end)).

Fixpoint solver_loop (neg : D -> bool) (n : nat) (sec : node) (is : list nat) (st : list bool * list solver)
  : out (list bool * list solver) :=
  match is with
  | [] => Done st
  | i :: r => obnd (solver_entry neg n (get_index sec i) st) (solver_loop neg n sec r)
  end.

(* 72-187; [zero] is the default of time_end, 0.0. *)
Definition parse_solver_input (neg : D -> bool) (zero : D) (root : node) : out (list solver) :=
  let sec := get_key root (lit "solver_options") in
  let n := node_size sec in
  obnd (solver_loop neg n sec (seq 0 n) (repeat false n, repeat (mkSolver MNone zero false) n)) (fun st => Done (snd st)).

(* ---------- mesh (parse_mesh_inputs.cpp:71-313) ---------- *)

Inductive msource := SrcNone | SrcGenerate | SrcFile.
Inductive mtype := Box | Polar.
Definition mesh_source_map : list (str * msource) := [(lit "generate", SrcGenerate); (lit "file", SrcFile)].
Definition mesh_type_map : list (str * mtype) := [(lit "box", Box); (lit "polar", Polar)].

(* mesh_inputs.hpp:78-108; [m_type = None]: never set. *)
Record mesh_in := mkMesh {
  m_dims : Z; m_source : msource; m_path : str; m_type : option mtype;
  m_origin : D * D * D; m_length : D * D * D; m_elems : Z * Z * Z; m_order : Z;
  m_inner : D; m_outer : D; m_start : D; m_ending : D; m_nrad : Z; m_nang : Z;
  m_sx : D; m_sy : D; m_sz : D }.

Definition mesh_required : list str := [lit "source"; lit "num_dims"].

(* std::stod of each number between the brackets: [stod] gives [None] when it
   throws; two numbers are read without looking whether they are there. *)
Definition triple {B} (stod : str -> option B) (zero : B) (v : node) : out (B * B * B) :=
  match StrModel.exact_array_values (as_string v) (lit ",") with
  | None => OutOfRange
  | Some ns =>
      match nth_error ns 0 with
      | None => OutOfRange
      | Some a => match stod a with None => Throws NotANumber | Some x =>
      match nth_error ns 1 with
      | None => OutOfRange
      | Some b => match stod b with None => Throws NotANumber | Some y =>
      if Nat.eqb (List.length ns) 3 then
        match nth_error ns 2 with
        | None => OutOfRange
        | Some c => match stod c with None => Throws NotANumber | Some z => Done (x, y, z) end
        end
      else Done (x, y, zero) end end end end
  end.

Definition pick {A B} (m : list (str * A)) (v : node) (f : A -> B) : out B :=
  match assoc m (as_string v) with Some x => Done (f x) | None => Throws UnknownOption end.

Definition omap {A B} (x : out A) (f : A -> B) : out B := obnd x (fun a => Done (f a)).

(* 86-290, one word without the closing check.  [count] is stod followed by the
   conversion to int. *)
Definition mesh_word (stod : str -> option D) (count : str -> option Z) (zero : D) (o : mesh_in) (w : str) (v : node) : out mesh_in :=
  let '(mkMesh nd src path ty org len els ord inn outr sta en nr na sx sy sz) := o in
  if str_eqb w (lit "source") then pick mesh_source_map v (fun x => mkMesh nd x path ty org len els ord inn outr sta en nr na sx sy sz)
  else if str_eqb w (lit "num_dims") then omap (as_num to_int v) (fun x => mkMesh x src path ty org len els ord inn outr sta en nr na sx sy sz)
  else if str_eqb w (lit "type") then pick mesh_type_map v (fun x => mkMesh nd src path (Some x) org len els ord inn outr sta en nr na sx sy sz)
  else if str_eqb w (lit "file_path") then Done (mkMesh nd src (as_string v) ty org len els ord inn outr sta en nr na sx sy sz)
  else if str_eqb w (lit "origin") then omap (triple stod zero v) (fun x => mkMesh nd src path ty x len els ord inn outr sta en nr na sx sy sz)
  else if str_eqb w (lit "length") then omap (triple stod zero v) (fun x => mkMesh nd src path ty org x els ord inn outr sta en nr na sx sy sz)
  else if str_eqb w (lit "num_elems") then omap (triple count 0%Z v) (fun x => mkMesh nd src path ty org len x ord inn outr sta en nr na sx sy sz)
  else if str_eqb w (lit "polynomial_order") then omap (as_num to_int v) (fun x => mkMesh nd src path ty org len els (to_unsigned x) inn outr sta en nr na sx sy sz)
  else if str_eqb w (lit "inner_radius") then omap (as_num dbl v) (fun x => mkMesh nd src path ty org len els ord x outr sta en nr na sx sy sz)
  else if str_eqb w (lit "outer_radius") then omap (as_num dbl v) (fun x => mkMesh nd src path ty org len els ord inn x sta en nr na sx sy sz)
  else if str_eqb w (lit "starting_angle") then omap (as_num dbl v) (fun x => mkMesh nd src path ty org len els ord inn outr x en nr na sx sy sz)
  else if str_eqb w (lit "ending_angle") then omap (as_num dbl v) (fun x => mkMesh nd src path ty org len els ord inn outr sta x nr na sx sy sz)
  else if str_eqb w (lit "num_radial_elems") then omap (as_num to_int v) (fun x => mkMesh nd src path ty org len els ord inn outr sta en x na sx sy sz)
  else if str_eqb w (lit "num_angular_elems") then omap (as_num to_int v) (fun x => mkMesh nd src path ty org len els ord inn outr sta en nr x sx sy sz)
  else if str_eqb w (lit "scale_x") then omap (as_num dbl v) (fun x => mkMesh nd src path ty org len els ord inn outr sta en nr na x sy sz)
  else if str_eqb w (lit "scale_y") then omap (as_num dbl v) (fun x => mkMesh nd src path ty org len els ord inn outr sta en nr na sx x sz)
  else if str_eqb w (lit "scale_z") then omap (as_num dbl v) (fun x => mkMesh nd src path ty org len els ord inn outr sta en nr na sx sy x)
  else Throws UnknownKey.

(* 292-308: the check after each word. *)
Definition mesh_check (o : mesh_in) : out mesh_in :=
  match m_source o, m_path o with
  | SrcGenerate, _ :: _ => Exits
  | _, _ => Done o
  end.

Definition mesh_step stod count zero (o : mesh_in) (w : str) (v : node) : out mesh_in :=
  obnd (mesh_word stod count zero o w v) mesh_check.

Definition parse_mesh_inputs stod count zero (root : node) (o : mesh_in) : out mesh_in :=
  read_section (mesh_step stod count zero) mesh_required (get_key root (lit "mesh_options")) o.

(* ---------- output options (parse_output_options.cpp:75-260) ---------- *)

Inductive oformat := Viz | State | VizState | Ensight.
Inductive tlevel := Thorough.
Inductive nodef := NCoords | NVel | NTemp | NMass | NForce | NGradLs.
Inductive gaussf := GVolume | GLevelSet | GVelGrad.
Inductive matf := MDen | MPres | MStress | MSie | MSspd | MMass | MVolfrac | MEroded.

(* output_options.hpp:58-115. *)
Definition format_map := [(lit "viz", Viz); (lit "ensight", Ensight); (lit "state", State); (lit "viz_and_state", VizState)].
Definition timer_map := [(lit "thorough", Thorough)].
Definition node_map := [(lit "coords", NCoords); (lit "vel", NVel); (lit "temp", NTemp); (lit "mass", NMass); (lit "force", NForce);
  (lit "grad_level_set", NGradLs)].
Definition gauss_map := [(lit "volume", GVolume); (lit "level_set", GLevelSet); (lit "vel_grad", GVelGrad)].
Definition matpt_map := [(lit "den", MDen); (lit "pres", MPres); (lit "stress", MStress); (lit "sie", MSie); (lit "sspd", MSspd);
  (lit "mass", MMass); (lit "volfrac", MVolfrac); (lit "eroded", MEroded)].
Definition elem_map := [(lit "den", MDen); (lit "pres", MPres); (lit "stress", MStress); (lit "sie", MSie); (lit "sspd", MSspd);
  (lit "mass", MMass)].

(* output_options.hpp:125-140; [None]: never set. *)
Record outopts := mkOut {
  o_format : option oformat; o_timer : option tlevel; o_dt : D; o_it : Z;
  o_elem : list matf; o_node : list nodef; o_gauss : list gaussf; o_mat : list matf }.

(* The loops over the names of a list, e.g. 121-137. *)
Fixpoint names {A} (m : list (str * A)) (v : node) (is : list nat) (acc : list A) : out (list A) :=
  match is with
  | [] => Done acc
  | i :: r => match assoc m (as_string (get_index v i)) with
              | Some x => names m v r (acc ++ [x])
              | None => Throws UnknownOption
              end
  end.

Definition is_sie (f : matf) : bool := match f with MSie => true | _ => false end.
Definition is_mass (f : matf) : bool := match f with MMass => true | _ => false end.

(* 139-158. *)
Definition add_mass (l : list matf) : list matf :=
  if existsb is_sie l && negb (existsb is_mass l) then l ++ [MMass] else l.

Definition out_step (o : outopts) (w : str) (v : node) : out outopts :=
  let '(mkOut f t dt it el no ga ma) := o in
  if str_eqb w (lit "output_file_format") then pick format_map v (fun x => mkOut (Some x) t dt it el no ga ma)
  else if str_eqb w (lit "timer_output_level") then pick timer_map v (fun x => mkOut f (Some x) dt it el no ga ma)
  else if str_eqb w (lit "graphics_time_step") then omap (as_num dbl v) (fun x => mkOut f t x it el no ga ma)
  else if str_eqb w (lit "graphics_iteration_step") then omap (as_num to_int v) (fun x => mkOut f t dt x el no ga ma)
  else if str_eqb w (lit "elem_field_outputs") then
    omap (names elem_map v (seq 0 (node_size v)) el) (fun x => mkOut f t dt it (add_mass x) no ga ma)
  else if str_eqb w (lit "node_field_outputs") then
    omap (names node_map v (seq 0 (node_size v)) no) (fun x => mkOut f t dt it el x ga ma)
  else if str_eqb w (lit "gauss_pt_field_outputs") then
    omap (names gauss_map v (seq 0 (node_size v)) ga) (fun x => mkOut f t dt it el no x ma)
  else if str_eqb w (lit "mat_pt_field_outputs") then
    omap (names matpt_map v (seq 0 (node_size v)) ma) (fun x => mkOut f t dt it el no ga x)
  else Throws UnknownKey.

Definition parse_output_options (root : node) (o : outopts) : out outopts :=
  read_section out_step [] (get_key root (lit "output_options")) o.

(* ---------- boundary conditions (parse_bdy_conds_inputs.cpp:95-752) ---------- *)

Inductive velm := VConstant | VTimeVarying | VReflected | VZero | VUser | VPiston.
Inductive tempm := TConstant | TConvection | TRadiation.
Inductive strm := SConstant | STimeVarying | SUser | SContact | SPreload | SFracture.
Inductive surf := XPlane | YPlane | ZPlane | Cylinder | Sphere | Global.

(* boundary_conditions.hpp:110-165; [None] for "none", which the switch has no
   case for. *)
Definition vel_map : list (str * option velm) := [(lit "none", None); (lit "constant", Some VConstant); (lit "time_varying", Some VTimeVarying);
  (lit "reflected", Some VReflected); (lit "fixed", Some VZero); (lit "user_defined", Some VUser); (lit "piston", Some VPiston)].
Definition temp_map : list (str * option tempm) := [(lit "none", None); (lit "constant", Some TConstant); (lit "convection", Some TConvection);
  (lit "radiation", Some TRadiation)].
Definition str_map : list (str * option strm) := [(lit "none", None); (lit "constant", Some SConstant); (lit "time_varying", Some STimeVarying);
  (lit "user_defined", Some SUser); (lit "global_contact", Some SContact); (lit "preload_contact", Some SPreload); (lit "fracture", Some SFracture)].
Definition surf_map := [(lit "x_plane", XPlane); (lit "y_plane", YPlane); (lit "z_plane", ZPlane); (lit "cylinder", Cylinder);
  (lit "sphere", Sphere); (lit "global", Global)].
Definition loc_map := [(lit "host", true); (lit "device", false)].

(* BoundaryConditionSetup_t, the enums and the global variables of one
   condition; [None]: never set. *)
Record bc := mkBc {
  b_surf : option surf; b_origin : D * D * D; b_value : D; b_tol : D;
  b_vel : option velm; b_temp : option tempm; b_stress : option strm; b_host : option bool;
  b_velv : list D; b_tempv : list D; b_strv : list D }.

Definition surf_step (stod : str -> option D) (zero : D) (b : bc) (w : str) (v : node) : out bc :=
  let '(mkBc s o va to ve te st ho vv tv sv) := b in
  if str_eqb w (lit "type") then pick surf_map v (fun x => mkBc (Some x) o va to ve te st ho vv tv sv)
  else if str_eqb w (lit "plane_position") then omap (as_num dbl v) (fun x => mkBc s o x to ve te st ho vv tv sv)
  else if str_eqb w (lit "radius") then omap (as_num dbl v) (fun x => mkBc s o x to ve te st ho vv tv sv)
  else if str_eqb w (lit "tolerance") then omap (as_num dbl v) (fun x => mkBc s o va x ve te st ho vv tv sv)
  else if str_eqb w (lit "origin") then omap (triple stod zero v) (fun x => mkBc s x va to ve te st ho vv tv sv)
  else Throws UnknownKey.

Fixpoint numbers (v : node) (is : list nat) : out (list D) :=
  match is with
  | [] => Done []
  | i :: r => obnd (as_num dbl (get_index v i)) (fun x => obnd (numbers v r) (fun l => Done (x :: l)))
  end.

(* e.g. 603-624: up to 100 values. *)
Definition globals (v : node) : out (list D) :=
  if 100 <? node_size v then Throws TooMany else numbers v (seq 0 (node_size v)).

(* The lists per solver, and the switches. *)
Record bcsets := mkSets {
  vel_sets : nat -> list nat; temp_sets : nat -> list nat; str_sets : nat -> list nat;
  allow_contact : bool; allow_preload : bool; allow_fracture : bool; fracture_id : Z; max_local : Z; max_global : Z }.

Definition add_set (f : nat -> list nat) (s i : nat) : nat -> list nat :=
  fun t => if Nat.eqb t s then f t ++ [i] else f t.

(* 208-719, one word of condition [id] of solver [sid].  vel_bdy_sets_in_solver
   has room for every condition, and a condition adds itself once. *)
Definition bc_step (stod : str -> option D) (zero : D) (id sid : nat) (st : bcsets * bc) (w : str) (v : node) : out (bcsets * bc) :=
  let '(mkSets vs ts ss ac ap af fi ml mg) := fst st in
  let '(mkBc s o va to ve te sr ho vv tv sv) := snd st in
  if str_eqb w (lit "solver_id") then Done st
  else if str_eqb w (lit "velocity_model") then
    match assoc vel_map (as_string v) with
    | Some (Some m) => Done (mkSets (add_set vs sid id) ts ss ac ap af fi ml mg, mkBc s o va to (Some m) te sr ho vv tv sv)
    | Some None | None => Throws UnknownOption
    end
  else if str_eqb w (lit "temperature_model") then
    match assoc temp_map (as_string v) with
    | Some (Some m) => Done (mkSets vs (add_set ts sid id) ss ac ap af fi ml mg, mkBc s o va to ve (Some m) sr ho vv tv sv)
    | Some None => Throws UnknownOption
    | None => Done (mkSets vs (add_set ts sid id) ss ac ap af fi ml mg, mkBc s o va to ve te sr ho vv tv sv)
    end
  else if str_eqb w (lit "stress_model") then
    match assoc str_map (as_string v) with
    | Some (Some SContact) => Done (mkSets vs ts (add_set ss sid id) true ap af fi ml mg, snd st)
    | Some (Some SPreload) => Done (mkSets vs ts (add_set ss sid id) true true af fi ml mg, snd st)
    | Some (Some SFracture) =>
        Done (mkSets vs ts (add_set ss sid id) ac ap true (Z.of_nat id) ml mg, mkBc s o va to ve te (Some SFracture) ho vv tv sv)
    | Some (Some m) => Done (mkSets vs ts (add_set ss sid id) ac ap af fi ml mg, mkBc s o va to ve te (Some m) ho vv tv sv)
    | Some None | None => Throws UnknownOption
    end
  else if str_eqb w (lit "location") then pick loc_map v (fun x => (fst st, mkBc s o va to ve te sr (Some x) vv tv sv))
  else if str_eqb w (lit "surface") then
    omap (read_section (surf_step stod zero) [] v (snd st)) (fun b => (fst st, b))
  else if str_eqb w (lit "velocity_bc_global_vars") then
    omap (globals v) (fun x => (fst st, mkBc s o va to ve te sr ho x tv sv))
  else if str_eqb w (lit "temperature_bc_global_vars") then
    omap (globals v) (fun x => (fst st, mkBc s o va to ve te sr ho vv x sv))
  else if str_eqb w (lit "stress_bc_global_vars") then
    omap (globals v) (fun x => (fst st, mkBc s o va to ve te sr ho vv tv x))
  else if str_eqb w (lit "contact_bc_vars") then
    if Nat.eqb (node_size v) 2 then
      obnd (as_num to_size (get_index v 0)) (fun a =>
      obnd (as_num to_size (get_index v 1)) (fun b =>
        Done (mkSets vs ts ss ac ap af fi a b, snd st)))
    else Throws TooMany
  else Throws UnknownKey.

Definition bc_required : list str := [lit "solver_id"; lit "surface"].

(* 184-204. *)
Fixpoint bc_solver (sec : node) (n : nat) (ws : list str) (id : option nat) : out (option nat) :=
  match ws with
  | [] => Done id
  | w :: r =>
      if str_eqb w (lit "solver_id") then
        obnd (as_num to_int (get_key sec w)) (fun z =>
          if (z <? 0)%Z || (Z.of_nat n <=? z)%Z then Throws BadId else bc_solver sec n r (Some (Z.to_nat z)))
      else bc_solver sec n r id
  end.

Definition bc_entry stod zero (nsolvers : nat) (b0 : bc) (id : nat) (e : node) (st : bcsets) : out (bcsets * bc) :=
  let sec := get_key e (lit "boundary_condition") in
  obnd (validate_inputs sec bc_required) (fun ws =>
  obnd (bc_solver sec nsolvers ws None) (fun r =>
    match r with
    | None => Throws MissingId
    | Some sid => over_words (bc_step stod zero id sid) sec ws (st, b0)
    end)).

Fixpoint bc_loop stod zero (nsolvers : nat) (b0 : bc) (sec : node) (is : list nat) (st : bcsets) : out (bcsets * list bc) :=
  match is with
  | [] => Done (st, [])
  | i :: r =>
      obnd (bc_entry stod zero nsolvers b0 i (get_index sec i) st) (fun sb =>
      obnd (bc_loop stod zero nsolvers b0 sec r (fst sb)) (fun q => Done (fst q, snd sb :: snd q)))
  end.

(* 95-752; [b0] a condition with its defaults. *)
Definition parse_bcs stod zero (nsolvers : nat) (b0 : bc) (root : node) (st0 : bcsets) : out (bcsets * list bc) :=
  let sec := get_key root (lit "boundary_conditions") in
  bc_loop stod zero nsolvers b0 sec (seq 0 (node_size sec)) st0.

End Numbers.

(* ---------- materials: the identifiers (parse_material_inputs.cpp:103-207) ---------- *)

Definition material_required : list str := [lit "id"].

(* The outcome of the loop over materials before any other word is looked at:
   the identifiers in order of the file.  [find_id] as for the solvers. *)
Fixpoint material_ids (n : nat) (sec : node) (is : list nat) (seen : list bool) : out (list nat) :=
  match is with
  | [] => Done []
  | i :: r =>
      let s := get_key (get_index sec i) (lit "material") in
      obnd (validate_inputs s material_required) (fun ws =>
      obnd (find_id s n ws seen None) (fun q =>
        match snd q with
        | None => Throws MissingId
        | Some id => omap (material_ids n sec r (fst q)) (cons id)
        end))
  end.

Definition parse_material_ids (root : node) : out (list nat) :=
  let sec := get_key root (lit "materials") in
  if Nat.eqb (node_size sec) 0 then Throws NoMaterials
  else material_ids (node_size sec) sec (seq 0 (node_size sec)) (repeat false (node_size sec)).

(* ---------- multimaterial options (parse_material_inputs.cpp:1007-1192) ---------- *)

Inductive equil := NoEquil | Tipton | UserEquil.
Definition equil_map := [(lit "no_equilibration", NoEquil); (lit "tipton", Tipton); (lit "user_defined", UserEquil)].

(* Materials.EquilibrationModels, Materials.GeoEquilibrationModels,
   max_num_mats_per_element; the lists of numbers are left out. *)
Record mm := mkMm { mm_mat : equil; mm_geo : equil; mm_max : Z }.

(* 1049-1188, the words "max_num_mats_per_element", "mat_equilibration_model"
   and "geo_equilibration_model"; the words for the numbers only check that
   there are at least two. *)
Definition mm_step (o : mm) (w : str) (v : node) : out mm :=
  if str_eqb w (lit "max_num_mats_per_element") then omap (as_num to_size v) (fun x => mkMm (mm_mat o) (mm_geo o) x)
  else if str_eqb w (lit "mat_equilibration_model") then pick equil_map v (fun x => mkMm x (mm_geo o) (mm_max o))
  else if str_eqb w (lit "geo_equilibration_model") then pick equil_map v (fun x => mkMm x (mm_geo o) (mm_max o))
  else if str_eqb w (lit "mat_equilibration_global_vars") || str_eqb w (lit "geo_equilibration_global_vars") then
    if node_size v <? 2 then Throws TooMany else Done o
  else Throws UnknownKey.

(* 1014-1031: nothing is done when the root has no such key.  The loop that
   looks for it runs over the root with the iterators above; after the readers
   before it the root is a mapping. *)
Definition parse_multimaterial (root : node) (o : mm) : out mm :=
  match root with
  | NMap m => if mem (lit "multimaterial_options") (map fst m)
              then read_section mm_step [] (get_key root (lit "multimaterial_options")) o else Done o
  | _ => Done o
  end.

(* ---------- regions: the solver of each (parse_regions.cpp:62-138) ---------- *)

Definition region_required : list str := [lit "material_id"; lit "volume"].

(* reg_fills_in_solver as a list per solver.  An identifier outside the solvers
   is used as an index as it is. *)
Fixpoint region_sets (nsolvers : nat) (sec : node) (is : list nat) (f : nat -> list nat) : out (nat -> list nat) :=
  match is with
  | [] => Done f
  | i :: r =>
      let s := get_key (get_index sec i) (lit "region") in
      obnd (validate_inputs s region_required) (fun ws =>
        if mem (lit "solver_id") ws then
          obnd (as_num to_int (get_key s (lit "solver_id"))) (fun z =>
            if (z <? 0)%Z || (Z.of_nat nsolvers <=? z)%Z then OutOfRange
            else region_sets nsolvers sec r (add_set f (Z.to_nat z) i))
        else region_sets nsolvers sec r f)
  end.

Definition parse_region_sets (nsolvers : nat) (root : node) : out (nat -> list nat) :=
  let sec := get_key root (lit "regions") in
  region_sets nsolvers sec (seq 0 (node_size sec)) (fun _ => []).
