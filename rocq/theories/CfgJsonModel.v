(** Model of the reading of the configuration file (src/cfg.cpp:25-475, 720-723) on JSON values, and of the metadata
    written into the file of the results (src/outEngine/outEngineHDF5.cpp:268-389).
    picojson is a library.  What is used of it: an object is a map from names to values (the order of the names, and
    which of two equal names of the text counts, is not modelled), [operator[]] inserts [null] for a missing name,
    [get<T>()] of a value of another type throws [std::runtime_error].  Nothing on the way to [main] catches that
    exception (but for cfg.cpp:218-219), so that it ends the program: [Fatal], as LOG_S(FATAL).
    Numbers are exact, only the conversions to integers are modelled. *)
From Coq Require Import Reals String DecimalString.
From Verif Require Import Base RndUtil PushModel HashModel CfgModel CheckModel.
Open Scope string_scope.

Inductive json : Type :=
| Null
| Bool (b : bool)
| Num (x : Rdefinitions.R)
| Str (s : string)
| Arr (l : list json)
| Obj (m : list (string * json)).

(** [std::map::find] *)
Fixpoint lookup (k : string) (m : list (string * json)) : option json :=
  match m with [] => None | (a, v) :: m => if k =? a then Some v else lookup k m end.
(** [m[k] = v] *)
Fixpoint put (k : string) (v : json) (m : list (string * json)) : list (string * json) :=
  match m with [] => [(k, v)] | (a, w) :: m => if k =? a then (a, v) :: m else (a, w) :: put k v m end.
(** the value of [m[k]] *)
Definition value_of (k : string) (m : list (string * json)) : json := match lookup k m with Some v => v | None => Null end.

(** code that reads a value through a reference and may change it *)
Definition reads (A : Type) : Type := json -> outcome (A * json).
Definition give {A} (o : outcome A) : reads A := fun j => do a <- o; Ok (a, j).
Definition seq {A B} (f : reads A) (k : A -> reads B) : reads B := fun j => do (a, j) <- f j; k a j.
Notation "x <~ f ;; k" := (seq f (fun x => k)) (at level 61, f at next level, right associativity).
Notation "f ;;; k" := (seq f (fun _ => k)) (at level 61, right associativity).
(** [get<double>()], [get<string>()], [get<bool>()], [get<object>()] *)
Definition num : reads Rdefinitions.R := fun j => match j with Num x => Ok (x, j) | _ => Fatal end.
Definition str : reads string := fun j => match j with Str s => Ok (s, j) | _ => Fatal end.
Definition boolean : reads bool := fun j => match j with Bool b => Ok (b, j) | _ => Fatal end.
Definition obj : reads unit := fun j => match j with Obj _ => Ok (tt, j) | _ => Fatal end.
(** [get<object>()[k]] and what is done with that reference *)
Definition key {A} (k : string) (f : reads A) : reads A := fun j =>
  match j with Obj m => do (a, v) <- f (value_of k m); Ok (a, Obj (put k v m)) | _ => Fatal end.
(** [try { s = o[k].get<string>() } catch (...) { s = other }]: the inserted null stays *)
Definition str_or (k other : string) : reads string := fun j =>
  match j with
  | Obj m => Ok (match value_of k m with Str s => s | _ => other end, Obj (put k (value_of k m) m))
  | _ => Fatal
  end.
(** [for (i = l.begin(); ...)] over [get<array>()], with what was read before *)
Fixpoint each {A} (f : list A -> reads A) (acc : list A) (l : list json) : outcome (list A * list json) :=
  match l with
  | [] => Ok (acc, [])
  | x :: l => do (a, x) <- f acc x; do (r, l) <- each f (acc ++ [a]) l; Ok (r, x :: l)
  end.
Definition items {A} (f : list A -> reads A) : reads (list A) := fun j =>
  match j with Arr l => do (r, l) <- each f [] l; Ok (r, Arr l) | _ => Fatal end.
(** the assignment [json_data.get<object>()[k] = v] *)
Definition assign (k : string) (v : json) : reads unit := fun j =>
  match j with Obj m => Ok (tt, Obj (put k v m)) | _ => Fatal end.
Definition stop_if (b : bool) : reads unit := give (if b then Fatal else Ok tt).

(** what ./configure decides (configure.ac:148-273): each of the names is defined for every accepted set of options *)
Record build : Type :=
  { has_pml : bool; has_ext : bool; single : bool; debug : bool; ieee : bool; spatial : string; velocity_distr : string; pusher : string;
    deposition : string; package : string; version : string; flags : string; deps : string }.
(** cfg.cpp:65-121 *)
Definition build_options (b : build) : json :=
  Obj [("package_version", Str (version b)); ("debug", Bool (debug b)); ("ieee", Bool (ieee b));
       ("plasma_spatial_distribution", Str (spatial b)); ("plasma_velocity_distribution", Str (velocity_distr b));
       ("particles_pusher", Str (pusher b)); ("current_deposition", Str (deposition b)); ("maxwell_solver", Str "yee");
       ("build_flags", Str (flags b))].

(** ** Geometry: cfg.cpp:377-428 *)
Record layers : Type := { l_left : Z; l_outer : Z; l_right : Z; l_s1 : Rdefinitions.R; l_s2 : Rdefinitions.R }.
Record area : Type := { a_radius : Rdefinitions.R; a_longitude : Rdefinitions.R; a_nr : Z; a_nz : Z; a_pml : option layers; a_dom_r : Z; a_dom_z : Z }.
(** geometry.hpp:56-64: [global_size / (size / cell_amount)] of a size zero is not a number, its conversion undefined *)
Definition sized (x : Rdefinitions.R) : reads unit := give (if req x 0 then UB else Ok tt).
Definition read_layers (nr nz : Z) : reads layers :=
  key "pml" (
    obj ;;;
    left <~ key "left_wall" num ;; right <~ key "right_wall" num ;; outer <~ key "outer_wall" num ;;
    s1 <~ key "sigma_1" num ;; s2 <~ key "sigma_2" num ;;
    l <~ give (read_pml left nz) ;; o <~ give (read_pml outer nr) ;; r <~ give (read_pml right nz) ;;
    give (Ok {| l_left := l; l_outer := o; l_right := r; l_s1 := s1; l_s2 := s2 |})).
Definition read_geometry (b : build) : reads area :=
  key "geometry" (
    obj ;;; key "size" obj ;;; key "grid" obj ;;;
    radius <~ key "size" (key "radius" num) ;; longitude <~ key "size" (key "longitude" num) ;;
    nr <~ (x <~ key "grid" (key "radius" num) ;; give (to_u64 x)) ;;
    nz <~ (x <~ key "grid" (key "longitude" num) ;; give (to_u64 x)) ;;
    pml <~ (if has_pml b then l <~ read_layers nr nz ;; give (Ok (Some l)) else give (Ok None)) ;;
    sized radius ;;; sized longitude ;;;
    dr <~ (if single b then give (Ok 1%Z) else x <~ key "domains_amount" (key "radius" num) ;; give (read_domains x)) ;;
    dz <~ (if single b then give (Ok 1%Z) else x <~ key "domains_amount" (key "longitude" num) ;; give (read_domains x)) ;;
    give (Ok {| a_radius := radius; a_longitude := longitude; a_nr := nr; a_nz := nz; a_pml := pml; a_dom_r := dr; a_dom_z := dz |})).

(** ** Time: cfg.cpp:430-439 *)
Record clock : Type := { t_start : Rdefinitions.R; t_end : Rdefinitions.R; t_step : Rdefinitions.R; t_current : Rdefinitions.R }.
Definition read_time : reads clock :=
  key "time" (
    obj ;;; s <~ key "start" num ;; e <~ key "end" num ;; d <~ key "step" num ;;
    give (Ok {| t_start := s; t_end := e; t_step := d; t_current := 0 |})).

(** ** Species: cfg.cpp:162-199 *)
Record species : Type := { s_id : Z; s_name : string; s_mass : Z; s_charge : Z; s_left : Rdefinitions.R; s_right : Rdefinitions.R; s_temp : Rdefinitions.R }.
Definition known {A} (name : A -> string) (l : list A) (n : string) : bool := existsb (fun a => name a =? n) l.
Definition read_species1 (before : list species) : reads species :=
  obj ;;;
  name <~ key "name" str ;;
  stop_if (known s_name before name) ;;;
  mass <~ (x <~ key "mass" num ;; give (to_s32 x)) ;;
  charge <~ (x <~ key "charge" num ;; give (to_s32 x)) ;;
  left <~ key "density" num ;; right <~ key "density" num ;; temp <~ key "temperature" num ;;
  give (Ok {| s_id := specie_id name; s_name := name; s_mass := u32 mass; s_charge := charge; s_left := left; s_right := right; s_temp := temp |}).
Definition read_species : reads (list species) := key "particles" (items read_species1).

(** ** Beams: cfg.cpp:326-375; [bunches_amount] is an [int] (cfg.hpp:107) *)
Record beam : Type :=
  { b_id : Z; b_name : string; b_mass : Z; b_charge : Z; b_start : Rdefinitions.R; b_velocity : Rdefinitions.R; b_amount : Z; b_distance : Rdefinitions.R;
    b_length : Rdefinitions.R; b_radius : Rdefinitions.R; b_density : Rdefinitions.R; b_radial : string; b_longitudinal : string }.
Definition read_beam1 (before : list beam) : reads beam :=
  obj ;;; key "bunch" obj ;;;
  name <~ key "name" str ;;
  stop_if (known b_name before ("beam_" ++ name)) ;;;
  mass <~ (x <~ key "mass" num ;; give (to_s32 x)) ;;
  charge <~ (x <~ key "charge" num ;; give (to_s32 x)) ;;
  start <~ key "start_time" num ;; velocity <~ key "velocity" num ;;
  amount <~ (x <~ key "bunch" (key "amount" num) ;; give (to_s32 x)) ;;
  distance <~ key "bunch" (key "distance" num) ;;
  length <~ key "bunch" (key "length" num) ;;
  radius <~ key "bunch" (key "radius" num) ;;
  density <~ key "bunch" (key "density" num) ;;
  radial <~ key "bunch" (key "profile" (key "radial" str)) ;;
  longitudinal <~ key "bunch" (key "profile" (key "longitudinal" str)) ;;
  give (Ok {| b_id := beam_id name; b_name := "beam_" ++ name; b_mass := u32 mass; b_charge := charge; b_start := start; b_velocity := velocity;
    b_amount := amount; b_distance := distance; b_length := length; b_radius := radius; b_density := density;
    b_radial := radial; b_longitudinal := longitudinal |}).
Definition read_beams : reads (list beam) := key "beams" (items read_beam1).

(** ** Output: cfg.cpp:441-452 *)
Record output : Type := { o_root : string; o_compress : bool; o_level : Z }.
Definition read_output : reads output :=
  key "data" (
    obj ;;; root <~ key "data_root" str ;; use <~ key "compression" (key "use" boolean) ;;
    level <~ (x <~ key "compression" (key "level" num) ;; give (to_s32 x)) ;;
    give (Ok {| o_root := root; o_compress := use; o_level := level |})).

(** ** Probes: cfg.cpp:201-324 *)
Record prob : Type := { p_component : string; p_specie : string; p_path : string; p_probe : probe }.
(** [to_string] of a [size_t] *)
Definition to_string (n : Z) : string := NilZero.string_of_uint (N.to_uint (Z.to_N n)).
(** cfg.cpp:226-231 *)
Definition of_particles (component : string) : bool :=
  (component =? "temperature") || (component =? "energy") || (component =? "momentum/r") || (component =? "momentum/phi") ||
  (component =? "momentum/z") || (component =? "density").
(** cfg.cpp:233-299: what is read depends on the shape; the conversions and the stores into [dims], which is empty
    (undefined), are those of [probe_shape] *)
Definition desc (shape : string) (r0 z0 r1 z1 r z s : Rdefinitions.R) : probe_desc :=
  {| d_shape := shape; d_start_r := r0; d_start_z := z0; d_end_r := r1; d_end_z := z1; d_r := r; d_z := z; d_schedule := s |}.
Definition rec_path (v : list Z) : string :=
  match v with
  | [r0; z0; r1; z1] => "rec/" ++ to_string r0 ++ "-" ++ to_string r1 ++ "_" ++ to_string z0 ++ "-" ++ to_string z1
  | _ => ""
  end.
Definition read_shape (shape : string) : reads (Z * list Z * string) :=
  if shape =? "rec" then
    r0 <~ (x <~ key "start" (key "r" num) ;; give (to_u64 x)) ;; z0 <~ (x <~ key "start" (key "z" num) ;; give (to_u64 x)) ;;
    r1 <~ (x <~ key "end" (key "r" num) ;; give (to_u64 x)) ;; z1 <~ (x <~ key "end" (key "z" num) ;; give (to_u64 x)) ;;
    give (Ok (0%Z, [r0; z0; r1; z1], rec_path [r0; z0; r1; z1]))
  else if shape =? "col" then give (do (n, v) <- probe_shape (desc shape 0 0 0 0 0 0 0); Ok (n, v, ""))
  else if (shape =? "row") || (shape =? "dot") then
    r <~ key "r" num ;; give (do (n, v) <- probe_shape (desc shape 0 0 0 0 r 0 0); Ok (n, v, ""))
  else give Fatal.
(** cfg.cpp:209-323 *)
Definition read_probe1 (nr nz : Z) (before : list prob) : reads prob :=
  obj ;;;
  component <~ key "component" str ;;
  specie <~ str_or "specie" "unknown" ;;
  shape <~ key "shape" str ;;
  sv <~ read_shape shape ;;
  schedule <~ (x <~ key "schedule" num ;; give (to_s32 x)) ;;
  let '(n, v, tail) := sv in
  d0 <~ give (vec_get v 0) ;; d1 <~ give (vec_get v 1) ;; d2 <~ give (vec_get v 2) ;; d3 <~ give (vec_get v 3) ;;
  stop_if ((d2 <? d0) || (d3 <? d1) || (nr <? d2) || (nz <? d3))%Z ;;;
  give (Ok {| p_component := component; p_specie := specie;
    p_path := component ++ "/" ++ (if of_particles component then specie ++ "/" else "") ++ tail;
    p_probe := {| p_shape := n; p_dims := v; p_schedule := u32 schedule |} |}).
Definition read_probes (nr nz : Z) : reads (list prob) := key "data" (obj ;;; key "probes" (items (read_probe1 nr nz))).

(** ** External fields: cfg.cpp:455-486 *)
Record outside : Type := { f_name : string; f_form : string; f_params : list Rdefinitions.R }.
Definition read_outside1 (name : string) : reads outside :=
  key name (
    obj ;;; form <~ key "formfactor" str ;; params <~ key "params" (items (fun _ => num)) ;;
    give (Ok {| f_name := name; f_form := form; f_params := params |})).
Definition read_outside : reads (list outside) :=
  key "external_fields" (
    obj ;;; e <~ read_outside1 "electric" ;; h <~ read_outside1 "magnetic" ;; give (Ok [e; h])).

(** ** The constructor: cfg.cpp:22-156 *)
Record settings : Type :=
  { c_log : string; c_macro : Rdefinitions.R; c_ratio : Z; c_area : area; c_time : clock; c_particles : list species; c_beams : list beam;
    c_amounts : list Z; c_output : output; c_probes : list prob; c_outside : list outside; c_messages : list message }.
(** cfg.cpp:489-571: without cells, or for a sum of zero, the quotient is not finite: its conversion is undefined, if there is one *)
Definition share (a : area) (macro : Rdefinitions.R) (ratio : Z) (ss : list species) (bs : list beam) : outcome (list Z) :=
  let dr := (a_radius a / IZR (a_nr a))%R in
  let dz := (a_longitude a / IZR (a_nz a))%R in
  let l := map (fun b => {| bunch_radius := b_radius b; bunch_length := b_length b; bunches_amount := b_amount b |}) bs in
  if (a_nr a =? 0)%Z || (a_nz a =? 0)%Z || req (norm_sum (fun x => x) (a_nr a) (a_nz a) dr dz ratio (List.length ss) l) 0 then
    match ss, bs with [], [] => Ok [] | _, _ => UB end
  else weight_macro_amount (fun x => x) (a_nr a) (a_nz a) dr dz ratio macro (List.length ss) l.
Definition with_amount (s : species) (n : Z) : specie :=
  {| sp_name := s_name s; sp_mass := s_mass s; sp_charge := s_charge s; sp_macro := IZR n; sp_left := s_left s; sp_right := s_right s; sp_temp := s_temp s |}.
Definition limits (a : area) (t : clock) (ss : list species) (amounts : list Z) : config :=
  {| c_dom_r := a_dom_r a; c_dom_z := a_dom_z a; c_nr := a_nr a; c_dr := (a_radius a / IZR (a_nr a))%R; c_dz := (a_longitude a / IZR (a_nz a))%R;
     c_size_r := a_radius a; c_size_z := a_longitude a; c_step := t_step t;
     c_species := map (fun '(s, n) => with_amount s n) (combine ss amounts) |}.
Definition read_cfg (light : Rdefinitions.R) (b : build) : reads settings :=
  log <~ key "log_file" str ;;
  assign "build_options" (build_options b) ;;;
  macro <~ key "macro_amount" num ;;
  ratio <~ (x <~ key "beam_plasma_macro_size_ratio" num ;; give (to_u32 x)) ;;
  a <~ read_geometry b ;;
  t <~ read_time ;;
  ss <~ read_species ;;
  bs <~ read_beams ;;
  amounts <~ give (share a macro ratio ss bs) ;;
  out <~ read_output ;;
  ps <~ read_probes (a_nr a) (a_nz a) ;;
  fs <~ (if has_ext b then read_outside else give (Ok [])) ;;
  msgs <~ give (method_check light (limits a t ss amounts)) ;;
  give (Ok {| c_log := log; c_macro := macro; c_ratio := ratio; c_area := a; c_time := t; c_particles := ss; c_beams := bs; c_amounts := amounts;
    c_output := out; c_probes := ps; c_outside := fs; c_messages := msgs |}).

(** ** The metadata: outEngineHDF5.cpp:268-389 *)
Inductive attribute : Type := Text (s : string) | Flag (b : bool) | Dump (j : json).
(** [value] is a copy; the text of [serialize()] is made before anything is read from it.  A new file has no attributes,
    so that each [createAttribute] succeeds. *)
Definition option_str (k : string) : reads string := key "build_options" (key k str).
Definition option_flag (k : string) : reads bool := key "build_options" (key k boolean).
Definition metadata_rest (b : build) (dump : json) : reads (list (string * attribute)) :=
  dbg <~ option_flag "debug" ;; iee <~ option_flag "ieee" ;;
  cur <~ option_str "current_deposition" ;; slv <~ option_str "maxwell_solver" ;; psh <~ option_str "particles_pusher" ;;
  vel <~ option_str "plasma_velocity_distribution" ;; spa <~ option_str "plasma_spatial_distribution" ;;
  com <~ key "comment" str ;;
  give (Ok [("metadata", Dump dump); ("software", Text (package b)); ("softwareVersion", Text (version b));
    ("softwareBuildFlags", Text (flags b)); ("softwareDependencies", Text (deps b));
    ("softwareConfigDebug", Flag dbg); ("softwareConfigIEEE", Flag iee); ("softwareConfigCurrentDeposition", Text cur);
    ("softwareConfigFieldSolver", Text slv); ("softwareConfigParticlesPusher", Text psh);
    ("softwareConfigPlasmaVelocityDistribution", Text vel); ("softwareConfigPlasmaSpatialDistribution", Text spa);
    ("comment", Text com)]).
Definition write_metadata (b : build) (j : json) : outcome (list (string * attribute)) :=
  do (l, _) <- metadata_rest b j j; Ok l.
(** PiCoPiC.cpp:185 (the configuration), 281 and outController.cpp:40-44: the metadata, before anything is calculated *)
Definition start (light : Rdefinitions.R) (b : build) (j : json) : outcome (settings * list (string * attribute)) :=
  do (c, j) <- read_cfg light b j;
  match c_probes c with [] => UB | _ => do l <- write_metadata b j; Ok (c, l) end.
