(** Model of the library that reads the results (lib/python/picopic: reader.py, h5_reader.py, meta_reader.py), and of the
    growth of the dataset of a rectangular probe over the steps (src/outController.cpp:341-351, src/outWriter.cpp:49-72,
    src/outEngine/outEngineHDF5.cpp:203-221), which the library reads.
    h5py, numpy and HDF5 are libraries.  What is used of them: the names of an HDF5 path are separated by slashes, empty
    names and "." are ignored; new frames of a dataset are zero; indexing with a negative number counts from the end and
    fails outside; [np.zeros] fails for negative sizes; an assignment to a part of an array broadcasts.
    Messages (verbose), the cache and the use of strings as numbers of frames (h5_reader.py:88, not used) are left out. *)
From Coq Require Import Reals String Ascii DecimalString.
From Verif Require Import Base GridModel OutModel ProbeModel RndUtil PushModel CfgJsonModel.
Open Scope Z_scope.

(** * Python *)
Inductive exc : Type := KeyError | IndexError | TypeError | AttributeError | ValueError | NameError.
Inductive py (A : Type) : Type := Val (a : A) | Raise (e : exc).
Arguments Val {A}. Arguments Raise {A}.
Definition pbind {A B} (m : py A) (k : A -> py B) : py B := match m with Val a => k a | Raise e => Raise e end.
Notation "x <-- m ; k" := (pbind m (fun x => k)) (at level 61, m at next level, right associativity).

(** * numpy arrays: sizes of the axes, values *)
Section Arrays.
Context {T : Type}.
Variable zero : T.
Record nd : Type := mkNd { dims : list Z; at_ : list Z -> T }.
Definition zeros (d : list Z) : py nd := if forallb (fun n => 0 <=? n) d then Val (mkNd d (fun _ => zero)) else Raise ValueError.
(** position [i] of an axis with [n] values *)
Definition position (i n : Z) : py Z :=
  let i := if i <? 0 then i + n else i in if (0 <=? i) && (i <? n) then Val i else Raise IndexError.
(** [a[i]] and [a[:, i]] *)
Definition index (a : nd) (i : Z) : py nd :=
  match dims a with
  | [] => Raise IndexError
  | n :: d => i <-- position i n; Val (mkNd d (fun l => at_ a (i :: l)))
  end.
Definition index2 (a : nd) (i : Z) : py nd :=
  match dims a with
  | m :: n :: d => i <-- position i n; Val (mkNd (m :: d) (fun l => match l with x :: l => at_ a (x :: i :: l) | [] => zero end))
  | _ => Raise IndexError
  end.
(** whether an array of sizes [v] can be assigned to one of sizes [t], and where its values come from; last axis first *)
Fixpoint broadcast (v t : list Z) : bool :=
  match v, t with
  | [], _ => true
  | a :: v, b :: t => ((a =? b) || (a =? 1)) && broadcast v t
  | a :: v, [] => (a =? 1) && broadcast v []
  end.
Fixpoint pick (v l : list Z) : list Z :=
  match v, l with
  | [], _ => []
  | a :: v, i :: l => (if a =? 1 then 0 else i) :: pick v l
  | a :: v, [] => 0 :: pick v []
  end.
(** [a[i] = v] *)
Definition store (a : nd) (i : Z) (v : nd) : py nd :=
  match dims a with
  | [] => Raise IndexError
  | n :: d =>
    i <-- position i n;
    if broadcast (rev (dims v)) (rev d) then
      Val (mkNd (dims a) (fun l => match l with
        | x :: l' => if x =? i then at_ v (rev (pick (rev (dims v)) (rev l'))) else at_ a l
        | [] => at_ a l end))
    else Raise ValueError
  end.
(** [for i in range(start, start + k): a[i - start] = f(i)], with [s] for the start of all *)
Fixpoint fill (f : Z -> py nd) (s i : Z) (k : nat) (a : nd) : py nd :=
  match k with
  | O => Val a
  | S k => v <-- f i; a <-- store a (i - s) v; fill f s (i + 1) k a
  end.

(** * The file *)
Inductive node : Type := Group (members : Z) | Data (a : nd).
Definition h5file : Type := list string -> option node.
Definition of_rec (ds : dataset T) : node :=
  Data (mkNd [frames ds; n0 ds; n1 ds] (fun l => match l with [f; a; b] => dat ds f a b | _ => zero end)).
Definition of_line (ds : vds T) : node :=
  Data (mkNd [v_frames ds; v_n ds] (fun l => match l with [f; a] => v_dat ds f a | _ => zero end)).
(** the names of a path *)
Fixpoint split (s : string) : string * list string :=
  match s with
  | EmptyString => (EmptyString, [])
  | String c s => let '(a, l) := split s in if Ascii.eqb c "/" then (EmptyString, a :: l) else (String c a, l)
  end.
Definition is_name (s : string) : bool := negb (String.eqb s "" || String.eqb s ".").
Definition names (s : string) : list string := let '(a, l) := split s in filter is_name (a :: l).

(** * reader.py, h5_reader.py *)
(** [format] of an integer *)
Definition str_of (n : Z) : string := if n <? 0 then ("-" ++ to_string (- n))%string else to_string n.
(** a list of four integers *)
Definition quad : Type := (Z * Z * Z * Z)%type.
Definition s0 (q : quad) : Z := let '(a, b, c, d) := q in a.
Definition s1 (q : quad) : Z := let '(a, b, c, d) := q in b.
Definition s2 (q : quad) : Z := let '(a, b, c, d) := q in c.
Definition s3 (q : quad) : Z := let '(a, b, c, d) := q in d.
Inductive ptype : Type := PRec | PCol | PRow | PDot.
(** reader.py:51-63 *)
Definition ds_path (component : string) (t : ptype) (shape : quad) : string :=
  match t with
  | PRec => "/" ++ component ++ "/rec/" ++ str_of (s0 shape) ++ "-" ++ str_of (s2 shape) ++ "_" ++ str_of (s1 shape) ++ "-" ++ str_of (s3 shape)
  | PCol => "/" ++ component ++ "/col/" ++ str_of (s3 shape)
  | PRow => "/" ++ component ++ "/row/" ++ str_of (s2 shape)
  | PDot => "/" ++ component ++ "/dot/" ++ str_of (s3 shape) ++ "_" ++ str_of (s2 shape)
  end%string.
(** [self.file[path]] *)
Definition file_get (f : h5file) (p : string) : py node := match f (names p) with Some n => Val n | None => Raise KeyError end.
(** [self.file[path][number]]: a group is indexed with names only *)
Definition frame_get (f : h5file) (p : string) (number : Z) : py nd :=
  n <-- file_get f p; match n with Data a => index a number | Group _ => Raise TypeError end.
(** reader.py:66-70 *)
Definition rec_size (shape : quad) : Z * Z := (s2 shape - s0 shape, s3 shape - s1 shape).
(** reader.py:103-126 *)
Definition validate (number : Z) : py unit := if number <? 0 then Raise IndexError else Val tt.
(** h5_reader.py:72-76: a dataset has no [keys] *)
Definition ds_range (f : h5file) (c : string) (t : ptype) (shape : quad) : py Z :=
  n <-- file_get f (ds_path c t shape); match n with Group k => Val k | Data _ => Raise AttributeError end.
(** h5_reader.py:79-96 *)
Definition rec_ (f : h5file) (c : string) (shape : quad) (number : Z) : py nd := frame_get f (ds_path c PRec shape) number.
(** h5_reader.py:99-113 *)
Definition col_ (f : h5file) (c : string) (z number : Z) : py nd :=
  let shape := (0, 0, z, 0) in _ <-- validate number; frame_get f (ds_path c PCol shape) number.
(** h5_reader.py:116-130 *)
Definition row_ (f : h5file) (c : string) (r number : Z) : py nd :=
  let shape := (0, 0, 0, r) in _ <-- validate number; frame_get f (ds_path c PRow shape) number.
(** h5_reader.py:133-147 *)
Definition dot_ (f : h5file) (c : string) (r z number : Z) : py nd :=
  let shape := (0, 0, z, r) in _ <-- validate number; frame_get f (ds_path c PDot shape) number.
(** h5_reader.py:150-162 *)
Definition col_rec (f : h5file) (c : string) (z : Z) (shape : quad) (number : Z) : py nd := a <-- rec_ f c shape number; index2 a z.
Definition row_rec (f : h5file) (c : string) (r : Z) (shape : quad) (number : Z) : py nd := a <-- rec_ f c shape number; index a r.
Definition dot_rec (f : h5file) (c : string) (r z : Z) (shape : quad) (number : Z) : py nd :=
  a <-- rec_ f c shape number; a <-- index a r; index a z.

(** the ranges of frames; [range(start, end)] is empty for [end <= start] *)
Definition till (f : h5file) (c : string) (t : ptype) (shape : quad) (stop : option Z) : py Z :=
  match stop with Some e => Val e | None => ds_range f c t shape end.
Definition collect (f : Z -> py nd) (start stop : Z) (a : nd) : py nd := fill f start start (Z.to_nat (stop - start)) a.
(** h5_reader.py:165-177 *)
Definition rec_range (f : h5file) (c : string) (shape : quad) (start : Z) (stop : option Z) : py nd :=
  e <-- till f c PRec shape stop;
  a <-- zeros [e - start; fst (rec_size shape); snd (rec_size shape)];
  collect (rec_ f c shape) start e a.
(** reader.py:225-236; the list given to [col] for [z] stands where the path of a column does not look *)
Definition col_range (nr : Z) (f : h5file) (c : string) (z start : Z) (stop : option Z) : py nd :=
  e <-- till f c PCol (0, 0, 0, z) stop;
  a <-- zeros [start - e; nr];
  collect (col_ f c 0) start e a.
(** reader.py:239-250 *)
Definition row_range (nz : Z) (f : h5file) (c : string) (r start : Z) (stop : option Z) : py nd :=
  e <-- till f c PRow (0, 0, r, 0) stop;
  a <-- zeros [e - start; nz];
  collect (row_ f c r) start e a.
(** reader.py:253-263 *)
Definition dot_range (f : h5file) (c : string) (r z start : Z) (stop : option Z) : py nd :=
  e <-- till f c PDot (0, 0, r, z) stop;
  a <-- zeros [e - start];
  collect (dot_ f c r z) start e a.
(** reader.py:266-305: without an end, the name [shape] is not defined *)
Definition till_rec (stop : option Z) : py Z := match stop with Some e => Val e | None => Raise NameError end.
Definition col_rec_range (nr : Z) (f : h5file) (c : string) (z : Z) (shape : quad) (start : Z) (stop : option Z) : py nd :=
  e <-- till_rec stop; a <-- zeros [e - start; nr]; collect (col_rec f c z shape) start e a.
Definition row_rec_range (nz : Z) (f : h5file) (c : string) (r : Z) (shape : quad) (start : Z) (stop : option Z) : py nd :=
  e <-- till_rec stop; a <-- zeros [e - start; nz]; collect (row_rec f c r shape) start e a.
Definition dot_rec_range (f : h5file) (c : string) (r z : Z) (shape : quad) (start : Z) (stop : option Z) : py nd :=
  e <-- till_rec stop; a <-- zeros [e - start]; collect (dot_rec f c r z shape) start e a.

(** * The dataset of a rectangular probe over the steps *)
(** outEngineHDF5.cpp:118-146: one frame of zeros *)
Definition create_rec (p0 p1 p2 p3 : Z) : dataset T := mkDs create_frames (p2 - p0) (p3 - p1) (fun _ _ _ => zero).
(** outEngineHDF5.cpp:203-221 *)
Definition extend_rec (ds : dataset T) (num : Z) : dataset T :=
  mkDs (extend_frames (frames ds) num) (n0 ds) (n1 ds) (fun f a b => if f <? frames ds then dat ds f a b else zero).
(** the output of step [n], see [output_step] *)
Definition output_rec (R C : Z) (br bz : Z -> Z) (G : Z -> Z -> grid T) (p0 p1 p2 p3 schedule n : Z) (ds : dataset T) : outcome (dataset T) :=
  if schedule =? 0 then UB else
  let ds := if n mod schedule =? 0 then extend_rec ds (n / schedule) else ds in
  let ws := u16 schedule in
  if ws =? 0 then UB else
  if n mod ws =? 0 then write_probe zero R C br bz G p0 p1 p2 p3 (n / ws) ds else Ok ds.
(** the outputs of steps 0, 1, ..., k-1; [G n]: the grids at step [n] *)
Fixpoint record_rec (R C : Z) (br bz : Z -> Z) (G : Z -> Z -> Z -> grid T) (p0 p1 p2 p3 schedule : Z) (k : nat) : outcome (dataset T) :=
  match k with
  | O => Ok (create_rec p0 p1 p2 p3)
  | S k => do ds <- record_rec R C br bz G p0 p1 p2 p3 schedule k;
           output_rec R C br bz (G (Z.of_nat k)) p0 p1 p2 p3 schedule (Z.of_nat k) ds
  end.
End Arrays.
Arguments nd : clear implicits.
Arguments node : clear implicits.
Arguments h5file : clear implicits.

(** * meta_reader.py *)
(** [round] of Python: to the nearest integer, of two to the even one *)
Definition py_round (x : Rdefinitions.R) : Z :=
  let n := Int_part x in
  let d := (x - IZR n)%R in
  if rlt d (1 / 2) then n else if rlt (1 / 2) d then n + 1 else if Z.even n then n else n + 1.
(** meta_reader.py:144-151 *)
Definition frame_number_by_timestamp (step t interval : Rdefinitions.R) : Z := py_round (t / step / interval).
Definition timestamp_by_frame_number (step : Rdefinitions.R) (f : Z) (interval : Rdefinitions.R) : Rdefinitions.R := (IZR f * step * interval)%R.
(** meta_reader.py:172-185, for radius and longitude alike *)
Definition row_by_radius (grid size radius : Rdefinitions.R) : Z := py_round (radius * grid / size).
Definition radius_by_row (grid size : Rdefinitions.R) (row : Z) : Rdefinitions.R := (IZR row * size / grid)%R.

(** [d[k]] of what [json.loads] gives: objects are dictionaries *)
Definition item (k : string) (j : json) : py json :=
  match j with Obj m => match lookup k m with Some v => Val v | None => Raise KeyError end | _ => Raise TypeError end.
Fixpoint items_ (p : list string) (j : json) : py json :=
  match p with [] => Val j | k :: p => v <-- item k j; items_ p v end.
(** [for i in l] *)
Fixpoint each_ {A} (f : json -> py A) (l : list json) : py (list A) :=
  match l with [] => Val [] | x :: l => a <-- f x; r <-- each_ f l; Val (a :: r) end.
(** iterating over a dictionary gives names, over a string letters; [i['name']] of them is a TypeError *)
Definition for_in {A} (f : json -> py A) (j : json) : py (list A) :=
  match j with
  | Arr l => each_ f l
  | Obj m => each_ f (map (fun kv => Str (fst kv)) m)
  | Str s => match s with EmptyString => Val [] | _ => each_ f [Str s] end
  | _ => Raise TypeError
  end.
Definition each_path (l : list (list string)) (j : json) : py (list json) := 
  (fix go l := match l with [] => Val [] | p :: l => v <-- items_ p j; r <-- go l; Val (v :: r) end) l.
Open Scope string_scope.
(** what MetaReader keeps (meta_reader.py:70-141): lists of values, in the order of the lines *)
Record meta : Type := mkMeta
  { m_size : list json; m_grid : list json; m_domains : list json; m_pml : list json; m_time : list json;
    m_species : list (list json); m_beams : list (list json); m_compression : list json;
    m_probes : list (list json * list json * option json); m_plot : list json }.
(** meta_reader.py:78-82: name, density, density, temperature, charge, mass *)
Definition meta_species : json -> py (list json) := each_path [["name"]; ["density"]; ["density"]; ["temperature"]; ["charge"]; ["mass"]].
(** meta_reader.py:85-89 *)
Definition meta_beam : json -> py (list json) :=
  each_path [["name"]; ["velocity"]; ["charge"]; ["mass"]; ["start_time"]; ["bunch"; "density"]; ["bunch"; "amount"]; ["bunch"; "length"];
             ["bunch"; "radius"]; ["bunch"; "distance"]].
Definition j_eqb (v : json) (s : string) : bool := match v with Str t => t =? s | _ => false end.
(** meta_reader.py:108-125: shape, component, schedule; size; species.  [size]: what the probe before left *)
Fixpoint meta_probes (size : list json) (l : list json) : py (list (list json * list json * option json)) :=
  match l with
  | [] => Val []
  | i :: l =>
    let specie := match item "specie" i with Val v => Some v | Raise _ => None end in
    sh <-- item "shape" i;
    size <-- (if j_eqb sh "rec" then each_path [["start"; "r"]; ["start"; "z"]; ["end"; "r"]; ["end"; "z"]] i
              else if j_eqb sh "row" then r <-- item "r" i; Val [r; Num 0; Num (-1); Num (-1)]
              else if j_eqb sh "col" then z <-- item "z" i; Val [Num 0; z; Num (-1); Num (-1)]
              else if j_eqb sh "dot" then r <-- item "r" i; z <-- item "z" i; Val [r; z; Num (-1); Num (-1)]
              else Val size);
    what <-- each_path [["shape"]; ["component"]; ["schedule"]] i;
    if j_eqb sh "rec" || j_eqb sh "row" || j_eqb sh "col" || j_eqb sh "dot" then
      r <-- meta_probes size l; Val ((what, size, specie) :: r)
    else Raise ValueError
  end.
(** meta_reader.py:97: [str.startswith] wants a string *)
Definition a_string (j : json) : py unit := match j with Str _ => Val tt | _ => Raise TypeError end.
(** meta_reader.py:127-141 *)
Definition plot_keys : list (list string) :=
  [["data"; "plot"; "subplot"; "cmap"]; ["data"; "plot"; "subplot"; "ticks"; "x_amount"]; ["data"; "plot"; "subplot"; "ticks"; "y_amount"];
   ["data"; "plot"; "subplot"; "ticks"; "z_amount"]; ["data"; "plot"; "subplot"; "ticks"; "cbar_amount"]; ["data"; "plot"; "figure"; "color"];
   ["data"; "plot"; "figure"; "width"]; ["data"; "plot"; "figure"; "height"]; ["data"; "plot"; "figure"; "dpi"];
   ["data"; "plot"; "figure"; "font"; "family"]; ["data"; "plot"; "figure"; "font"; "size"]; ["data"; "plot"; "figure"; "font"; "name"];
   ["data"; "plot"; "video"; "codec"]; ["data"; "plot"; "video"; "fps"]; ["data"; "plot"; "video"; "bitrate"]].
(** meta_reader.py:63-141 for a dictionary; the paths of the data are left out *)
Definition meta_reader (j : json) : py meta :=
  size <-- each_path [["geometry"; "size"; "radius"]; ["geometry"; "size"; "longitude"]] j;
  grid <-- each_path [["geometry"; "grid"; "radius"]; ["geometry"; "grid"; "longitude"]] j;
  domains <-- each_path [["geometry"; "domains_amount"; "radius"]; ["geometry"; "domains_amount"; "longitude"]] j;
  pml <-- each_path [["geometry"; "pml"; "left_wall"]; ["geometry"; "pml"; "right_wall"]; ["geometry"; "pml"; "outer_wall"];
                     ["geometry"; "pml"; "sigma_1"]; ["geometry"; "pml"; "sigma_2"]] j;
  time <-- each_path [["time"; "start"]; ["time"; "end"]; ["time"; "step"]] j;
  species <-- (l <-- item "particles" j; for_in meta_species l);
  beams <-- (l <-- item "beams" j; for_in meta_beam l);
  _ <-- (r <-- items_ ["data"; "data_root"] j; a_string r);
  compression <-- each_path [["data"; "compression"; "use"]; ["data"; "compression"; "level"]] j;
  probes <-- (l <-- items_ ["data"; "probes"] j;
              match l with Arr l => meta_probes [Num 0; Num 0; Num (-1); Num (-1)] l | Obj [] | Str "" => Val [] | _ => Raise TypeError end);
  plot <-- each_path plot_keys j;
  Val (mkMeta size grid domains pml time species beams compression probes plot).
