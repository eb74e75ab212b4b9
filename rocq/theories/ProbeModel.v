(** Model of the probes of other shapes than rectangles (src/outController.cpp:80-141, src/outWriter.cpp:77-99,
    src/outEngine/outEngineHDF5.cpp:79-116), of the creation of the datasets (src/outController.cpp:47-77,
    src/outEngine/outEngineHDF5.cpp:118-150) and of the choice of the values (src/outController.cpp:143-290).
    The dimensions of a probe are those that src/cfg.cpp:257-297 means to store, see C60 for what it does.
    HighFive is a library: a selection outside of the dataset and the creation of a group that exists throw exceptions. *)
From Coq Require Import String.
From Verif Require Import Base GridModel OutModel.
Open Scope Z_scope.

(** outController.cpp:109-141 for any shape; see [tile_of] for rectangles *)
Definition place (p0 p1 p2 p3 d0 d1 d2 d3 : Z) : tile :=
  let e0 := s16 (if p0 <? d0 then d0 else p0) in
  let e1 := s16 (if p1 <? d1 then d1 else p1) in
  let e2 := s16 (if d2 <? p2 then d2 else p2) in
  let e3 := s16 (if d3 <? p3 then d3 else p3) in
  let e0' := s16 (u64 (e0 - d0)) in
  let e2' := s16 (u64 (e2 - d0)) in
  let e1' := s16 (u64 (e1 - d1)) in
  let e3' := s16 (u64 (e3 - d1)) in
  mkTile e0' e1' e2' e3' (u64 (e0' + d0 - p0)) (u64 (e1' + d1 - p1)).

Inductive shape : Type := Col | Row | Dot.
(** outController.cpp:95-107; dims = {0, 0, r, z} *)
Definition meets (sh : shape) (p2 p3 d0 d1 d2 d3 : Z) : bool :=
  match sh with
  | Col => (d1 <=? p3) && (p3 <=? d3)
  | Row => (d0 <=? p2) && (p2 <=? d2)
  | Dot => (d0 <=? p2) && (p2 <=? d2) && (d1 <=? p3) && (p3 <=? d3)
  end.

Section Line.
Context {T : Type}.
Variable zero : T.
(** a dataset with frames of [v_n] values *)
Record vds : Type := mkV { v_frames : Z; v_n : Z; v_dat : Z -> Z -> T }.
Definition upd1 (f : Z -> T) (i : Z) (v : T) : Z -> T := fun a => if a =? i then v else f a.

(** outWriter.cpp:77-96 *)
Definition grab_col (g : grid T) (c : Z) : outcome (Z -> T) :=
  for_to 0 (xs g) (fun i val => do v <- get g i c; Ok (upd1 val i v)) (fun _ => zero).
Definition grab_row (g : grid T) (r : Z) : outcome (Z -> T) :=
  for_to 0 (ys g) (fun i val => do v <- get g r i; Ok (upd1 val i v)) (fun _ => zero).
(** outEngineHDF5.cpp:79-102; a selection without elements writes nothing *)
Definition write_vec (ds : vds) (num off n : Z) (val : Z -> T) : outcome vds :=
  if (num <? v_frames ds) && (off + n <=? v_n ds) then
    Ok (mkV (v_frames ds) (v_n ds) (fun f a => if (f =? num) && (off <=? a) && (a <? off + n) then val (a - off) else v_dat ds f a))
  else Fatal.
(** outEngineHDF5.cpp:104-116: the offset of the engine is not used *)
Definition write_dot (ds : vds) (num : Z) (v : T) : outcome vds := write_vec ds num 0 1 (fun _ => v).

(** outWriter.cpp:47-99 *)
Definition run_line (sh : shape) (g : grid T) (num : Z) (t : tile) (ds : vds) : outcome vds :=
  match sh with
  | Col => do val <- grab_col g (t3 t); write_vec ds num (o0 t) (xs g) val
  | Row => do val <- grab_row g (t2 t); write_vec ds num (o1 t) (ys g) val
  | Dot => do v <- get g (t2 t) (t3 t); write_dot ds num v
  end.
(** all writers of one probe, domain by domain (outController.cpp:70-72, 498-508); [br], [bz]: first cells of the domains *)
Definition write_line (sh : shape) (R C : Z) (br bz : Z -> Z) (G : Z -> Z -> grid T) (p2 p3 num : Z) (ds : vds) : outcome vds :=
  for_to 0 R (fun r => for_to 0 C (fun z ds =>
    if meets sh p2 p3 (br r) (bz z) (br (r + 1)) (bz (z + 1))
    then run_line sh (G r z) num (place 0 0 p2 p3 (br r) (bz z) (br (r + 1)) (bz (z + 1))) ds else Ok ds)) ds.
End Line.
Arguments vds : clear implicits.

(** ** The datasets of the probes *)
(** the path of a probe as a list of names (cfg.cpp:222-297): component, species for quantities of particles, shape, extent *)
Definition path : Type := list string.
(** the groups and datasets of the file *)
Record h5 : Type := mkH5 { groups : list path; datasets : list path }.
Definition path_eqb (a b : path) : bool := if list_eq_dec string_dec a b then true else false.
Definition has (l : list path) (p : path) : bool := existsb (path_eqb p) l.
(** all non-empty beginnings of a path *)
Fixpoint beginnings (p : path) : list path :=
  match p with [] => [] | a :: p => [a] :: map (cons a) (beginnings p) end.
(** [createGroup] with the missing groups above; an existing one throws *)
Definition create_group (p : path) (f : h5) : option h5 :=
  if has (groups f) p || has (datasets f) p then None else Some (mkH5 (groups f ++ beginnings p) (datasets f)).
(** outEngineHDF5.cpp:118-165: the exception for the group is FATAL, that for the dataset a message *)
Definition create_dataset (p : path) (f : h5) : outcome h5 :=
  match create_group (removelast p) f with
  | None => Fatal
  | Some f => Ok (if has (groups f) p || has (datasets f) p then f else mkH5 (groups f) (datasets f ++ [p]))
  end.
(** outController.cpp:35-77: [_probes[0]] of an empty vector is undefined *)
Fixpoint create_all (ps : list path) (f : h5) : outcome h5 :=
  match ps with [] => Ok f | p :: ps => do f <- create_dataset p f; create_all ps f end.
Definition controller (ps : list path) : outcome h5 :=
  match ps with [] => UB | _ => create_all ps (mkH5 [] []) end.

(** ** The values a writer reads: outController.cpp:143-290 *)
Inductive quantity : Type := QTemperature | QDensity | QEnergy | QMomentum (c : Z).
Inductive source : Type := SrcE (c : Z) | SrcH (c : Z) | SrcJ (c : Z) | SrcMap (q : quantity) (species : nat).
(** lines 164-170 and the like: the last species of the name *)
Fixpoint find_specie (name : string) (l : list string) (n : nat) (acc : option nat) : option nat :=
  match l with [] => acc | a :: l => find_specie name l (S n) (if String.eqb name a then Some n else acc) end.
Inductive choice : Type := Writes (s : source) | Skipped | Uninitialised.
Definition of_specie (q : quantity) (name : string) (l : list string) : choice :=
  match find_specie name l 0 None with Some n => Writes (SrcMap q n) | None => Skipped end.
Open Scope string_scope.
Definition choose (component specie : string) (l : list string) : choice :=
  if component =? "E/r" then Writes (SrcE 0) else if component =? "E/phi" then Writes (SrcE 1) else if component =? "E/z" then Writes (SrcE 2)
  else if component =? "H/r" then Writes (SrcH 0) else if component =? "H/phi" then Writes (SrcH 1) else if component =? "H/z" then Writes (SrcH 2)
  else if component =? "J/r" then Writes (SrcJ 0) else if component =? "J/phi" then Writes (SrcJ 1) else if component =? "J/z" then Writes (SrcJ 2)
  else if component =? "temperature" then of_specie QTemperature specie l
  else if component =? "density" then of_specie QDensity specie l
  else if component =? "energy" then of_specie QEnergy specie l
  else if component =? "momentum/r" then of_specie (QMomentum 0) specie l
  else if component =? "momentum/phi" then of_specie (QMomentum 1) specie l
  else if component =? "momentum/z" then of_specie (QMomentum 2) specie l
  else Uninitialised.
