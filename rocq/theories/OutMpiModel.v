(** Model of the data output of a run with several processes: every rank has the controller of src/outController.cpp:35-510 for its own
    slab of the area (src/PiCoPiC.cpp:209-234) and writes into one file (HighFive::MPIOFileDriver, PiCoPiC.cpp:254-259; the writes of
    different ranks are not ordered).  [geometry_smb] and [geometry_global] are the same object (PiCoPiC.cpp:209), so the controller
    (PiCoPiC.cpp:278-281) sees the number of cells of the slab. *)
From Verif Require Import Base GridModel DecompModel OutModel ProbeModel MpiModel CollectorModel OverlayModel MapModel.
Open Scope Z_scope.

Section OutMpi.
Context {T : Type}.
Variable zero : T.
Variables NR NZ R D W : Z.                       (* cells in r and z, radial and longitudinal domains, ranks *)

(** borders of the domains of rank [p]: SMB.cpp:71-80 with the geometry of PiCoPiC.cpp:217-230 *)
Definition rank_bz (p z : Z) : Z :=
  match split_geometry NZ D W p with Ok sl => bound (s_cells sl) (s_domains sl) (s_begin sl) z | _ => 0 end.
Definition rank_domains (p : Z) : Z := match split_geometry NZ D W p with Ok sl => s_domains sl | _ => 0 end.
(** outController.cpp:323-338: the length of the dataset of a probe that is not a rectangle, as created by rank [p] *)
Definition rank_length (sh : shape) (p : Z) : Z :=
  match sh with Col => NR | Row => match split_geometry NZ D W p with Ok sl => s_cells sl | _ => 0 end | Dot => 1 end.

(** the writer of a rectangle in domain (r, z) of rank p *)
Definition rec_writer (G : Z -> Z -> Z -> grid T) (p0 p1 p2 p3 num : Z) (c : Z * Z * Z) (ds : dataset T) : outcome (dataset T) :=
  let '(p, r, z) := c in
  run_writer zero (G p r z) num
    (tile_of p0 p1 p2 p3 (bound NR R 0 r) (rank_bz p z) (bound NR R 0 (r + 1)) (rank_bz p (z + 1))) ds.
(** writers one after another *)
Fixpoint writers (G : Z -> Z -> Z -> grid T) (p0 p1 p2 p3 num : Z) (l : list (Z * Z * Z)) (ds : dataset T) : outcome (dataset T) :=
  match l with [] => Ok ds | c :: l => do ds <- rec_writer G p0 p1 p2 p3 num c ds; writers G p0 p1 p2 p3 num l ds end.
(** columns, rows and dots: all writers of rank [p] *)
Definition rank_line (G : Z -> Z -> Z -> grid T) (sh : shape) (p2 p3 num p : Z) (ds : vds T) : outcome (vds T) :=
  write_line zero sh R (rank_domains p) (bound NR R 0) (rank_bz p) (G p) p2 p3 num ds.
(** the ranks one after another *)
Fixpoint rank_lines (G : Z -> Z -> Z -> grid T) (sh : shape) (p2 p3 num : Z) (l : list Z) (ds : vds T) : outcome (vds T) :=
  match l with [] => Ok ds | p :: l => do ds <- rank_line G sh p2 p3 num p ds; rank_lines G sh p2 p3 num l ds end.
(** the maps of the particles are stitched between the domains of a rank (outController.cpp:411-491) *)
Definition rank_maps (add : T -> T -> T) (q : MapModel.quantity) (m : Z -> doms (grid T)) (p : Z) : outcome (doms (grid T)) :=
  stitch add q R (rank_domains p) (m p).
End OutMpi.
