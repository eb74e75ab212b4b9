(** Model of the preparation of the particle maps before they are written: [OutController::init_datasets],
    src/outController.cpp:377-491 - for every probe that is due, the maps of its species are calculated in all
    domains and then stitched.  The writers run after all probes have been prepared (498-510).  The model follows
    one species that exists in every domain; the maps of all domains are kept per kind of map. *)
From Verif Require Import Base GridModel CollectorModel OverlayModel.

(** [prb->component] *)
Inductive quantity : Type := Density | Temperature | Energy | Momentum.

(** outController.cpp:411-412: all rows, in each all columns *)
Definition row_major (R C : Z) : list (Z * Z) :=
  flat_map (fun i => map (fun j => (i, j)) (zrange 0 C)) (zrange 0 R).
(** outController.cpp:428-491: [overlay_x] for every quantity, [overlay_y] for densities and temperatures only; the
    call of [overlay_xy] (486-490) is commented out *)
Definition map_block (q : quantity) (R C : Z) (ij : Z * Z) : list op :=
  let (i, j) := ij in
  (if i <? R - 1 then [mkOp KX i j] else []) ++
  (if j <? C - 1 then match q with Density | Temperature => [mkOp KY i j] | Energy | Momentum => [] end else []).
Definition map_ops (q : quantity) (R C : Z) : list op := flat_map (map_block q R C) (row_major R C).

Section Maps.
Context {T : Type}.
Variable add : T -> T -> T.
(** what the calculations of specieP.cpp:665-840 produce for the particles of each domain at this time *)
Variables calc_den calc_temp calc_ener : doms (grid T).
Variable calc_mom : doms (grid3 T).

Record pmaps : Type := mkMaps { den : doms (grid T); temp : doms (grid T); ener : doms (grid T); mom : doms (grid3 T) }.

(** outController.cpp:381-408 and 411-491 for one probe: calculation (the density is recalculated by each of the
    four functions: specieP.cpp:665, 685, 797, 825), then stitching *)
Definition stitch (q : quantity) (R C : Z) (m : doms (grid T)) : outcome (doms (grid T)) :=
  run_ops (overlay_x add) (overlay_y add) (overlay_xy add) (map_ops q R C) m.
Definition stitch3 (q : quantity) (R C : Z) (m : doms (grid3 T)) : outcome (doms (grid3 T)) :=
  run_ops (overlay_x3 add) (overlay_y3 add) (overlay_xy3 add) (map_ops q R C) m.
Definition prepare (R C : Z) (q : quantity) (s : pmaps) : outcome pmaps :=
  match q with
  | Density => do d <- stitch Density R C calc_den; Ok (mkMaps d (temp s) (ener s) (mom s))
  | Temperature => do t <- stitch Temperature R C calc_temp; Ok (mkMaps calc_den t (ener s) (mom s))
  | Energy => do e <- stitch Energy R C calc_ener; Ok (mkMaps calc_den (temp s) e (mom s))
  | Momentum => do p <- stitch3 Momentum R C calc_mom; Ok (mkMaps calc_den (temp s) (ener s) p)
  end.
(** the loop over the probes (outController.cpp:314), restricted to those that are due *)
Fixpoint prepare_all (R C : Z) (probes : list quantity) (s : pmaps) : outcome pmaps :=
  match probes with [] => Ok s | q :: l => do s' <- prepare R C q s; prepare_all R C l s' end.
End Maps.
Arguments pmaps : clear implicits.
