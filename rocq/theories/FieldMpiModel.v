(** The field solver of a run with several MPI processes: [SMB::solve_maxvell] (src/SMB.cpp:1231-1252) on every rank, with the MPI
    parts of [field_e_overlay] (SMB.cpp:1045-1228) and [field_h_overlay] (SMB.cpp:823-1007).  The latter exchanges field_h_at_et
    only; field_h is stitched between the domains of a rank (SMB.cpp:799, 810, 819) and not between ranks. *)
From Coq Require Import ZifyBool Reals.
From Verif Require Import Base GridModel OverlayModel OverlaySum YeeModel YeeSmb MpiModel.
Open Scope Z_scope.

(** PiCoPiC.cpp:209-230: the geometry of rank [p] of [W], and its number of longitudinal domains, made out of the geometry [g] of the
    whole run with [D] longitudinal domains *)
Definition rank_geo (g : geo) (W D p : Z) : outcome (geo * Z) :=
  do sl <- split_geometry (g_nz g) D W p;
  Ok (mkGeo (g_nr g) (s_cells sl) (g_d0 g) (s_begin sl) (g_dr g) (g_dz g) (g_w0 g) (s_wall_l sl && g_w1 g) (g_w2 g) (s_wall_r sl && g_w3 g) (g_dt g),
      s_domains sl).

Section FieldMpi.
Variable mu : R.
Variable g : geo.
Variables W D R s : Z.                                     (* ranks, longitudinal domains in all, radial domains, cells of a domain *)
Variables eps sg : Z -> doms (grid Rdefinitions.R).        (* per rank *)

(** SMB.cpp:1233-1240 and 1012-1043: E on every domain of rank [p], stitched between the domains of the rank *)
Definition rank_first (p : Z) (j : doms (grid3 Rdefinitions.R)) (m : doms yee) : outcome (doms yee) :=
  do (gr, C) <- rank_geo g W D p;
  do m1 <- each_dom R C (fun q y =>
     do e <- calc_field_e (dom_geo gr R C s q) (y_t y) (j q) (eps p q) (sg p q) (y_e y); Ok (mkYee e (y_h y) (y_t y))) m;
  do e2 <- pass3 Rplus R C (fun q => y_e (m1 q));
  Ok (fun q => mkYee (e2 q) (y_h (m1 q)) (y_t (m1 q))).
(** SMB.cpp:1243-1251 and 786-821: H *)
Definition rank_second (p : Z) (m : doms yee) : outcome (doms yee) :=
  do (gr, C) <- rank_geo g W D p;
  do m3 <- each_dom R C (fun q y =>
     do (h, t) <- calc_field_h mu (dom_geo gr R C s q) (y_e y) (y_h y) (y_t y); Ok (mkYee (y_e y) h t)) m;
  do h4 <- pass3 Rplus R C (fun q => y_h (m3 q));
  do t4 <- pass3 Rplus R C (fun q => y_t (m3 q));
  Ok (fun q => mkYee (y_e (m3 q)) (h4 q) (t4 q)).
(** one call of [solve_maxvell] on all ranks; the communication under any schedule, with a library that stores up to [K] messages *)
Definition mpi_step (K : nat) (j : Z -> doms (grid3 Rdefinitions.R)) (st st' : Z -> doms yee) : Prop :=
  exists (a b : Z -> doms yee) (ea tb : Z -> doms (grid3 Rdefinitions.R)),
  (forall p, rank_range W p -> rank_first p (j p) (st p) = Ok (a p)) /\
  exchanged Rplus 0%R K W R (D / W) (fun p q => y_e (a p q)) ea /\
  (forall p, rank_range W p -> rank_second p (fun q => mkYee (ea p q) (y_h (a p q)) (y_t (a p q))) = Ok (b p)) /\
  exchanged Rplus 0%R K W R (D / W) (fun p q => y_t (b p q)) tb /\
  (forall p, rank_range W p -> st' p = fun q => mkYee (y_e (b p q)) (y_h (b p q)) (tb p q)).
Inductive mpi_run (K : nat) : list (Z -> doms (grid3 Rdefinitions.R)) -> (Z -> doms yee) -> (Z -> doms yee) -> Prop :=
| mpi_done st : mpi_run K [] st st
| mpi_more j js st st1 st2 : mpi_step K j st st1 -> mpi_run K js st1 st2 -> mpi_run K (j :: js) st st2.
End FieldMpi.
