(** Model of one round of the main loop (src/PiCoPiC.cpp:326-336) in a run with several MPI processes: [solve_maxvell],
    [advance_particles], [solve_current] of SMB on every rank.  Without beams, collisions and external fields; exact real arithmetic.
    The parts are the models of FieldMpiModel (fields), RoundModel (a particle), DensModel (the geometry of a domain of a rank),
    MigrModel (particles that leave their rank) and MpiCurrent (currents); here they are put together. *)
From Coq Require Import Reals.
From Verif Require Import Base RndUtil DecompModel CollectorModel PushModel ParticleModel StepModel GridModel OverlayModel YeeModel ExtModel CurrentModel YeeSmb SmbCurrent
  DensModel MpiModel MigrModel FieldMpiModel MpiCurrent RoundModel.
Open Scope Z_scope.

(** a particle carries the id of its species (particleModel: P_SPECIE_ID), which the receiver of a particle reads (SMB.cpp:480) *)
Definition tpt : Type := Z * pt.
Definition untag (d : domain tpt) : domain pt := map (fun t => (fst t, map snd (snd t))) d.

Section MpiRound.
Variable pusher : Z -> v3 -> v3 -> v3 -> outcome v3.
Variable charge : Z -> R.
Variable dist : YeeModel.geo -> list CurrentModel.mover -> grid3 R -> outcome (grid3 R).
Variable mu : R.

(** SMB.cpp:1282-1304: all particles of one domain; the movement keeps the tag *)
Definition step_tagged (h : YeeModel.geo) (G : ParticleModel.geo) (y : yee) : domain tpt -> domain tpt -> Prop :=
  Forall2 (fun t t' => fst t = fst t' /\ Forall2 (fun q q' => fst q' = fst q /\ step_particle pusher h G y (fst t) (snd q) (snd q')) (snd t) (snd t')).

(** the fields, the currents and the particles of every rank *)
Record mworld : Type := mkMworld { r_f : Z -> doms yee; r_j : Z -> doms (grid3 R); r_p : Z -> smb tpt }.
(** [W] ranks with [R] x [C] domains of [s] x [s] cells each; the library stores up to [K] messages *)
Definition mpi_round (g : YeeModel.geo) (W R C s : Z) (eps sg : Z -> doms (grid Rdefinitions.R)) (K : nat) (w w' : mworld) : Prop :=
  let dr := YeeModel.g_dr g in let dz := YeeModel.g_dz g in
  let whole := {| nr := R * s; nz := W * C * s; rd_ := R; zd_ := W * C |} in
  let slab := {| nr := R * s; nz := C * s; rd_ := R; zd_ := C |} in
  exists p1,
    mpi_step mu g W (W * C) R s eps sg K (r_j w) (r_f w) (r_f w') /\
    (forall p, rank_range W p -> exists gr C', rank_geo g W (W * C) p = Ok (gr, C') /\
       (forall i k, 0 <= i < R -> 0 <= k < C' ->
          step_tagged (dom_geo gr R C' s (i, k)) (rank_domain_geo whole dr dz W p i k) (r_f w' p (i, k)) (r_p w p i k) (p1 p i k)) /\
       (forall i k, ~ (0 <= i < R /\ 0 <= k < C') -> p1 p i k = r_p w p i k)) /\
    migrated (fun q => pt_cr dr (snd q)) (fun q => pt_cz dz (snd q)) fst K W slab p1 (r_p w') /\
    mpi_current dist g W (W * C) R s K (fun p ik => movers charge dr dz (untag (r_p w' p (fst ik) (snd ik)))) (r_j w) (r_j w').
End MpiRound.
