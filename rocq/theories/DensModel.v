(** Model of the densities and weights of the domains of an area: src/SMB.cpp:129-141 and src/PiCoPiC.cpp:213-227 (MPI).
    Real numbers instead of doubles. *)
From Coq Require Import Reals.
From Verif Require Import Base DecompModel CollectorModel ParticleModel StepModel.
Open Scope R_scope.

(** SMB.cpp:133-135: [left_density + drho_by_dz * cell * cell_size]; [size]: [geometry->size[1]] *)
Definition local_density (ld rd size dz : R) (cell : Z) : R := ld + (rd - ld) / size * IZR cell * dz.
(** the weights of the particles that domain (i, j) places at the radii [rs] (specieP.cpp:280-331) *)
Definition domain_weights (a : area) (dr dz ld rd : R) (macro : Z) (rs : list R) (i j : Z) : list R :=
  let g := domain_geo a dr dz i j in let size := IZR (nz a) * dz in
  set_weight g (local_density ld rd size dz (g_left g)) (local_density ld rd size dz (g_right g)) macro rs.

(** PiCoPiC.cpp:213-234 and SMB.cpp:73-80: domain (i, j) of rank [id] of [np]; [a] is the whole area *)
Definition rank_domain_geo (a : area) (dr dz : R) (np id i j : Z) : geo :=
  let n := (nz a / np)%Z in let c := (zd_ a / np)%Z in
  {| g_dr := dr; g_dz := dz;
     g_size_r := IZR (nr a) * dr / IZR (rd_ a); g_size_z := IZR (nz a) * dz / IZR np / IZR c;
     g_bot := bound (nr a) (rd_ a) 0 i; g_left := bound n c (n * id) j;
     g_top := bound (nr a) (rd_ a) 0 (i + 1); g_right := bound n c (n * id) (j + 1);
     w_r0 := (i =? 0)%Z; w_z0 := (j =? 0)%Z && negb (0 <? id)%Z;
     w_rr := (i =? rd_ a - 1)%Z; w_zz := (j =? c - 1)%Z && negb (id <? np - 1)%Z |}.
(** [geometry->size[1]] is the size of the slab *)
Definition rank_weights (a : area) (dr dz ld rd : R) (np id : Z) (macro : Z) (rs : list R) (i j : Z) : list R :=
  let g := rank_domain_geo a dr dz np id i j in let size := IZR (nz a) * dz / IZR np in
  set_weight g (local_density ld rd size dz (g_left g)) (local_density ld rd size dz (g_right g)) macro rs.
