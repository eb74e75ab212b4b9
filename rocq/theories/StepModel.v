(** Model of one step of the particles of all domains: SMB.cpp:1280-1306 [advance_particles] after the push, and the
    handing over of the particles (CollectorModel).  Exact real arithmetic. *)
From Coq Require Import Reals.
From Verif Require Import Base RndUtil DecompModel CollectorModel ParticleModel.
Open Scope R_scope.

(** SMB.cpp:1295-1301: mover, return to the plane, reflection, return of the velocity; [None]: the loop of the reflection is
    not finished within [fuel] passes.  The old positions (line 1295) do not reach the result. *)
Definition advance (g : geo) (dt : R) (fuel : nat) (p : part) : option part :=
  match reflect g fuel (back_position (mover dt p)) with
  | Some p' => Some (back_velocity p')
  | None => None
  end.

(** SMB.cpp:59-120: the geometry of domain (i, j) of the area *)
Definition domain_geo (a : area) (dr dz : R) (i j : Z) : geo :=
  {| g_dr := dr; g_dz := dz;
     g_size_r := IZR (nr a) * dr / IZR (rd_ a); g_size_z := IZR (nz a) * dz / IZR (zd_ a);
     g_bot := bound (nr a) (rd_ a) 0 i; g_left := bound (nz a) (zd_ a) 0 j;
     g_top := bound (nr a) (rd_ a) 0 (i + 1); g_right := bound (nz a) (zd_ a) 0 (j + 1);
     w_r0 := (i =? 0)%Z; w_z0 := (j =? 0)%Z; w_rr := (i =? rd_ a - 1)%Z; w_zz := (j =? zd_ a - 1)%Z |}.

(** specieP.cpp:655-667 [bind_cell_numbers]: the cell numbers of a position, as [int] *)
Definition part_cr (dr : R) (p : part) : Z := s32 (cell_number (pos_r p) dr).
Definition part_cz (dz : R) (p : part) : Z := s32 (cell_number (pos_z p) dz).
