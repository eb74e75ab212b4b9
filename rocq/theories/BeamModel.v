(** Model of the injection of beams (over the reals, with exact time n*dt). *)
From Verif Require Import Base RndUtil TimeModel ParticleModel.
From Coq Require Import Reals.
Open Scope R_scope.

(** the fields of [BeamP] (beamP.hpp:30-42) set by the constructor (beamP.cpp:22-69) *)
Record beam : Type :=
  { b_start : R; b_length : R; b_distance : R; b_velocity : R; b_radius : R; b_bunches : nat; b_macro : nat }.
(** the domain: [cell_dims[0]], [cell_dims[1]], [cell_dims[2]], [size[0]], [cell_size[0]] *)
Record bdom : Type := { d_bot : Z; d_left : Z; d_top : Z; d_size : R; d_dr : R }.

(** beamP.cpp:54-62 *)
Definition domain_radius (b : beam) (d : bdom) : R :=
  if (0 <? d_left d)%Z then 0
  else if Rltb (IZR (d_top d) * d_dr d) (b_radius b) then d_size d
  else if Rltb (IZR (d_bot d) * d_dr d) (b_radius b) then b_radius b - IZR (d_bot d) * d_dr d
  else 0.
(** beamP.cpp:64-68: both operands of the first division are [unsigned int] (specieP.hpp:132, beamP.hpp:36), so it is a
    whole number division (by 0: undefined, excluded by the theorems) *)
Definition bunch_macro_amount (b : beam) (d : bdom) : R :=
  INR (b_macro b / b_bunches b) * (domain_radius b d / b_radius b).
Definition macro_per_step (b : beam) (d : bdom) (dt : R) : R :=
  bunch_macro_amount b d * b_velocity b * dt / b_length b.
(** beamP.cpp:102: the loop [for (unsigned int i = 0; i < macro_per_step_to_inject; ++i)] runs ceil(x) times (0 for x <= 0) *)
Definition loop_count (x : R) : nat := Z.to_nat (ceilR x).

(** beamP.cpp:76-77 *)
Definition bunch_start (b : beam) (k : nat) : R := b_start b + (b_length b + b_distance b) / b_velocity b * INR k.
Definition bunch_finish (b : beam) (k : nat) : R := bunch_start b k + b_length b / b_velocity b.
(** beamP.cpp:71-157 [inject] at time [t] with [current_bunch_number = k]: the number of particles injected and the new bunch number.
    The positions and weights of the particles are in [injected_particle]. *)
Definition inject (b : beam) (d : bdom) (dt t : R) (k : nat) : nat * nat :=
  if (k <? b_bunches b)%nat then
    ((if Rltb (IZR (d_bot d) * d_dr d) (b_radius b) && Rleb (bunch_start b k) t && Rltb t (bunch_finish b k)
      then loop_count (macro_per_step b d dt) else O),
     (if Rltb (bunch_finish b k) t && (d_left d =? 0)%Z && (d_bot d =? 0)%Z then S k else k))
  else (O, k).
(** domain.cpp:180-186 [Domain::manage_beam]: only domains at the left wall inject *)
Definition manage_beam (b : beam) (d : bdom) (dt t : R) (k : nat) : nat * nat :=
  if (d_left d =? 0)%Z then inject b d dt t k else (O, k).

(** the bunch number before step n, starting from 0 (beamP.cpp:41), one call per step (PiCoPiC.cpp:327), and the
    number of particles injected at step n *)
Fixpoint bunch_no (b : beam) (d : bdom) (dt : R) (n : nat) : nat :=
  match n with O => O | S m => snd (manage_beam b d dt (INR m * dt) (bunch_no b d dt m)) end.
Definition injected (b : beam) (d : bdom) (dt : R) (n : nat) : nat :=
  fst (manage_beam b d dt (INR n * dt) (bunch_no b d dt n)).

(** beamP.cpp:104-140: radius, z, cell numbers of an injected particle, given two uniform random numbers *)
Definition injected_particle (b : beam) (d : bdom) (dz dt u v : R) : R * R * Z * Z :=
  let r := domain_radius b d * u + d_dr d / 2 + IZR (d_bot d) * d_dr d in
  let z := b_velocity b * dt * v + dz / 2 in
  (r, z, cell_number r (d_dr d), cell_number r dz).
(** beamP.cpp:92-127: the number of real particles of an injected macro-particle at radius [r] ([P_WEIGHT]); [n] is the density *)
Definition injected_weight (b : beam) (d : bdom) (n dz r : R) : R :=
  let v_macro_avg := PI * b_radius b * d_dr d * dz in
  let n_total := PI * b_radius b * b_radius b * b_length b * INR (b_bunches b) * n in
  let n_per_macro_avg := n_total / INR (b_macro b) in
  let norm := if Rltb (d_dr d / 2) r then 2 * PI * r * d_dr d * dz / v_macro_avg
              else PI * (r * r + r * d_dr d + d_dr d * d_dr d / 4) * dz / v_macro_avg in
  n_per_macro_avg * norm.
