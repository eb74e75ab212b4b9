(** Model of the physical constants of the fields and of the particles (include/constant.hpp:38-49) and of the start of the time
    (src/cfg.cpp:430-439, include/timeSim.hpp, src/PiCoPiC.cpp: main loop). *)
From Coq Require Import Reals.
From Verif Require Import Base CfgModel.

(** constant.hpp:38: vacuum permittivity, used by the field solver (maxwellSolver.hpp:63) *)
Definition EPSILON0 : R := (885 / 100 / 10 ^ 12)%R.
(** constant.hpp:45: used by the pushers and the check of the time step (cfg.cpp:638) *)
Definition LIGHT_VEL : R := (3 * 10 ^ 8)%R.
(** constant.hpp:49: vacuum permeability, used by the field solver (maxwellSolverYee.cpp:126-154) *)
Definition MAGN_CONST : R := (126 / 100 / 10 ^ 6)%R.

(** the section "time" of the configuration as [TimeSim] *)
Record time_sim : Type := mkTimeSim { t_start : R; t_end : R; t_step : R; t_current : R }.
(** cfg.cpp:435-438 *)
Definition init_time (start tend step : R) : time_sim := mkTimeSim start tend step 0.
(** the main loop begins at [current] and never reads [start] *)
Definition timed_run (t : time_sim) (fuel : nat) : option (list (phase * R)) :=
  main_from (fun x => x) (t_end t) (t_step t) fuel (t_current t).
