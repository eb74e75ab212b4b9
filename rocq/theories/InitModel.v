(** Model of the initial state of the plasma: placement of the macro-particles (specieP.cpp:79-278), their velocities
    (specieP.cpp:333-476), the pseudo-random sequence of rand.cpp:57-76, the shares of the domains (SMB.cpp:121-137).
    Exact real arithmetic; the draws of the random generator are parameters. *)
From Coq Require Import Reals.
From Verif Require Import Base RndUtil ParticleModel PushModel.
Open Scope R_scope.

(** constant.hpp:56 *)
Definition MNZL : R := / 10 ^ 15.
(** specieP.cpp:170-171 *)
Definition nonzero_draw (u : R) : R := if Req_EM_T u 0 then MNZL else u.

Section Placement.
Variable g : geo.
(** density at the left and at the right border of the domain *)
Variables dens0 dens1 : R.
(** specieP.cpp:139-140, 201-202: differences of [unsigned int]; the cell numbers come from [size_t] (lines 85-88) *)
Definition r_cells : Z := u32 (u32 (g_top g) - u32 (g_bot g)).
Definition z_cells : Z := u32 (u32 (g_right g) - u32 (g_left g)).
(** lines 139-147: the size reduced by one cell at the outer walls *)
Definition r_size : R := IZR r_cells * g_dr g - (if w_rr g then g_dr g else 0).
Definition z_size : R := IZR z_cells * g_dz g - (if w_zz g then g_dz g else 0).

(** ** specieP.cpp:127-193 [rectangular_random_placement] with the numbers of the cells of the domain (lines 79-89) *)
Definition random_r (u : R) : R := r_size * nonzero_draw u + IZR (u32 (g_bot g)) * g_dr g + g_dr g / 2.
Definition random_z (u : R) : R :=
  (if Req_EM_T dens0 dens1 then z_size * nonzero_draw u
   else linear_profile_z z_size dens0 (dens1 - dens0) (nonzero_draw u))
  + IZR (u32 (g_left g)) * g_dz g + g_dz g / 2.
(** the particles for the draws of lines 161-167, one pair for each macro-particle *)
Definition random_placement (draws : list (R * R)) : list (R * R) := map (fun d => (random_r (fst d), random_z (snd d))) draws.

(** ** specieP.cpp:195-237 [rectangular_regular_placement] *)
(** a loop [for (double i = x; i <= lim; i += d)]: the values of i; [None] if not finished within [fuel] passes *)
Fixpoint loop_values (fuel : nat) (x lim d : R) : option (list R) :=
  if Rle_dec x lim then
    match fuel with
    | O => None
    | S f => match loop_values f (x + d) lim d with Some l => Some (x :: l) | None => None end
    end
  else Some [].
(** lines 204-213: the intervals are computed from the size before it is reduced *)
Definition regular_r_interval (macro_amount : Z) : R :=
  let r := IZR r_cells * g_dr g in let z := IZR z_cells * g_dz g in r / sqrt (IZR macro_amount * r / z).
Definition regular_z_interval (macro_amount : Z) : R :=
  let r := IZR r_cells * g_dr g in let z := IZR z_cells * g_dz g in z / sqrt (IZR macro_amount * z / r).
(** lines 220-236 *)
Definition regular_placement (fuel : nat) (macro_amount : Z) : option (list (R * R)) :=
  let dr' := regular_r_interval macro_amount in
  let dz' := regular_z_interval macro_amount in
  match loop_values fuel MNZL (r_size - dr') dr', loop_values fuel MNZL (z_size - dz') dz' with
  | Some rs, Some zs =>
      Some (flat_map (fun i => map (fun j => (i + IZR (u32 (g_bot g)) * g_dr g + g_dr g / 2,
                                              j + IZR (u32 (g_left g)) * g_dz g + g_dz g / 2)) zs) rs)
  | _, _ => None
  end.

(** ** specieP.cpp:239-278 [rectangular_centered_placement] *)
(** lines 249-255: numbers of cells as [double] *)
Definition centered_rows : Z := (r_cells - (if w_rr g then 1 else 0))%Z.
Definition centered_cols : Z := (z_cells - (if w_zz g then 1 else 0))%Z.
(** line 257: the quotient is converted to [unsigned int]; without cells it is infinite or not a number *)
Definition macro_per_cell (macro_amount : Z) : outcome Z :=
  if (centered_rows * centered_cols =? 0)%Z then UB else to_u32 (IZR (macro_amount / (centered_rows * centered_cols))).
(** lines 259-277 *)
Definition centered_placement (macro_amount : Z) : outcome (list (R * R)) :=
  do n <- macro_per_cell macro_amount;
  Ok (flat_map (fun rc => flat_map (fun zc =>
        repeat (g_dr g * IZR rc + MNZL + IZR (u32 (g_bot g)) * g_dr g + g_dr g / 2,
                g_dz g * IZR zc + MNZL + IZR (u32 (g_left g)) * g_dz g + g_dz g / 2) (Z.to_nat n))
      (map Z.of_nat (seq 0 (Z.to_nat centered_cols)))) (map Z.of_nat (seq 0 (Z.to_nat centered_rows)))).
End Placement.

(** ** rand.cpp:57-76 [random_reverse] *)
Fixpoint reverse_loop (fuel : nat) (int_vel power : Z) (order : nat) (r : R) : option R :=
  if (1 <=? int_vel)%Z then
    match fuel with
    | O => None
    | S f => let ost := (int_vel mod power)%Z in
             reverse_loop f ((int_vel - ost) / power)%Z power (S order) (r + IZR ost * / IZR power ^ order)
    end
  else Some r.
(** the argument is an [unsigned int] converted to [double] (specieP.cpp:165-166); line 62 converts it to [int] *)
Definition random_reverse (fuel : nat) (vel power : Z) : outcome (option R) :=
  if (vel <? 2 ^ 31)%Z then Ok (reverse_loop fuel vel power 1 0) else UB.
(** specieP.cpp:165-166: the draws of the "flat" placement for macro-particle number [i] *)
Definition flat_draws (fuel : nat) (macro_amount i : Z) : outcome (option R * option R) :=
  do a <- random_reverse fuel i 13;
  do b <- random_reverse fuel (u32 (macro_amount - 1 - i)) 11;
  Ok (a, b).

(** ** Velocities *)
(** constant.hpp:42 *)
Definition EL_CHARGE : R := 16 / 10 ^ 20.
Section Velocity.
Variable c : R.
Variable lim : R.
Variable mass : R.
(** specieP.cpp:352-353, 389-390, 419-420, 447-448 *)
Definition two_over_mass : R := 2 * EL_CHARGE / mass.
Definition mc_inv : R := EL_CHARGE / (mass * c).
(** specieP.cpp:361-369: the velocity for a sampled energy in eV *)
Definition thermal_cmp (e : R) : R :=
  let v := e * mc_inv in
  if rlt lim v then v * lorenz_factor_inv c (v * v) else sqrt (e * two_over_mass).
(** specieP.cpp:357, 371-379; the draws are between -1 and 1 (rand.cpp:39-43) *)
Definition norm_sqrt2 : R := 7071067811865475 / 10 ^ 16.
Definition thermal_velocity (e d0 d1 d2 : R) : v3 :=
  let t := thermal_cmp e * norm_sqrt2 in V3 (d0 * t) (d1 * t) (d2 * t).
(** specieP.cpp:392-401, 422-431 *)
Definition eigen_cmp (temperature : R) : R :=
  let v := temperature * mc_inv * 2 in
  if rlt lim v then v * lorenz_factor_inv c (v * v) else sqrt (temperature * two_over_mass).
(** specieP.cpp:403-415 and 433-438 *)
Definition rectangular_velocity (temperature d0 d1 d2 : R) : v3 :=
  let t := eigen_cmp temperature in V3 (d0 * t) (d1 * t) (d2 * t).
Definition eigen_velocity (temperature : R) : v3 :=
  let t := eigen_cmp temperature in V3 t t t.
End Velocity.

(** ** SMB.cpp:121-137: the share of a domain *)
(** line 123; the configured amount is a [double] (cfg.hpp:98) *)
Definition domain_macro (macro : R) (r_domains z_domains : Z) : outcome Z :=
  do k <- to_s32 (macro / IZR r_domains / IZR z_domains); Ok (u32 k).
(** lines 125-127: densities at the borders left_z and right_z of the domain; [size] is geometry->size[1] *)
Definition density_at (ld rd size dz : R) (cell : Z) : R := ld + (rd - ld) / size * IZR cell * dz.
