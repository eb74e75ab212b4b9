(** Model of single-particle geometry: reflection, return to the r-z plane, weights, weighting to the grid.
    All numbers are reals: rounding, NaN, infinities and subnormals are left out. *)
From Verif Require Import Base RndUtil.
From Coq Require Import Reals.
Open Scope R_scope.

(** [a < b] as a C++ condition *)
Definition Rltb (a b : R) : bool := if Rlt_dec a b then true else false.
Definition Rleb (a b : R) : bool := if Rle_dec a b then true else false.

(** the part of [Geometry] used here (geometry.hpp:25-76); walls are r=0, z=0, r=wall, z=wall *)
Record geo : Type :=
  { g_dr : R; g_dz : R; g_size_r : R; g_size_z : R; g_bot : Z; g_left : Z; g_top : Z; g_right : Z;
    w_r0 : bool; w_z0 : bool; w_rr : bool; w_zz : bool }.
(** the part of [Particle] used here (specieP.hpp:56-66) *)
Record part : Type := { pos_r : R; pos_phi : R; pos_z : R; vel_r : R; vel_phi : R; vel_z : R; p_sin : R; weight : R }.

(** * Movement: specieP.cpp:482-491 [mover_cylindrical] *)
Definition mover (dt : R) (p : part) : part :=
  {| pos_r := pos_r p + vel_r p * dt; pos_phi := pos_phi p + vel_phi p * dt; pos_z := pos_z p + vel_z p * dt;
     vel_r := vel_r p; vel_phi := vel_phi p; vel_z := vel_z p; p_sin := p_sin p; weight := weight p |}.

(** * Reflection: specieP.cpp:493-607 [reflect] *)
(** [isnormal]: zero is the only real number that is not normal here *)
Definition isnormal (x : R) : bool := if Req_EM_T x 0 then false else true.
Section Reflect.
Variable g : geo.
(** specieP.cpp:497-501 *)
Definition half_dr : R := g_dr g / 2.
Definition half_dz : R := g_dz g / 2.
Definition radius_wall : R := g_size_r g - g_dr g / 2.
Definition longitude_wall : R := g_size_z g - g_dz g / 2.
(** specieP.cpp:526-529 *)
Definition beyond (pr pz : R) : bool :=
  (Rltb radius_wall pr && w_rr g) || (Rltb longitude_wall pz && w_zz g) ||
  (Rltb pr half_dr && w_r0 g) || (Rltb pz half_dz && w_z0 g).
(** local position and the two velocity components *)
Definition rstate : Type := (R * R * R * R)%type.
(** specieP.cpp:533-547; the variables pos_old_* and pos_delta_* never reach the result and are left out *)
Definition refl_rr (s : rstate) : rstate :=
  let '(pr, pz, vr, vz) := s in
  if Rltb radius_wall pr && w_rr g then (radius_wall * 2 - pr, pz, - vr, vz) else s.
(** specieP.cpp:549-564 *)
Definition refl_zz (s : rstate) : rstate :=
  let '(pr, pz, vr, vz) := s in
  if Rltb longitude_wall pz && w_zz g then (pr, longitude_wall * 2 - pz, vr, - vz) else s.
(** specieP.cpp:566-584 *)
Definition refl_r0 (s : rstate) : rstate :=
  let '(pr, pz, vr, vz) := s in
  if Rltb pr half_dr && w_r0 g then
    let pr' := g_dr g - pr in ((if Rltb pr' half_dr then half_dr else pr'), pz, - vr, vz)
  else s.
(** specieP.cpp:586-604 *)
Definition refl_z0 (s : rstate) : rstate :=
  let '(pr, pz, vr, vz) := s in
  if Rltb pz half_dz && w_z0 g then
    let pz' := g_dz g - pz in (pr, (if Rltb pz' half_dz then half_dz else pz'), vr, - vz)
  else s.
Definition refl_pass (s : rstate) : rstate := refl_z0 (refl_r0 (refl_zz (refl_rr s))).
(** specieP.cpp:522-605; None: not finished within [fuel] passes *)
Fixpoint refl_loop (fuel : nat) (s : rstate) : option rstate :=
  let '(pr, pz, _, _) := s in
  if isnormal pr && isnormal pz && beyond pr pz then
    match fuel with O => None | S f => refl_loop f (refl_pass s) end
  else Some s.
(** specieP.cpp:503-520, 605-606 *)
Definition reflect (fuel : nat) (p : part) : option part :=
  let r_shift := IZR (g_bot g) * g_dr g in
  let z_shift := IZR (g_left g) * g_dz g in
  match refl_loop fuel (pos_r p - r_shift, pos_z p - z_shift, vel_r p, vel_z p) with
  | None => None
  | Some (pr, pz, vr, vz) =>
      Some {| pos_r := pr + r_shift; pos_phi := pos_phi p; pos_z := pz + z_shift;
              vel_r := vr; vel_phi := vel_phi p; vel_z := vz; p_sin := p_sin p; weight := weight p |}
  end.

(** beamP.cpp:159-177 [BeamP::reflect] *)
Definition beam_reflect (p : part) : part :=
  let r_shift := IZR (g_bot g) * g_dr g in
  let pr := pos_r p - r_shift in
  if Rltb pr half_dr && w_r0 g then
    {| pos_r := g_dr g - pr + r_shift; pos_phi := pos_phi p; pos_z := pos_z p;
       vel_r := - vel_r p; vel_phi := vel_phi p; vel_z := vel_z p; p_sin := p_sin p; weight := weight p |}
  else p.
End Reflect.

(** * Return to the r-z half plane *)
(** specieP.cpp:609-622 [back_position_to_rz] *)
Definition back_position (p : part) : part :=
  let r := sqrt (pos_r p * pos_r p + pos_phi p * pos_phi p) in
  {| pos_r := r; pos_phi := 0; pos_z := pos_z p; vel_r := vel_r p; vel_phi := vel_phi p; vel_z := vel_z p;
     p_sin := pos_phi p / r; weight := weight p |}.
(** specieP.cpp:624-641 [back_velocity_to_rz]; specieP.hpp:66 [P_COS] *)
Definition back_velocity (p : part) : part :=
  let s := p_sin p in
  let c := sqrt (1 - s * s) in
  {| pos_r := pos_r p; pos_phi := pos_phi p; pos_z := pos_z p;
     vel_r := c * vel_r p - s * vel_phi p; vel_phi := s * vel_r p + c * vel_phi p; vel_z := vel_z p;
     p_sin := s; weight := weight p |}.

(** * Initial weights: specieP.cpp:280-331 [set_weight] *)
(** specieP.cpp:297-300, 319-323: volume attributed to a particle at radius [r] *)
Definition ring_volume (dr dz r : R) : R := if Rltb (dr / 2) r then 2 * PI * r * dr * dz else PI * r * r * dz.
Section SetWeight.
Variable g : geo.
(** density at the left and at the right end *)
Variables dens0 dens1 : R.
Variable macro_amount : Z.
(** specieP.cpp:287-293 *)
Definition filled_z_size : R := IZR (g_right g - g_left g) * g_dz g - (if w_zz g then g_dz g else 0).
(** specieP.cpp:304-310 *)
Definition top_r_num : R := IZR (g_top g) - (if w_rr g then 1 else 0).
Definition N_total : R :=
  (dens0 + dens1) / 2 * PI * g_dr g * g_dr g * (top_r_num * top_r_num - IZR (g_bot g) * IZR (g_bot g)) * filled_z_size.
(** specieP.cpp:295-302 *)
Definition v_sum (rs : list R) : R := fold_left (fun acc r => acc + ring_volume (g_dr g) (g_dz g) r) rs 0.
Definition v_avg (rs : list R) : R := v_sum rs / IZR macro_amount.
(** specieP.cpp:312-330: the weights of particles at the given radii *)
Definition set_weight (rs : list R) : list R :=
  map (fun r => N_total / IZR macro_amount * (ring_volume (g_dr g) (g_dz g) r / v_avg rs)) rs.
End SetWeight.

(** specieP.cpp:178-179: the z position of a particle for a linear density profile *)
Definition linear_profile_z (z_size dl dn u : R) : R := z_size / dn * (sqrt (dl ^ 2 + u * (2 * dl * dn + dn ^ 2)) - dl).

(** * Weighting to the grid: weighter.hpp:28-132 [weight_cylindrical] *)
(** geometry.hpp:186-198; [CELL_VOLUME] with the macro argument pasted: [2.0 * r_i + 1] and [2.0 * r_i + 1 + 1] *)
Definition cell_number (pos dx : R) : Z := Int_part (pos / dx).
Definition cell_volume_i (i : Z) (dr dz : R) : R := PI * dz * dr * dr * (2 * IZR i + 1).
Definition cell_volume_i1 (i : Z) (dr dz : R) : R := PI * dz * dr * dr * (2 * IZR i + 1 + 1).
Definition cyl_rng_vol (z r1 r2 : R) : R := PI * z * (r2 * r2 - r1 * r1).
Definition cyl_vol (z r : R) : R := PI * z * r * r.
(** the four increments, as cell indices of the domain and density *)
Definition weight_cylindrical (dr dz : R) (bottom left : Z) (pr pz w : R) : list (Z * Z * R) :=
  let i := cell_number pr dr in
  let k := cell_number pz dz in
  let is := u32 (i - bottom) in
  let ks := u32 (k - left) in
  let v1 := cell_volume_i i dr dz in
  let v2 := cell_volume_i1 i dr dz in
  let dz1 := (IZR k + / 2) * dz - (pz - / 2 * dz) in
  let dz2 := (pz + / 2 * dz) - (IZR k + / 2) * dz in
  if Rltb dr pr then
    let r1 := pr - / 2 * dr in let r2 := (IZR i + / 2) * dr in let r3 := pr + / 2 * dr in
    let rho := w / (2 * PI * dz * dr * pr) in
    [ (is, ks, rho * (cyl_rng_vol dz1 r1 r2 / v1)); (u32 (is + 1), ks, rho * (cyl_rng_vol dz1 r2 r3 / v2));
      (is, u32 (ks + 1), rho * (cyl_rng_vol dz2 r1 r2 / v1)); (u32 (is + 1), u32 (ks + 1), rho * (cyl_rng_vol dz2 r2 r3 / v2)) ]
  else if Rleb pr (dr / 2) then
    let r2 := (IZR 0 + / 2) * dr in let r3 := pr + / 2 * dr in
    let rho := w / (PI * dz * (2 * pr * pr + dr * dr / 2)) in
    [ (is, ks, rho * (PI * dz1 * (dr * dr / 2 - pr * dr + pr * pr) / v1)); (u32 (is + 1), ks, rho * (cyl_rng_vol dz1 r2 r3 / v2));
      (is, u32 (ks + 1), rho * (PI * dz2 * (dr * dr / 2 - pr * dr + pr * pr) / v1)); (u32 (is + 1), u32 (ks + 1), rho * (cyl_rng_vol dz2 r2 r3 / v2)) ]
  else
    let r1 := pr - / 2 * dr in let r2 := (IZR i + / 2) * dr in let r3 := pr + / 2 * dr in
    let rho := w / (2 * PI * dz * dr * pr) in
    let v1 := cyl_vol dz dr in
    [ (is, ks, rho * (cyl_rng_vol dz1 r1 r2 / v1)); (u32 (is + 1), ks, rho * (cyl_rng_vol dz1 r2 r3 / v2));
      (is, u32 (ks + 1), rho * (cyl_rng_vol dz2 r1 r2 / v1)); (u32 (is + 1), u32 (ks + 1), rho * (cyl_rng_vol dz2 r2 r3 / v2)) ].
