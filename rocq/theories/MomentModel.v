(** Model of the diagnostics of the particles: density, momentum, energy and temperature per cell
    (src/specieP.cpp:665-840).  Exact real arithmetic; a map is the function from cells to values that the grid
    holds after the pass (bounds of the accesses: ThmGrid, ThmParticle C34/C35, ThmInit2 C85). *)
From Coq Require Import Reals.
From Verif Require Import Base RndUtil PushModel ParticleModel.
Open Scope R_scope.

(** value of cell (i, k) after adding a list of increments to a cleared grid (grid.hpp inc) *)
Definition cell_sum (l : list (Z * Z * R)) (i k : Z) : R :=
  fold_right (fun e acc => let '(a, b, x) := e in if (a =? i)%Z && (b =? k)%Z then x + acc else acc) 0 l.

Section Moments.
Variables dr dz : R.
Variables bottom left : Z.
Variables c lim : R.
Variable mass : R.

(** the loops [for (auto i = particles.begin(); ...) weight_cylindrical (geometry, &map, r, z, value)] *)
Definition deposit (val : part -> R) (ps : list part) (i k : Z) : R :=
  cell_sum (flat_map (fun p => weight_cylindrical dr dz bottom left (pos_r p) (pos_z p) (val p)) ps) i k.

Definition vel2 (p : part) : R := vel_r p * vel_r p + vel_phi p * vel_phi p + vel_z p * vel_z p.
(** rel.cpp:24-45 below the velocity of light; [lorenz_factor] itself is in PushModel *)
Definition gamma (v2 : R) : R := 1 / sqrt (1 - v2 / (c * c)).
(** specieP.cpp:752-770 one component of the momentum of a particle; the factor is applied only if [v_abs_2 < REL_LIMIT_POW_2] *)
Definition mom_val (comp : part -> R) (p : part) : R :=
  let m := mass * weight p * comp p in
  if rlt (vel2 p) (lim * lim) then m * gamma (vel2 p) else m.
(** specieP.cpp:724-736, [v_abs < REL_LIMIT] *)
Definition abs_val (p : part) : R :=
  let v_abs := sqrt (vel2 p) in
  let m := mass * weight p * v_abs in
  if rlt v_abs lim then m * gamma (v_abs * v_abs) else m.

(** the maps of specieP.hpp that the calculations share *)
Record maps := { density_map : Z -> Z -> R; mom_r_w : Z -> Z -> R; mom_phi_w : Z -> Z -> R; mom_z_w : Z -> Z -> R;
  mom_abs_w : Z -> Z -> R; temperature_map : Z -> Z -> R; energy_map : Z -> Z -> R;
  mom_r : Z -> Z -> R; mom_phi : Z -> Z -> R; mom_z : Z -> Z -> R }.
Definition zero_map : Z -> Z -> R := fun _ _ => 0.
(** specieP.cpp:60-67 constructor: the grids are created with [new T[..]], so their content is whatever the memory holds;
    the content of the map that is read before it is written is a parameter *)
Definition new_maps (memory : Z -> Z -> R) : maps := {| density_map := zero_map; mom_r_w := zero_map; mom_phi_w := zero_map; mom_z_w := zero_map;
  mom_abs_w := memory; temperature_map := zero_map; energy_map := zero_map; mom_r := zero_map; mom_phi := zero_map; mom_z := zero_map |}.

(** specieP.cpp:665-676 *)
Definition calc_density (ps : list part) (s : maps) : maps :=
  {| density_map := deposit weight ps; mom_r_w := mom_r_w s; mom_phi_w := mom_phi_w s; mom_z_w := mom_z_w s; mom_abs_w := mom_abs_w s;
     temperature_map := temperature_map s; energy_map := energy_map s; mom_r := mom_r s; mom_phi := mom_phi s; mom_z := mom_z s |}.
(** specieP.cpp:745-788 *)
Definition calc_momentum_w (ps : list part) (s : maps) : maps :=
  {| density_map := density_map s; mom_r_w := deposit (mom_val vel_r) ps; mom_phi_w := deposit (mom_val vel_phi) ps;
     mom_z_w := deposit (mom_val vel_z) ps; mom_abs_w := mom_abs_w s;
     temperature_map := temperature_map s; energy_map := energy_map s; mom_r := mom_r s; mom_phi := mom_phi s; mom_z := mom_z s |}.
(** specieP.cpp:716-743 *)
Definition calc_momentum_abs_w (ps : list part) (s : maps) : maps :=
  {| density_map := density_map s; mom_r_w := mom_r_w s; mom_phi_w := mom_phi_w s; mom_z_w := mom_z_w s; mom_abs_w := deposit abs_val ps;
     temperature_map := temperature_map s; energy_map := energy_map s; mom_r := mom_r s; mom_phi := mom_phi s; mom_z := mom_z s |}.

(** constant.hpp EL_CHARGE_INV *)
Variable inv_charge : R.
(** specieP.cpp:690-712 one cell *)
Definition temperature_cell (s : maps) (i k : Z) : R :=
  let d := density_map s i k in
  if req d 0 then 0
  else
    let vec2 := mom_r_w s i k * mom_r_w s i k + mom_phi_w s i k * mom_phi_w s i k + mom_z_w s i k * mom_z_w s i k in
    let sc2 := mom_abs_w s i k * mom_abs_w s i k - vec2 in
    energy_m c lim mass (sc2 / (d * d)) * inv_charge.
(** specieP.cpp:678-714; [calc_momentum_abs_w] is not called *)
Definition calc_temperature (ps : list part) (s : maps) : maps :=
  let s := calc_momentum_w ps (calc_density ps s) in
  {| density_map := density_map s; mom_r_w := mom_r_w s; mom_phi_w := mom_phi_w s; mom_z_w := mom_z_w s; mom_abs_w := mom_abs_w s;
     temperature_map := temperature_cell s; energy_map := energy_map s; mom_r := mom_r s; mom_phi := mom_phi s; mom_z := mom_z s |}.
(** specieP.cpp:800-821 one cell *)
Definition energy_cell (s : maps) (i k : Z) : R :=
  let d := density_map s i k in
  if req d 0 then 0
  else energy_m c lim mass (mom_abs_w s i k * mom_abs_w s i k / (d * d)) * inv_charge.
(** specieP.cpp:790-822 *)
Definition calc_energy (ps : list part) (s : maps) : maps :=
  let s := calc_momentum_abs_w ps (calc_density ps s) in
  {| density_map := density_map s; mom_r_w := mom_r_w s; mom_phi_w := mom_phi_w s; mom_z_w := mom_z_w s; mom_abs_w := mom_abs_w s;
     temperature_map := temperature_map s; energy_map := energy_cell s; mom_r := mom_r s; mom_phi := mom_phi s; mom_z := mom_z s |}.
(** specieP.cpp:832-838 one cell of a cleared map *)
Definition mean_cell (d m : Z -> Z -> R) (i k : Z) : R := if req (d i k) 0 then 0 else m i k / d i k.
(** specieP.cpp:824-840 *)
Definition calc_momentum (ps : list part) (s : maps) : maps :=
  let s := calc_momentum_w ps (calc_density ps s) in
  {| density_map := density_map s; mom_r_w := mom_r_w s; mom_phi_w := mom_phi_w s; mom_z_w := mom_z_w s; mom_abs_w := mom_abs_w s;
     temperature_map := temperature_map s; energy_map := energy_map s;
     mom_r := mean_cell (density_map s) (mom_r_w s); mom_phi := mean_cell (density_map s) (mom_phi_w s); mom_z := mean_cell (density_map s) (mom_z_w s) |}.

(** the calls of the diagnostics on one species: outController.cpp:390-410, domain.cpp:100-118, collisions.cpp:223-224;
    the particles move in between, so every call has its own list *)
Inductive call := CallDensity (ps : list part) | CallTemperature (ps : list part) | CallEnergy (ps : list part) | CallMomentum (ps : list part).
Definition run_call (s : maps) (x : call) : maps :=
  match x with
  | CallDensity ps => calc_density ps s
  | CallTemperature ps => calc_temperature ps s
  | CallEnergy ps => calc_energy ps s
  | CallMomentum ps => calc_momentum ps s
  end.
Definition run_calls (l : list call) (s : maps) : maps := fold_left run_call l s.
End Moments.
