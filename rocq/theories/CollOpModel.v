(** Model of the collision operators: src/collisions.cpp, src/collisions/collisionsTA77S.cpp, collisionsSK98.cpp,
    collisionsP12.cpp, src/phys/plasma.cpp.
    Exact real arithmetic.  Where the code would divide by zero (and go on with NaN or infinity) the model says so
    explicitly.  Random draws are parameters.  The pairing of particles is in CollModel. *)
From Coq Require Import Reals List.
From Verif Require Import Base PushModel.
Import ListNotations.
Open Scope R_scope.

(** a macroparticle: weight and velocity (specieP.hpp: P_WEIGHT, P_VEL_R, P_VEL_PHI, P_VEL_Z) *)
Record part : Type := Part { weight : R; velocity : v3 }.

(** ** Sums over the particles of one species in a cell, collisions.cpp:172-221
    (and once more collisionsTA77S.cpp:434-463) *)
Fixpoint amount_tot (l : list part) : R :=
  match l with [] => 0 | p :: l => weight p + amount_tot l end.
Fixpoint moment_tot (mass : R) (l : list part) : v3 :=
  match l with [] => V3 0 0 0 | p :: l => vadd (vscale (weight p * mass) (velocity p)) (moment_tot mass l) end.
Fixpoint energy_tot (mass : R) (l : list part) : R :=
  match l with [] => 0 | p :: l => weight p * mass * len2 (velocity p) / 2 + energy_tot mass l end.

(** geometry.hpp:186 and collisions.cpp:163-170.  CELL_VOLUME(i+shift, dr, dz) is PI * dz * dr * dr * (2.0 * i+shift + 1) *)
Definition geometry_cell_volume (dr dz : R) (shift i : Z) : R := PI * dz * dr * dr * (2 * IZR i + IZR shift + 1).
(** collisions.cpp:122-146 *)
Definition density (dr dz : R) (shift i : Z) (l : list part) : R := amount_tot l / geometry_cell_volume dr dz shift i.

(** ** Which cells collide *)
(** a cell: its ions and its electrons *)
Definition cell : Type := (list part * list part)%type.
(** [isnormal(e_tot / amount * EL_CHARGE_INV)] (collisions.cpp:148-161): neither 0 / 0, nor infinite, nor zero *)
Definition normal_quot (a b : R) : bool := negb (req b 0) && negb (req a 0).
(** collisionsTA77S.cpp:231-240 *)
Definition cell_normal (m_ion m_el dr dz : R) (shift i : Z) (x : cell) : bool :=
  normal_quot (energy_tot m_ion (fst x)) (amount_tot (fst x)) &&
  normal_quot (energy_tot m_el (snd x)) (amount_tot (snd x)) &&
  normal_quot (amount_tot (fst x)) (geometry_cell_volume dr dz shift i) &&
  normal_quot (amount_tot (snd x)) (geometry_cell_volume dr dz shift i).
(** the inner loop over j from [j] with [break] (collisionsTA77S.cpp:226-240): the cells that get past the checks *)
Fixpoint collide_row (ok : Z -> bool) (i j : Z) (fuel : nat) : list (Z * Z) :=
  match fuel with
  | O => []
  | S f => if ok j then (i, j) :: collide_row ok i (j + 1) f else []
  end.
(** lines 225-226 *)
Definition collide_cells (m_ion m_el dr dz : R) (shift : Z) (nr nz : nat) (cells : Z -> Z -> cell) : list (Z * Z) :=
  flat_map (fun i => collide_row (fun j => cell_normal m_ion m_el dr dz shift (Z.of_nat i) (cells (Z.of_nat i) j)) (Z.of_nat i) 0 nz)
           (seq 0 nr).

(** ** TA77S *)
(** correct_velocities, collisionsTA77S.cpp:419-566, for one species of one cell.  [amount0], [moment0], [energy0] were
    collected before the collisions. *)
Definition correct_velocities (mass amount0 : R) (moment0 : v3) (energy0 : R) (l : list part) : list part :=
  let moment_new := moment_tot mass l in
  let e_new := energy_tot mass l in
  let mass_tot := amount0 * mass in
  let delta_v := vscale (/ mass_tot) (vsub moment_new moment0) in
  let v_0 := vscale (/ mass_tot) moment0 in
  let delta_e := e_new - energy0 in
  let num := energy0 - mass_tot * len2 v_0 / 2 in
  let den := energy0 + delta_e - mass_tot * len2 (vadd v_0 delta_v) / 2 in
  if req mass_tot 0 then l
  else if normal_quot num den then
    let alpha := num / den in
    let alpha := if rlt alpha 0 then - alpha else alpha in
    let alpha := if req alpha 0 then 1 else alpha in
    let alpha := sqrt alpha in
    map (fun p => Part (weight p) (vadd v_0 (vscale alpha (vsub (vsub (velocity p) v_0) delta_v)))) l
  else l.

(** lines 143-178: change of the relative velocity [u] for the angles given by their sines and cosines *)
Definition ta77_delta (u : v3) (s c phi : R) : v3 :=
  let ua := sqrt (vx u * vx u + vy u * vy u + vz u * vz u) in
  let up := sqrt (vx u * vx u + vy u * vy u) in
  if req up 0 then V3 (ua * s * cos phi) (ua * s * sin phi) (- ua * (1 - c))
  else V3 (vx u / up * vz u * s * cos phi - vy u / up * ua * s * sin phi - vx u * (1 - c))
          (vy u / up * vz u * s * cos phi + vx u / up * ua * s * sin phi - vy u * (1 - c))
          (up * s * cos phi - vz u * (1 - c)).
(** lines 115-116 *)
Definition sin_theta (delta : R) : R := 2 * delta / (1 + delta * delta).
Definition cos_theta (delta : R) : R := 1 - 2 * (delta * delta) / (1 + delta * delta).
(** lines 119-126 *)
Definition cos_theta2 (w delta : R) : R := 1 - w * (1 - cos_theta delta).
Definition sin_theta2 (w delta : R) : R :=
  let s := sin_theta delta in let c := cos_theta delta in
  let s2 := sqrt (w * (s * s) + w * (1 - w) * ((1 - c) * (1 - c))) in
  if rlt (s2 * s) 0 then - s2 else s2.
(** lines 84-186 with [w] the weight ratio, at most one; the draws [delta] (line 112), [phi] (129), [dzeta] (135) *)
Definition ta77_sorted (ma mb w : R) (va vb : v3) (delta phi dzeta : R) : v3 * v3 :=
  let m_ab := ma * mb / (ma + mb) in
  let u := vsub va vb in
  if req (sqrt (vx u * vx u + vy u * vy u + vz u * vz u)) 0 then (va, vb) else
  let phi2 := phi + 2 * PI * (1 - sqrt w) * (1 - dzeta) in
  let d := ta77_delta u (sin_theta delta) (cos_theta delta) phi in
  let d2 := ta77_delta u (sin_theta2 w delta) (cos_theta2 w delta) phi2 in
  (vadd va (vscale (m_ab / ma) d), vadd vb (vscale (m_ab / mb) d2)).
(** lines 31-208: the new velocities of pa and pb *)
Definition ta77_single (ma mb : R) (pa pb : part) (delta phi dzeta : R) : v3 * v3 :=
  let w := weight pa / weight pb in
  if rlt 1 w then
    let '(a, b) := ta77_sorted mb ma (1 / w) (velocity pb) (velocity pa) delta phi dzeta in (b, a)
  else ta77_sorted ma mb w (velocity pa) (velocity pb) delta phi dzeta.

(** ** SK98 and P12 *)
(** what happens to the velocity of a particle; [SetNaN]: some component is not a number *)
Inductive update : Type := Keep | Set_to (v : v3) | SetNaN.
(** of the pair; [Died]: stopped by LOG_S(FATAL) *)
Inductive coll : Type := Died | Pair (a b : update).
Definition swap_coll (x : coll) : coll := match x with Pair a b => Pair b a | Died => Died end.

Section Relativistic.
(** speed of light, permittivity, Planck's constant (constant.hpp:42-66), MNZL, REL_LIMIT, time step *)
Variables (c eps0 hbar mnzl lim step : R).

Definition veqb (a b : v3) : bool := req (vx a) (vx b) && req (vy a) (vy b) && req (vz a) (vz b).

(** plasma.cpp:42-52 *)
Definition coulomb_logarithm (ma mb debye v_rel : R) : R := Rmax 2 (ln (debye * (ma * mb / (ma + mb)) * v_rel / hbar)).
(** plasma.cpp:54-63 *)
Definition collision_frequency (ea eb dens L p_rel v_rel : R) : R :=
  (ea * eb) ^ 2 * dens * L / (8 * PI * eps0 ^ 2 * p_rel ^ 2 * v_rel).

(** collisionsTA77S.cpp:84-106: the variance of [delta] *)
Definition ta77_variance (ma mb qa qb : R) (va vb : v3) (na nb debye : R) : R :=
  let m_ab := ma * mb / (ma + mb) in
  let u := vsub va vb in let ua := sqrt (vx u * vx u + vy u * vy u + vz u * vz u) in
  qa ^ 2 * qb ^ 2 * Rmin na nb * coulomb_logarithm ma mb debye ua / (8 * PI * eps0 ^ 2 * m_ab ^ 2 * ua ^ 3) * step.
(** collide_single of TA77S with the draw of line 111; after the exchange of the particles (lines 64-79) line 104 takes the
    exchanged masses, charges and densities *)
Definition ta77_draw (ma mb qa qb : R) (pa pb : part) (na nb debye : R) (normal : R -> R) (phi dzeta : R) : v3 * v3 :=
  let variance := if rlt 1 (weight pa / weight pb) then ta77_variance mb ma qb qa (velocity pb) (velocity pa) nb na debye
                  else ta77_variance ma mb qa qb (velocity pa) (velocity pb) na nb debye in
  ta77_single ma mb pa pb (normal (sqrt variance)) phi dzeta.

(** collisionsSK98.cpp:112-115 and 199-202 (the same lines are collisionsP12.cpp:120-122, 256-259): the boosts *)
Definition boost (g : R) (beta p : v3) (p0 : R) : v3 :=
  vsub (vadd p (vscale (/ len2 beta) (vscale (g - 1) (vscale (vdot beta p) beta)))) (vscale p0 (vscale g beta)).
Definition unboost (g : R) (beta p : v3) (p0_cm : R) : v3 :=
  vadd (vadd p (vscale (/ len2 beta) (vscale (g - 1) (vscale (vdot beta p) beta)))) (vscale p0_cm (vscale g beta)).
Definition vneg (a : v3) : v3 := V3 (- vx a) (- vy a) (- vz a).

(** collisionsSK98.cpp:89-145, collisionsP12.cpp:93-148: what is known after the boost.  P12 computes the Lorentz factors
    in the center-of-mass frame by another formula (lines 130-131) with the same value *)
Record cm : Type := CM {
  cm_beta : v3; cm_gamma : R; cm_p0a : R; cm_p0b : R; cm_pa : v3; cm_va : v3; cm_vb : v3; cm_vrel : R; cm_grel : R; cm_prel : R }.
(** [None]: the total momentum vanishes, lines 114 and 121 divide zero by zero *)
Definition to_cm (ma mb : R) (va vb : v3) : outcome (option cm) :=
  do p0a <- momentum_0 c ma va;
  do p0b <- momentum_0 c mb vb;
  do pa <- momentum c ma va;
  do pb <- momentum c mb vb;
  let beta := vscale (/ (p0a + p0b)) (vadd pa pb) in
  do g <- lorenz_factor c (len2 beta * (c * c));
  if req (len2 beta) 0 then Ok None else
  let p0a_cm := g * (p0a - vdot beta pa) in
  let p0b_cm := g * (p0b - vdot beta pb) in
  let pa_cm := boost g beta pa p0a in
  let pb_cm := vneg pa_cm in
  let ga_cm := p0a_cm / ma / c in
  let gb_cm := p0b_cm / mb / c in
  let va_cm := vscale (/ (ma * ga_cm)) pa_cm in
  let vb_cm := vscale (/ (mb * gb_cm)) pb_cm in
  let v_rel := (vlen va_cm - vlen vb_cm) / (1 - vdot va_cm vb_cm / (c * c)) in
  do g_rel <- lorenz_factor c (v_rel * v_rel);
  Ok (Some (CM beta g p0a_cm p0b_cm pa_cm va_cm vb_cm v_rel g_rel (g_rel * mb * v_rel))).

(** collisionsSK98.cpp:208-217: velocity of a momentum *)
Definition to_velocity (mass : R) (p : v3) : v3 :=
  let v := vscale (/ mass) p in vscale (lorenz_factor_inv c (len2 v)) v.

(** lines 182-192; only for a momentum that is not along z *)
Definition sk98_delta (p : v3) (s cs phi : R) : v3 :=
  let pabs := vlen p in let prp := sqrt (vx p * vx p + vy p * vy p) in
  V3 (vx p * vz p / prp * s * cos phi - vy p * pabs / prp * s * sin phi - vx p * (1 - cs))
     (vy p * vz p / prp * s * cos phi + vx p * pabs / prp * s * sin phi - vy p * (1 - cs))
     (- prp * s * cos phi - vz p * (1 - cs)).
(** lines 169-175: the angle in the center-of-mass frame; a zero denominator gives atan of an infinity, or of 0 / 0 *)
Definition sk98_angle (s cs gcm vcm vrel : R) : option R :=
  let den := gcm * (cs - vcm / vrel) in
  if req den 0 then if req s 0 then None else Some (if rlt s 0 then - (PI / 2) else PI / 2)
  else Some (atan (s / den)).

(** lines 86-217; [normal] and [phi] are the draws of lines 167 and 178 *)
Definition sk98_sorted (ma mb qa qb : R) (va vb : v3) (na nb debye : R) (normal : R -> R) (phi : R) : coll :=
  if veqb va vb then Pair Keep Keep else
  match to_cm ma mb va vb with
  | Ok None => Pair SetNaN SetNaN
  | Ok (Some x) =>
    if req (cm_prel x) 0 then Pair Keep Keep
    else if rlt (cm_vrel x) mnzl then Pair Keep Keep
    else
      let L := coulomb_logarithm ma mb debye (cm_vrel x) in
      if negb (rlt 0 L) then Pair Keep Keep else
      let variance := collision_frequency qa qb (Rmin na nb) L (cm_prel x) (cm_vrel x) * step in
      let delta := normal (sqrt variance) in
      match sk98_angle (sin_theta delta) (cos_theta delta) (cm_gamma x) (sqrt (len2 (cm_beta x) * (c * c))) (cm_vrel x) with
      | None => Pair SetNaN SetNaN
      | Some th =>
        let p := cm_pa x in
        if req (vx p * vx p + vy p * vy p) 0 then Pair SetNaN SetNaN else
        let d := sk98_delta p (sin th) (cos th) phi in
        let pa' := unboost (cm_gamma x) (cm_beta x) (vadd p d) (cm_p0a x) in
        let pb' := unboost (cm_gamma x) (cm_beta x) (vsub (vneg p) d) (cm_p0b x) in
        Pair (Set_to (to_velocity ma pa')) (Set_to (to_velocity mb pb'))
      end
  | _ => Died
  end.
(** lines 29-243 *)
Definition sk98_single (ma mb qa qb : R) (pa pb : part) (na nb debye : R) (normal : R -> R) (phi : R) : coll :=
  let w := weight pa / weight pb in
  if rlt 1 w then swap_coll (sk98_sorted mb ma qb qa (velocity pb) (velocity pa) nb na debye normal phi)
  else sk98_sorted ma mb qa qb (velocity pa) (velocity pb) na nb debye normal phi.

(** ** P12 *)
(** collisionsP12.cpp:212-217 *)
Definition p12_ainv (s : R) : R :=
  569578 / 100000000 + 9560202 / 10000000 * s - 508139 / 1000000 * s ^ 2 + 47913906 / 100000000 * s ^ 3
  - 12788975 / 100000000 * s ^ 4 + 2389567 / 100000000 * s ^ 5.
(** lines 207-228: cosine of the scattering angle for the draw [u]; [None]: [log(0)] *)
Definition p12_cos (s u : R) : option R :=
  if rlt s (1 / 10) then if req u 0 then None else Some (1 + s * ln u)
  else if rlt s 3 then
    let a_inv := p12_ainv s in let a := 1 / a_inv in Some (a_inv * ln (exp (- a) + 2 * u * sinh a))
  else if rlt s 6 then
    let a := 3 * exp (- s) in let a_inv := 1 / a in Some (a_inv * ln (exp (- a) + 2 * u * sinh a))
  else Some (2 * u - 1).
(** lines 157-202 *)
Definition p12_s (ma mb qa qb : R) (va vb pa : v3) (na nb L ga gb : R) (x : cm) : R :=
  let dens := na * nb / Rmin na nb in
  let m_ab := ma * mb / (ma + mb) in
  let fast := rlt (lim * lim) (len2 va) || rlt (lim * lim) (len2 vb) in
  let s :=
    if fast then
      dens * step * L * (qa * qb) ^ 2 / (4 * PI * (eps0 * (c * c)) ^ 2 * ma * ga * mb * gb)
      * cm_gamma x * vlen pa / (ma * ga + mb * gb)
      * (ma * (cm_p0a x / ma / c) * mb * (cm_p0b x / mb / c) * (c * c) / len2 (cm_pa x) + 1) ^ 2
    else dens * step * L * (qa * qb) ^ 2 / (4 * PI * (eps0 * m_ab) ^ 2 * cm_vrel x ^ 3) in
  if rlt (cm_vrel x) 1000000 && rlt (7 * 10 ^ 13) dens then
    let smax := Rpower (4 / 3 * PI) (1 / 3) * dens * step * (ma + mb)
                / Rmax (ma * Rpower na (2 / 3)) (mb * Rpower nb (2 / 3)) * cm_vrel x in
    Rmin s smax
  else s.
(** lines 238-247 *)
Definition p12_rotate (p : v3) (s cs phi : R) : v3 :=
  let pabs := vlen p in let prp := sqrt (vx p * vx p + vy p * vy p) in
  V3 (vx p * vz p / prp * s * cos phi - vy p * pabs / prp * s * sin phi + vx p * cs)
     (vy p * vz p / prp * s * cos phi + vx p * pabs / prp * s * sin phi + vy p * cs)
     (- prp * s * cos phi + vz p * cs).
(** lines 90-281 without the conditions of lines 254 and 266: the scattered velocities v_a_prime and v_b_prime ([None]: not
    a number), or an early return *)
Inductive p12_result : Type := P12_died | P12_return | P12_scatter (a b : option v3).
Definition p12_core (ma mb qa qb : R) (va vb : v3) (na nb debye : R) (u phi : R) : p12_result :=
  if veqb va vb then P12_return else
  match to_cm ma mb va vb, lorenz_factor c (len2 va), lorenz_factor c (len2 vb), momentum c ma va with
  | Ok None, _, _, _ => if req na 0 || req nb 0 then P12_return else P12_scatter None None
  | Ok (Some x), Ok ga, Ok gb, Ok pa =>
    if req (cm_prel x) 0 then P12_return
    else if rlt (cm_vrel x) mnzl then P12_return
    else if req na 0 || req nb 0 then P12_return
    else
      let fast := rlt (lim * lim) (len2 va) || rlt (lim * lim) (len2 vb) in
      let debye := if fast then debye * cm_grel x else debye in
      let L := coulomb_logarithm ma mb debye (cm_vrel x) in
      let s := p12_s ma mb qa qb va vb pa na nb L ga gb x in
      match p12_cos s u with
      | None => P12_scatter None None
      | Some cs =>
        if rlt (1 - cs * cs) 0 then P12_scatter None None else
        let p := cm_pa x in
        if req (vx p * vx p + vy p * vy p) 0 then P12_scatter None None else
        let p' := p12_rotate p (sqrt (1 - cs * cs)) cs phi in
        P12_scatter (Some (to_velocity ma (unboost (cm_gamma x) (cm_beta x) p' (cm_p0a x))))
                    (Some (to_velocity mb (unboost (cm_gamma x) (cm_beta x) (vneg p') (cm_p0b x))))
      end
  | _, _, _, _ => P12_died
  end.
(** lines 253-281: a vector that is not computed stays zero (line 253) *)
Definition p12_prime (u_defl w : R) (v : option v3) : option v3 := if rlt u_defl w then v else Some (V3 0 0 0).
Definition set_opt (v : option v3) : update := match v with Some v => Set_to v | None => SetNaN end.
(** lines 29-328 *)
Definition p12_single (ma mb qa qb : R) (pa pb : part) (na nb debye : R) (u phi u_defl : R) : coll :=
  let w := weight pa / weight pb in
  if rlt 1 w then
    let wa := weight pb in let wb := weight pa in
    match p12_core mb ma qb qa (velocity pb) (velocity pa) nb na debye u phi with
    | P12_died => Died
    | P12_return => Pair Keep Keep
    | P12_scatter a b =>
      let va' := p12_prime u_defl wa a in let vb' := p12_prime u_defl wb b in
      (* lines 298-310 *)
      Pair (if rlt u_defl wa then set_opt vb' else Keep) (if rlt u_defl wb then set_opt va' else Keep)
    end
  else
    let wa := weight pa in let wb := weight pb in
    match p12_core ma mb qa qb (velocity pa) (velocity pb) na nb debye u phi with
    | P12_died => Died
    | P12_return => Pair Keep Keep
    | P12_scatter a b =>
      let va' := p12_prime u_defl wa a in let vb' := p12_prime u_defl wb b in
      (* lines 314-326 *)
      Pair (if rlt u_defl wa then set_opt va' else Keep) (if rlt u_defl wb then set_opt vb' else Keep)
    end.
End Relativistic.
