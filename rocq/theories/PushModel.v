(** Model of the relativistic helpers and of the particle pushers: src/phys/rel.cpp, include/math/vector3d.hpp,
    src/pusher/*.cpp.
    Exact real arithmetic; the speed of light is a parameter (constant.hpp:45 has 3.0E8), so that dimensional mistakes can
    be told from others.  The fields at the particle's position are given (their interpolation is in ExtModel).
    Positions are real numbers, so the check for NaN and infinity in pusherBoris.cpp:51-57 never fires. *)
From Coq Require Import Reals.
From Verif Require Import Base.
Open Scope R_scope.

(** [a < b] as a C++ condition *)
Definition rlt (a b : R) : bool := if Rlt_dec a b then true else false.
Definition req (a b : R) : bool := if Req_EM_T a b then true else false.

(** vector3d.hpp:27-31 *)
Record v3 : Type := V3 { vx : R; vy : R; vz : R }.
(** vector3d.hpp:113-120, 179-186 *)
Definition vadd (a b : v3) : v3 := V3 (vx a + vx b) (vy a + vy b) (vz a + vz b).
(** vector3d.hpp:132-139, 197-204 *)
Definition vsub (a b : v3) : v3 := V3 (vx a - vx b) (vy a - vy b) (vz a - vz b).
(** vector3d.hpp:142-149, 224-231 *)
Definition vscale (k : R) (a : v3) : v3 := V3 (vx a * k) (vy a * k) (vz a * k).
(** vector3d.hpp:270-278 *)
Definition vdot (a b : v3) : R := vx a * vx b + vy a * vy b + vz a * vz b.
(** vector3d.hpp:294-297 *)
Definition len2 (a : v3) : R := vx a * vx a + vy a * vy a + vz a * vz a.
(** vector3d.hpp:299-302 *)
Definition vlen (a : v3) : R := sqrt (len2 a).
(** vector3d.hpp:280-292: the new value of [*this], and the value returned *)
Definition vcross (a b : v3) : v3 * v3 :=
  let t := V3 (vy a * vz b - vz a * vy b) (vz a * vx b - vx a * vz b) (vx a * vy b - vy a * vx b) in (t, t).

(** constant.hpp:45, 49, configure.ac:224 *)
Definition LIGHT_VEL : R := 300000000.
Definition MAGN_CONST : R := 126 / 100000000.
Definition REL_LIMIT : R := 50000000.

Section Rel.
Variable c : R.

(** rel.cpp:24-45; the infinite gamma at the speed of light is replaced by 1e100 *)
Definition lorenz_factor (sq : R) : outcome R :=
  let beta := sq / (c * c) in
  if rlt 1 beta then Fatal
  else if req beta 1 then Ok (10 ^ 100)
  else Ok (1 / sqrt (1 - beta)).
(** rel.cpp:47-55; [pow(x, -0.5)] *)
Definition lorenz_factor_inv (sq : R) : R := / sqrt (1 + sq / (c * c)).
(** rel.cpp:57-64 *)
Definition momentum_0 (mass : R) (v : v3) : outcome R :=
  if req mass 0 then Fatal else do g <- lorenz_factor (len2 v); Ok (g * mass * c).
(** rel.cpp:66-72 *)
Definition momentum (mass : R) (v : v3) : outcome v3 :=
  if req mass 0 then Fatal else do g <- lorenz_factor (len2 v); Ok (vscale mass (vscale g v)).
(** rel.cpp:74-86, with REL_LIMIT as parameter *)
Variable lim : R.
Definition energy (mass v2 : R) : outcome R :=
  if rlt (lim * lim) v2 then do g <- lorenz_factor v2; Ok ((g - 1) * mass * (c * c))
  else Ok (1 / 2 * mass * v2).
(** rel.cpp:88-101 *)
Definition energy_m (mass p2 : R) : R :=
  if rlt (lim * lim * mass * mass) p2 then
    let e_rest := mass * (c * c) in sqrt (p2 * (c * c) + e_rest * e_rest) - e_rest
  else 1 / 2 * p2 / mass.

(** ** Pushers.  [k] is charge * step / (2 * mass) *)
(** pusherBoris.cpp:111-128 *)
Definition boris_rotate (v b : v3) : v3 :=
  let c2 := 2 / (1 + len2 b) in
  V3 (vx v + c2 * ((vy v - vx v * vz b + vz v * vx b) * vz b - (vz v + vx v * vy b - vy v * vx b) * vy b))
     (vy v + c2 * (- (vx v + vy v * vz b - vz v * vy b) * vz b + (vz v + vx v * vy b - vy v * vx b) * vx b))
     (vz v + c2 * ((vx v + vy v * vz b - vz v * vy b) * vy b - (vy v - vx v * vz b + vz v * vx b) * vx b)).
(** pusherBoris.cpp:69-148 without and with the relativistic parts *)
Definition boris_classic (k mu : R) (e b v : v3) : v3 :=
  let e := vscale k e in let b := vscale (k * mu) b in
  vadd (boris_rotate (vadd v e) b) e.
Definition boris_relativistic (k mu : R) (e b v : v3) : outcome v3 :=
  let e := vscale k e in let b := vscale (k * mu) b in
  do g <- lorenz_factor (len2 v);
  let u := vadd (vscale g v) e in
  let b := vscale (lorenz_factor_inv (len2 u)) b in
  let u := vadd (boris_rotate u b) e in
  Ok (vscale (lorenz_factor_inv (len2 u)) u).
(** SWITCH_PUSHER_BORIS_ADAPTIVE: [use_rel] (line 38) has no value unless line 76 sets it *)
Definition boris_adaptive (k mu : R) (e b v : v3) : outcome v3 :=
  let use_rel : option bool := if rlt (lim * lim) (len2 v) then Some true else None in
  match use_rel with
  | None => UB
  | Some true => boris_relativistic k mu e b v
  | Some false => Ok (boris_classic k mu e b v)
  end.

(** pusherVay.cpp:56-111 *)
Definition vay_momentum (b up : v3) : v3 :=
  let alpha := 1 + len2 up in
  let B2 := len2 b in
  let s := alpha - B2 in
  let us2 := vdot up b * vdot up b in
  let alpha := 1 / sqrt (1 / 2 * (s + sqrt (s * s + 4 * (B2 + us2)))) in
  let b := vscale alpha b in
  let s := 1 / (1 + len2 b) in
  let alpha := vdot up b in
  V3 (s * (vx up + alpha * vx b + vz b * vy up - vy b * vz up))
     (s * (vy up + alpha * vy b + vx b * vz up - vz b * vx up))
     (s * (vz up + alpha * vz b + vy b * vx up - vx b * vy up)).
Definition vay_prime (k mu : R) (e b u : v3) : v3 :=
  let up := vadd u (vscale (2 * k) e) in
  let b := vscale (k * mu) b in
  let g := lorenz_factor_inv (len2 u) in
  V3 (vx up + g * (vy u * vz b - vz u * vy b)) (vy up + g * (vz u * vx b - vx u * vz b)) (vz up + g * (vx u * vy b - vy u * vx b)).
Definition vay (k mu : R) (e b v : v3) : outcome v3 :=
  do g <- lorenz_factor (len2 v);
  let u := vscale g v in
  let psm := vay_momentum (vscale (k * mu) b) (vay_prime k mu e b u) in
  Ok (vscale (lorenz_factor_inv (len2 psm)) psm).

(** pusherHC.cpp:75-101: from [um] and the scaled magnetic field to [up] *)
Definition hc_gamma (b um : v3) : R :=
  let gfm2 := 1 + len2 um in
  let B2 := len2 b in
  1 / sqrt (1 / 2 * (gfm2 - B2 + sqrt ((gfm2 - B2) * (gfm2 - B2) + 4 * (B2 + (vx b * vx um + vy b * vy um + vz b * vz um) * (vx b * vx um + vy b * vy um + vz b * vz um))))).
Definition hc_rotate (b um : v3) : v3 :=
  let c0 := vx b * vy b in let c1 := vy b * vz b in let c2 := vz b * vx b in
  let b0 := vx b * vx b in let b1 := vy b * vy b in let b2 := vz b * vz b in
  let d := 1 / (1 + b0 + b1 + b0) in
  V3 (((1 + b0 - b1 - b2) * vx um + 2 * (c0 + vz b) * vy um + 2 * (c2 - vz b) * vz um) * d)
     ((2 * (c0 - vz b) * vx um + (1 - b0 + b1 - b2) * vy um + 2 * (c1 + vx b) * vz um) * d)
     ((2 * (c2 + vy b) * vx um + 2 * (c1 - vx b) * vy um + (1 - b0 - b1 + b2) * vz um) * d).
(** pusherHC.cpp:61-114 *)
Definition hc (k mu : R) (e b v : v3) : outcome v3 :=
  do g <- lorenz_factor (len2 v);
  let u := vscale g v in
  let e := vscale k e in
  let um := vadd u e in
  let b := vscale (k * mu) b in
  let b := vscale (hc_gamma b um) b in
  let psm := vadd e (hc_rotate b um) in
  Ok (vscale (lorenz_factor_inv (len2 psm)) psm).
End Rel.

(** ** The conversion from momentum to velocity (lorenz_factor_inv and the multiplication that follows it in all three
    pushers) and the check of lorenz_factor in the next step, with every operation rounded by [rnd]; [pw] is
    [pow(x, -0.5)].  c^2 = 9e16 is exact. *)
Section Rounded.
Variable rnd pw : R -> R.
Variable c2 : R.
Definition len2_r (v : v3) : R := rnd (rnd (rnd (vx v * vx v) + rnd (vy v * vy v)) + rnd (vz v * vz v)).
Definition vel_r (u : v3) : v3 :=
  let g := pw (rnd (1 + rnd (len2_r u / c2))) in V3 (rnd (vx u * g)) (rnd (vy u * g)) (rnd (vz u * g)).
Definition beta_r (v : v3) : R := rnd (len2_r v / c2).
End Rounded.

(** the same in IEEE double precision, for a momentum along one axis (the other two squares add zero) *)
From Coq Require Import Floats.SpecFloat ZArith.
Section Binary64.
Variable pw : spec_float -> spec_float.
Local Notation mul := (SFmul 53 1024).
Local Notation div := (SFdiv 53 1024).
Local Notation add := (SFadd 53 1024).
Definition f_c2 : spec_float := binary_normalize 53 1024 90000000000000000 0 false.
Definition f_one : spec_float := binary_normalize 53 1024 1 0 false.
Definition f_zero : spec_float := S754_zero false.
Definition len2_64 (x : spec_float) : spec_float := add (add (mul x x) (mul f_zero f_zero)) (mul f_zero f_zero).
Definition vel_64 (u : spec_float) : spec_float := mul u (pw (add f_one (div (len2_64 u) f_c2))).
Definition lorenz_fatal_64 (v : spec_float) : bool := SFltb f_one (div (len2_64 v) f_c2).
End Binary64.
