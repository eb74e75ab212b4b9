(** Model of the external fields (src/maxwellSolver/externalFields.cpp) and of the interpolation of a field to the position
    of a particle (include/maxwellSolver.hpp:101-315).  Real numbers instead of doubles. *)
From Coq Require Import Reals String.
From Verif Require Import Base GridModel OverlayModel YeeModel.
Open Scope Z_scope.

(** [s.compare(t)] as a condition: true iff the strings differ *)
Definition compare (s t : string) : bool := negb (String.eqb s t).

(** externalFields.cpp:50-64 *)
Definition e_profile (n : string) : outcome Z :=
  if compare n "none" then Ok 0 else if compare n "const_r" then Ok 1 else if compare n "const_phi" then Ok 2
  else if compare n "const_z" then Ok 3 else if compare n "linerad_r" then Ok 4 else if compare n "linerad_z" then Ok 5 else Fatal.
(** externalFields.cpp:66-79 *)
Definition m_profile (n : string) : outcome Z :=
  if negb (compare n "none") then Ok 0 else if negb (compare n "const_r") then Ok 1 else if negb (compare n "const_phi") then Ok 2
  else if negb (compare n "const_z") then Ok 3 else if negb (compare n "linerad_r") then Ok 4
  else if negb (compare n "linerad_z") then Ok 5 else Fatal.

(** [f = 0; f.overlay_set(0)] *)
Definition zero3 (f : grid3 R) : outcome (grid3 R) := do f0 <- assign_all3 0%R f; overlay_set3 0%R f0.

Section Ext.
Variable g : geo.
Variable eps : grid R.
(** the loops of lines 230-277 (field_e) and 279-326 (field_h); the coefficients computed there are not used,
    [epsilon(i, k)] is read *)
Definition axis_zero (k : Z) (f : grid3 R) : outcome (grid3 R) :=
  do a <- rset (c_r f) 0 k 0%R; do b <- rset (c_z f) 0 k 0%R; Ok (mkGrid3 a (c_phi f) b).
Definition left_zero (i : Z) (f : grid3 R) : outcome (grid3 R) :=
  do b <- rset (c_z f) i 0 0%R; Ok (mkGrid3 (c_r f) (c_phi f) b).
Definition set_z (amp : R) (i k : Z) (f : grid3 R) : outcome (grid3 R) :=
  do _ <- rget eps i k;
  do a <- rset (c_r f) i k 0%R; do b <- rset (c_phi f) i k 0%R; do c <- rset (c_z f) i k amp; Ok (mkGrid3 a b c).
Definition homogenous_z (params : list R) (other f : grid3 R) : outcome (grid3 R * grid3 R) :=
  do o <- zero3 other; do f0 <- zero3 f;
  match params with
  | [] => UB                                                        (* params[0] *)
  | amp :: _ =>
    do f1 <- (if g_w0 g then for_to (z_begin g) (z_end g) axis_zero f0 else Ok f0);
    do f2 <- (if g_w1 g then for_to (r_begin g) (r_end g) left_zero f1 else Ok f1);
    do f3 <- for_to (r_begin g) (r_end g) (fun i => for_to (z_begin g) (z_end g) (set_z amp i)) f2;
    Ok (o, f3)
  end.
(** externalFields.cpp:328-417; state (field_e, field_h) *)
Definition ext_apply (en mn : Z) (ep mp : list R) (s : grid3 R * grid3 R) : outcome (grid3 R * grid3 R) :=
  do s1 <- (if en =? 3 then do (h, e) <- homogenous_z ep (snd s) (fst s); Ok (e, h)
            else if (0 <=? en) && (en <=? 5) then Ok s else Fatal);
  if mn =? 3 then homogenous_z mp (fst s1) (snd s1) else if (0 <=? mn) && (mn <=? 5) then Ok s1 else Fatal.
(** construction (fields zero, maxwellSolver.hpp:51-68) and one application *)
Definition ext_run (ename mname : string) (ep mp : list R) (e h : grid3 R) : outcome (grid3 R * grid3 R) :=
  do e0 <- zero3 e; do h0 <- zero3 h;
  do en <- e_profile ename; do mn <- m_profile mname; ext_apply en mn ep mp (e0, h0).
End Ext.

(** ** interpolation *)
(** include/geometry.hpp:186-198.  The argument of CELL_VOLUME is not put in parentheses: CELL_VOLUME(i_r+a, dr, dz) is
    PI*dz*dr*dr*(2.0*i_r+a + 1). *)
Definition cell_volume (i a : Z) (dr dz : R) : R := (PI * dz * dr * dr * (2 * IZR i + IZR a + 1))%R.
Definition cyl_rng_vol (z r1 r2 : R) : R := (PI * z * (r2 * r2 - r1 * r1))%R.
Definition cell_number (position dx : R) : Z := Int_part (position / dx).
(** Division by zero yields an infinity or NaN, which the real numbers do not have; it is an error here. *)
Definition quot (a b : R) : outcome R := if Req_EM_T b 0 then UB else Ok (a / b)%R.

(** how a component is placed: numbers and widths *)
Record place : Type := mkPlace { p_i : Z; p_k : Z; p_vol1 : R; p_vol2 : R; p_r2 : R; p_dz1 : R; p_dz2 : R }.
Section Interp.
Variable g : geo.
Let dr := g_dr g.
Let dz := g_dz g.
(** maxwellSolver.hpp:116-135 (H_z), 227-246 (E_r) *)
Definition place_half_r (r z : R) : place :=
  let i := cell_number (r - /2 * dr) dr in let k := cell_number z dz in
  mkPlace i k (cell_volume i 1 dr dz) (cell_volume i 3 dr dz) (IZR (i + 1) * dr) (IZR (k + 1) * dz - z) (z - IZR k * dz)%R.
(** 149-165 (H_r), 259-271 (E_z) *)
Definition place_half_z (r z : R) : place :=
  let i := cell_number r dr in let k := cell_number (z - /2 * dz) dz in
  mkPlace i k (cell_volume i 0 dr dz) (cell_volume i 2 dr dz) ((IZR i + /2) * dr) ((IZR k + 3/2) * dz - z) (z - (IZR k + /2) * dz)%R.
(** 179-195 (H_phi) *)
Definition place_half_rz (r z : R) : place :=
  let i := cell_number (r - /2 * dr) dr in let k := cell_number (z - /2 * dz) dz in
  mkPlace i k (cell_volume i 1 dr dz) (cell_volume i 3 dr dz) (IZR (i + 1) * dr) ((IZR k + 3/2) * dz - z) (z - (IZR k + /2) * dz)%R.
(** 285-301 (E_phi) *)
Definition place_node (r z : R) : place :=
  let i := cell_number r dr in let k := cell_number z dz in
  mkPlace i k (cell_volume i 0 dr dz) (cell_volume i 2 dr dz) ((IZR i + /2) * dr) (IZR (k + 1) * dz - z) (z - IZR k * dz)%R.

(** the four contributions of one component, in the order of the code *)
Definition contributions (f : grid R) (r : R) (p : place) : outcome (R * R * R * R) :=
  let r1 := (r - /2 * dr)%R in let r3 := (r + /2 * dr)%R in
  let x := p_i p - g_d0 g in let y := p_k p - g_d1 g in
  do f00 <- rget f x y; do a <- quot (f00 * cyl_rng_vol (p_dz1 p) r1 (p_r2 p))%R (p_vol1 p);
  do f10 <- rget f (x + 1) y; do b <- quot (f10 * cyl_rng_vol (p_dz1 p) (p_r2 p) r3)%R (p_vol2 p);
  do f01 <- rget f x (y + 1); do c <- quot (f01 * cyl_rng_vol (p_dz2 p) r1 (p_r2 p))%R (p_vol1 p);
  do f11 <- rget f (x + 1) (y + 1); do d <- quot (f11 * cyl_rng_vol (p_dz2 p) (p_r2 p) r3)%R (p_vol2 p);
  Ok (a, b, c, d).

(** maxwellSolver.hpp:101-209 *)
Definition get_field_h (h : grid3 R) (r z : R) : outcome (R * R * R) :=
  do (az, bz, cz, dz') <- contributions (c_z h) r (place_half_r r z);
  do (ar, br, cr, dr') <- contributions (c_r h) r (place_half_z r z);
  do (ap, bp, cp, dp) <- contributions (c_phi h) r (place_half_rz r z);
  Ok (0 + ar + br + cr + dr', 0 + ap + bp + cp + dp, 0 + az + bz + cz + dz')%R.
(** maxwellSolver.hpp:211-316; line 313 adds the last contribution of E_phi to the z component *)
Definition get_field_e (e : grid3 R) (r z : R) : outcome (R * R * R) :=
  do (ar, br, cr, dr') <- contributions (c_r e) r (place_half_r r z);
  do (az, bz, cz, dz') <- contributions (c_z e) r (place_half_z r z);
  do (ap, bp, cp, dp) <- contributions (c_phi e) r (place_node r z);
  Ok (0 + ar + br + cr + dr', 0 + ap + bp + cp, 0 + az + bz + cz + dz' + dp)%R.
End Interp.
