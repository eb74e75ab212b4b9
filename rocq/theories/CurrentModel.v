(** Model of the two current deposition schemes: CurrentZigZag (src/current/currentZigZag.cpp,
    include/current/currentZigZag.hpp) and CurrentVB (src/current/currentVB.cpp, include/current/currentVB.hpp).
    Real numbers instead of doubles; cell numbers are integers without wrap-around.  A particle's deposit is the list of the
    accesses [current[c].inc(i, k, v)] and [current[c].set(i, k, v)] in program order. *)
From Coq Require Import Reals.
From Verif Require Import Base GridModel OverlayModel YeeModel YeeProofs ExtModel.
Open Scope Z_scope.

Inductive dep : Type := Inc (c : comp) (i k : Z) (v : R) | Put (c : comp) (i k : Z) (v : R).

(** executing the accesses; the coordinates become [unsigned int] *)
Definition with_c (c : comp) (j : grid3 R) (h : grid R) : grid3 R :=
  match c with Cr => mkGrid3 h (c_phi j) (c_z j) | Cphi => mkGrid3 (c_r j) h (c_z j) | Cz => mkGrid3 (c_r j) (c_phi j) h end.
Definition do_dep (d : dep) (j : grid3 R) : outcome (grid3 R) :=
  match d with
  | Inc c i k v => do h <- rinc (getc c j) i k v; Ok (with_c c j h)
  | Put c i k v => do h <- rset (getc c j) i k v; Ok (with_c c j h)
  end.
Fixpoint do_deps (ds : list dep) (j : grid3 R) : outcome (grid3 R) :=
  match ds with [] => Ok j | d :: ds' => do j' <- do_dep d j; do_deps ds' j' end.

(** the fields of a particle that the schemes read; [m_q] is [charge * P_WEIGHT] *)
Record mover : Type := mkMover { m_r : R; m_z : R; m_ro : R; m_zo : R; m_cr : Z; m_cz : Z; m_vphi : R; m_q : R }.

Section Schemes.
Variable g : geo.
Let dr := g_dr g.
Let dz := g_dz g.
Let dt := g_dt g.
Let sr (i : Z) : Z := i - g_d0 g.      (* i_n_shift, i_o_shift, r_i_shift *)
Let sz (k : Z) : Z := k - g_d1 g.

(** ** ZigZag *)
(** currentZigZag.hpp:28-30 *)
Definition relay_point (i1 i2 : Z) (x1 x2 dx : R) : R :=
  Rmin (Rmin (IZR i1 * dx) (IZR i2 * dx) + dx) (Rmax (Rmax (IZR i1 * dx) (IZR i2 * dx)) ((x1 + x2) / 2)).

(** currentZigZag.cpp:33-134, one particle *)
Definition zigzag (p : mover) : list dep :=
  let ro := m_ro p in let zo := m_zo p in let rn := m_r p in let zn := m_z p in
  let c := (m_q p / dt)%R in
  let i_n := cell_number rn dr in let i_o := cell_number ro dr in
  let k_n := cell_number zn dz in let k_o := cell_number zo dz in
  let ov := (1 / cell_volume (cell_number ((rn + ro) / 2) dr) 0 dr dz)%R in
  let Fphi := (m_q p * m_vphi p)%R in
  let Wphi := (m_vphi p * dt / (2 * PI * (ro + rn)))%R in
  let rr := relay_point i_o i_n ro rn dr in
  let zr := relay_point k_o k_n zo zn dz in
  let Fr1 := (c * (rr - ro))%R in let Fr2 := (c * (rn - rr))%R in
  let Fz1 := (c * (zr - zo))%R in let Fz2 := (c * (zn - zr))%R in
  let Wr1 := ((ro + rr) / 2 - IZR i_o * dr)%R in
  let Wr2 := ((rn + rr) / 2 - IZR i_n * dr)%R in
  let Wz1 := ((zo + zr) / 2 - IZR k_o * dz)%R in
  let Wz2 := ((zn + zr) / 2 - IZR k_n * dz)%R in
  [ Inc Cr (sr i_o) (sz k_o) (ov * Fr1 * (1 - Wphi) * (1 - Wz1) + ov * Fr1 * Wphi * (1 - Wz1))%R;
    Inc Cr (sr i_o) (sz k_o + 1) (ov * Fr1 * (1 - Wphi) * Wz1 + ov * Fr1 * Wphi * Wz1)%R;
    Inc Cr (sr i_n) (sz k_n) (ov * Fr2 * (1 - Wphi) * (1 - Wz2) + ov * Fr2 * Wphi * (1 - Wz2))%R;
    Inc Cr (sr i_n) (sz k_n + 1) (ov * Fr2 * (1 - Wphi) * Wz2 + ov * Fr2 * Wphi * Wz2)%R;
    Inc Cphi (sr i_n) (sz k_n) (ov * Fphi * (1 - Wr2) * (1 - Wz2))%R;
    Inc Cphi (sr i_n) (sz k_n + 1) (ov * Fphi * (1 - Wr2) * Wz1)%R;
    Inc Cphi (sr i_n + 1) (sz k_n) (ov * Fphi * Wr2 * (1 - Wz2))%R;
    Inc Cphi (sr i_n + 1) (sz k_n + 1) (ov * Fphi * Wr2 * Wz2)%R;
    Inc Cz (sr i_o) (sz k_o) (ov * Fz1 * (1 - Wr1) * (1 - Wphi) + ov * Fz1 * (1 - Wr1) * Wphi)%R;
    Inc Cz (sr i_o + 1) (sz k_o) (ov * Fz1 * Wr1 * (1 - Wphi) + ov * Fz1 * Wr1 * Wphi)%R;
    Inc Cz (sr i_n) (sz k_n) (ov * Fz2 * (1 - Wr2) * (1 - Wphi) + ov * Fz2 * (1 - Wr2) * Wphi)%R;
    Inc Cz (sr i_n + 1) (sz k_n) (ov * Fz2 * Wr2 * (1 - Wphi) + ov * Fz2 * Wr2 * Wphi)%R ].

(** currentZigZag.cpp:24 and the loop of lines 30-31 *)
Definition zigzag_distribution (ps : list mover) (j : grid3 R) : outcome (grid3 R) :=
  do j0 <- overlay_set3 0%R j; do_deps (flat_map zigzag ps) j0.

(** ** Villasenor-Buneman *)
(** constant.hpp:57 *)
Definition mnzl : R := (/ 10 ^ 15)%R.
(** currentVB.hpp:23-32 *)
Definition dens_strict (q r : R) : R := (q / (PI * 4 * r * dz * dz * dr * dt))%R.
Definition dens_r (q r : R) : R := (q / (2 * PI * r * dr * dz * dt * 2 * dr))%R.
Definition dens_z (q r : R) : R := (q / (2 * PI * r * dr * dz * dt * dz))%R.

(** currentVB.cpp:22-173.  The radial part (79-107 and 141-171) is the same for both kinds of cells. *)
Definition simple (q rn zn ro zo : R) (i k : Z) : list dep :=
  let Dr := (rn - ro)%R in let Dz := (zn - zo)%R in
  if rlt (Rabs Dr) mnzl || rlt (Rabs Dz) mnzl then []
  else
    let s := (Dr / Dz)%R in
    let lz := ln ((s * Dz + ro) / ro) in
    let jz1 :=
      if 1 <=? i
      then (dens_r q (IZR i * dr) * (dr * Dz - s * Dz * Dz / 2 - Dz * ro
              + dr * dr / s * ((IZR i + (1 / 2)) * (IZR i + (1 / 2)) - (1 / 4)) * lz))%R
      else (q / (2 * PI * dr / 4 * dr * dz * dt * dr) * (dr * Dz - s * Dz * Dz / 2 - Dz * ro))%R in
    let jz2 :=
      if 1 <=? i
      then (dens_r q (IZR (i + 1) * dr) * (s * Dz * Dz / 2 + Dz * ro + Dz * dr
              + dr * dr / s * ((1 / 4) - (IZR i + (1 / 2)) * (IZR i + (1 / 2))) * lz))%R
      else (dens_r q dr * (s * Dz * Dz / 2 + Dz * dr + Dz * ro))%R in
    let t := (- Dz / Dr)%R in
    let r0 := ((IZR i + (1 / 2)) * dr)%R in
    let b1 := ((IZR k + 1) * dz - zo)%R in
    let b2 := (zo - IZR k * dz)%R in
    let lr := ln ((ro + Dr) / ro) in
    let jr1 := (dens_z q r0 * (r0 * t * Dr + t / 2 * Dr * (ro + Dr / 2) + (1 / 2) * Dr * (b1 - t * (2 * r0 + ro))
              + Dr * (b1 - t * ro) * (4 * r0 * r0 - dr * dr) / (8 * ro * (ro + Dr))
              + t * (r0 * r0 / 2 - dr * dr / 8) * lr))%R in
    let jr2 := (dens_z q r0 * (- r0 * t * Dr - t / 2 * Dr * (ro + Dr / 2) + (1 / 2) * Dr * (b2 + t * (2 * r0 + ro))
              + Dr * (b2 + t * ro) * (4 * r0 * r0 - dr * dr) / (8 * ro * (ro + Dr))
              - t * (r0 * r0 / 2 - dr * dr / 8) * lr))%R in
    [ Inc Cz (sr i) (sz k) jz1; Inc Cz (sr i + 1) (sz k) jz2; Inc Cr (sr i) (sz k) jr1; Inc Cr (sr i) (sz k + 1) jr2 ].

(** currentVB.cpp:500-729 *)
Definition strict (q rn zn ro zo : R) : list dep :=
  let i_n := cell_number rn dr in let k_n := cell_number zn dz in
  let i_o := cell_number ro dr in let k_o := cell_number zo dz in
  if rlt (Rabs (rn - ro)) mnzl && rlt (Rabs (zn - zo)) mnzl then []
  else if rlt (Rabs (rn - ro)) mnzl then                                        (* 523-610 *)
    let value_part := (2 * PI * rn * dr * dz)%R in
    let r1 := (rn - (1 / 2) * dr)%R in let r2 := ((IZR i_n + (1 / 2)) * dr)%R in let r3 := (rn + (1 / 2) * dr)%R in
    let lower := if i_n =? 0 then (q / (dt * PI * dr * dr / 4) * PI * (r2 * r2 - r1 * r1) / value_part)%R
                 else (q / (dt * 2 * PI * IZR i_n * dr * dr) * PI * (r2 * r2 - r1 * r1) / value_part)%R in
    let upper := (q / (dt * 2 * PI * (IZR i_n + 1) * dr * dr) * PI * (r3 * r3 - r2 * r2) / value_part)%R in
    [ Put Cr (sr i_n) (sz k_n) 0%R; Put Cr (sr i_n) (sz k_n + 1) 0%R ] ++
    (let both (k : Z) (d : R) := [ Inc Cz (sr i_n) k (lower * d)%R; Inc Cz (sr i_n + 1) k (upper * d)%R ] in
     if k_n - k_o =? 0 then both (sz k_n) (zn - zo)%R
     else if k_n - k_o =? 1 then both (sz k_n - 1) (IZR k_n * dz - zo)%R ++ both (sz k_n) (zn - IZR k_n * dz)%R
     else if k_n - k_o =? -1 then both (sz k_n + 1) ((IZR k_n + 1) * dz - zo)%R ++ both (sz k_n) (zn - (IZR k_n + 1) * dz)%R
     else [])
  else if rlt (Rabs (zn - zo)) mnzl then                                        (* 613-728 *)
    let left := ((IZR k_n + 1) * dz - zn)%R in let right := (zn - IZR k_n * dz)%R in
    let both (i : Z) (wj : R) := [ Inc Cr i (sz k_n) (wj * left)%R; Inc Cr i (sz k_n + 1) (wj * right)%R ] in
    let part (r0 Dr : R) := (dens_strict q r0 * (Dr - r0 * r0 / (ro + Dr) + r0 * r0 / ro + dr * dr / (4 * (ro + Dr)) - dr * dr / (4 * ro)))%R in
    if i_n - i_o =? 0 then both (sr i_n) (part ((IZR i_n + (1 / 2)) * dr)%R (rn - ro)%R)
    else if i_n - i_o =? 1 then
      let r0 := ((IZR i_n + (1 / 2)) * dr)%R in let Dr := (rn - IZR i_n * dr)%R in
      both (sr i_n - 1) (part ((IZR i_n - (1 / 2)) * dr)%R (IZR i_n * dr - ro)%R) ++
      both (sr i_n) (dens_strict q r0 * (Dr - r0 * r0 / (IZR i_n * dr + Dr) + r0 * r0 / IZR i_n * dr
                       + dr * dr / (4 * (IZR i_n * dr + Dr)) - dr * dr / (4 * IZR i_n * dr)))%R
    else if i_n - i_o =? -1 then
      let r0 := ((IZR i_n + (1 / 2)) * dr)%R in let Dr := (rn - (IZR i_n + 1) * dr)%R in
      both (sr i_n + 1) (part ((IZR i_n + (3 / 2)) * dr)%R ((IZR i_n + 1) * dr - ro)%R) ++
      both (sr i_n) (dens_strict q r0 * (Dr - r0 * r0 / ((IZR i_n + 1) * dr + Dr) + r0 * r0 / (IZR i_n + 1) * dr
                       + dr * dr / (4 * ((IZR i_n + 1) * dr + Dr)) - dr * dr / (4 * (IZR i_n + 1) * dr)))%R
    else []
  else [].

(** a call of simple_current_distribution: new r, new z, old r, old z, i, k *)
Definition leg : Type := (R * R * R * R * Z * Z)%type.
(** currentVB.cpp:212-393: the calls made for a move in both directions *)
Definition legs (rn zn ro zo : R) (i_n i_o k_n k_o : Z) : list leg :=
  let res_cell := Z.abs (i_n - i_o) + Z.abs (k_n - k_o) in
  if res_cell =? 0 then [(rn, zn, ro, zo, i_n, k_n)]
  else if res_cell =? 1 then
    if negb (i_n =? i_o) && (k_n =? k_o) then
      if rlt (IZR (i_n + 1) * dr) ro then                                        (* 227-238 *)
        let a := ((ro - rn) / (zo - zn))%R in let rb := (IZR (i_n + 1) * dr)%R in
        let zb := (zn + (rb - rn) / a)%R in
        [(rb, zb, ro, zo, i_n + 1, k_n); (rn, zn, rb, zb, i_n, k_n)]
      else                                                                       (* 240-254 *)
        let a := ((rn - ro) / (zn - zo))%R in let rb := (IZR i_n * dr)%R in
        let zb := (zo + (rb - ro) / a)%R in
        [(rb, zb, ro, zo, i_n - 1, k_n); (rn, zn, rb, zb, i_n, k_n)]
    else if (i_n =? i_o) && negb (k_n =? k_o) then
      if rlt zo (IZR k_n * dz) then                                              (* 260-268 *)
        let zb := (IZR k_n * dz)%R in let a := ((rn - ro) / (zn - zo))%R in let rb := (ro + a * (zb - zo))%R in
        [(rb, zb, ro, zo, i_n, k_n - 1); (rn, zn, rb, zb, i_n, k_n)]
      else                                                                       (* 270-278 *)
        let zb := (IZR (k_n + 1) * dz)%R in let a := ((ro - rn) / (zo - zn))%R in let rb := (rn + a * (zb - zn))%R in
        [(rb, zb, ro, zo, i_n, k_n + 1); (rn, zn, rb, zb, i_n, k_n)]
    else []
  else if res_cell =? 2 then
    if i_o <? i_n then
      if k_o <? k_n then                                                         (* 289-310 *)
        let a := ((rn - ro) / (zn - zo))%R in
        let r1 := (IZR i_n * dr)%R in let z1 := (zo + (r1 - ro) / a)%R in
        let z2 := (IZR k_n * dz)%R in let r2 := (ro + (z2 - zo) * a)%R in
        if rlt z1 (IZR k_n * dz)
        then [(r1, z1, ro, zo, i_n - 1, k_n - 1); (r2, z2, r1, z1, i_n, k_n - 1); (rn, zn, r2, z2, i_n, k_n)]
        else if rlt (IZR k_n * dz) z1
        then [(r2, z2, ro, zo, i_n - 1, k_n - 1); (r1, z1, r2, z2, i_n - 1, k_n); (rn, zn, r1, z1, i_n, k_n)]
        else []
      else                                                                       (* 312-334 *)
        let a := ((rn - ro) / (zn - zo))%R in
        let r1 := (IZR i_n * dr)%R in let z1 := (zo + (r1 - ro) / a)%R in
        let z2 := (IZR (k_n + 1) * dz)%R in let r2 := (ro + - (zo - z2) * a)%R in
        if rlt (IZR (k_n + 1) * dz) z1
        then [(r1, z1, ro, zo, i_n - 1, k_n + 1); (r2, z2, r1, z1, i_n, k_n + 1); (rn, zn, r2, z2, i_n, k_n)]
        else if rlt z1 (IZR (k_n + 1) * dz)
        then [(r2, z2, ro, zo, i_n - 1, k_n + 1); (r1, z1, r2, z2, i_n - 1, k_n); (rn, zn, r1, z1, i_n, k_n)]
        else []
    else if i_n <? i_o then
      if k_o <? k_n then                                                         (* 340-364 *)
        let a := ((rn - ro) / (zn - zo))%R in
        let r1 := (IZR (i_n + 1) * dr)%R in let z1 := (zo + - (ro - r1) / a)%R in
        let z2 := (IZR k_n * dz)%R in let r2 := (ro - - (z2 - zo) * a)%R in
        if rlt z1 (IZR k_n * dz)
        then [(r1, z1, ro, zo, i_n + 1, k_n - 1); (r2, z2, r1, z1, i_n, k_n - 1); (rn, zn, r2, z2, i_n, k_n)]
        else if rlt (IZR k_n * dz) z1
        then [(r2, z2, ro, zo, i_n + 1, k_n - 1); (r1, z1, r2, z2, i_n + 1, k_n); (rn, zn, r1, z1, i_n, k_n)]
        else []
      else if k_n <? k_o then                                                    (* 366-389 *)
        let a := ((ro - rn) / (zo - zn))%R in
        let r1 := (IZR (i_n + 1) * dr)%R in let z1 := (zn + (r1 - rn) / a)%R in
        let z2 := (IZR (k_n + 1) * dz)%R in let r2 := (rn + (z2 - zn) * a)%R in
        if rlt (IZR (k_n + 1) * dz) z1
        then [(r1, z1, ro, zo, i_n + 1, k_n + 1); (r2, z2, r1, z1, i_n, k_n + 1); (rn, zn, r2, z2, i_n, k_n)]
        else if rlt z1 (IZR (k_n + 1) * dz)
        then [(r2, z2, ro, zo, i_n + 1, k_n + 1); (r1, z1, r2, z2, i_n + 1, k_n); (rn, zn, r1, z1, i_n, k_n)]
        else []
      else []
    else []
  else [].
Definition simple_leg (q : R) (l : leg) : list dep :=
  match l with (rn, zn, ro, zo, i, k) => simple q rn zn ro zo i k end.

(** currentVB.cpp:184-394, one particle; [None]: an ERROR is logged and nothing is deposited.
    Both operands of the condition of line 199 compare the radial cells. *)
Definition req (x y : R) : bool := if Req_EM_T x y then true else false.
Definition rz_particle (p : mover) : option (list dep) :=
  let i_n := m_cr p in let k_n := m_cz p in
  let i_o := cell_number (m_ro p) dr in let k_o := cell_number (m_zo p) dz in
  let i_o := if req (m_ro p) (IZR (i_o + 1) * dr) then i_n else i_o in
  let k_o := if req (m_zo p) (IZR (k_o + 1) * dz) then k_n else k_o in
  let i_n := if req (m_r p) (IZR (i_n + 1) * dr) then i_o else i_n in
  let k_n := if req (m_z p) (IZR (k_n + 1) * dz) then k_o else k_n in
  if (1 <? Z.abs (i_n - i_o)) || (1 <? Z.abs (i_n - i_o)) then None
  else if rlt (Rabs (m_r p - m_ro p)) mnzl || rlt (Rabs (m_z p - m_zo p)) mnzl
  then Some (strict (m_q p) (m_r p) (m_z p) (m_ro p) (m_zo p))
  else Some (flat_map (simple_leg (m_q p)) (legs (m_r p) (m_z p) (m_ro p) (m_zo p) i_n i_o k_n k_o)).
Definition rz_deps (p : mover) : list dep := match rz_particle p with Some l => l | None => [] end.

(** currentVB.cpp:408-496, one particle; the two branches of line 431 do the same.  [CELL_VOLUME(r_i + 1, dr, dz)] is
    [cell_volume r_i 1 dr dz], see ExtModel. *)
Definition azimuthal (p : mover) : list dep :=
  let i := m_cr p in let k := m_cz p in
  let v1 := cell_volume i 0 dr dz in let v2 := cell_volume i 1 dr dz in
  let r := ((m_r p + m_ro p) / 2)%R in let z := ((m_z p + m_zo p) / 2)%R in
  let r1 := (r - (1 / 2) * dr)%R in let r2 := ((IZR i + (1 / 2)) * dr)%R in let r3 := (r + (1 / 2) * dr)%R in
  let rov := (m_q p / (2 * PI * dz * dr * r))%R in
  let dz1 := ((IZR k + (1 / 2)) * dz - (z - (1 / 2) * dz))%R in
  let dz2 := ((z + (1 / 2) * dz) - (IZR k + (1 / 2)) * dz)%R in
  [ Inc Cphi (sr i) (sz k) (rov * cyl_rng_vol dz1 r1 r2 / v1 * m_vphi p)%R;
    Inc Cphi (sr i + 1) (sz k) (rov * cyl_rng_vol dz1 r2 r3 / v2 * m_vphi p)%R;
    Inc Cphi (sr i) (sz k + 1) (rov * cyl_rng_vol dz2 r1 r2 / v1 * m_vphi p)%R;
    Inc Cphi (sr i + 1) (sz k + 1) (rov * cyl_rng_vol dz2 r2 r3 / v2 * m_vphi p)%R ].

(** currentVB.cpp:731-735 with the loops and the [overlay_set] of lines 177 and 400 *)
Definition vb_distribution (ps : list mover) (j : grid3 R) : outcome (grid3 R) :=
  do j0 <- overlay_set3 0%R j; do j1 <- do_deps (flat_map azimuthal ps) j0;
  do j2 <- overlay_set3 0%R j1; do_deps (flat_map rz_deps ps) j2.
End Schemes.
