(** Model of the field solver [MaxwellSolverYee] (src/maxwellSolver/maxwellSolverYee.cpp) on the grids of [GridModel],
    with real numbers as cell values (no rounding, so the NaN check of lines 253-255 never fires). *)
From Verif Require Import Base GridModel OverlayModel.
From Coq Require Import Reals.
Open Scope Z_scope.

(** the part of [Geometry] (include/geometry.hpp:28-48) and [TimeSim] used by the solver *)
Record geo : Type := mkGeo {
  g_nr : Z; g_nz : Z;                    (* cell_amount *)
  g_d0 : Z; g_d1 : Z;                    (* cell_dims[0], cell_dims[1] *)
  g_dr : R; g_dz : R;                    (* cell_size *)
  g_w0 : bool; g_w1 : bool; g_w2 : bool; g_w3 : bool;   (* walls: r=0, z=0, r=r, z=z *)
  g_dt : R }.

(** maxwellSolverYee.cpp:31-50 *)
Definition r_begin (g : geo) : Z := if g_w0 g then 1 else 0.
Definition z_begin (g : geo) : Z := if g_w1 g then 1 else 0.
Definition r_end (g : geo) : Z := if g_w2 g then u32 (g_nr g - 1) else g_nr g.
Definition z_end (g : geo) : Z := if g_w3 g then u32 (g_nz g - 1) else g_nz g.

(** accesses [f(c, x, y)], [f[c].set / inc / dec / m_a (x, y, v)]; the coordinates are converted to [unsigned int] *)
Definition rget (f : grid R) (x y : Z) : outcome R := get f (u32 x) (u32 y).
Definition rset (f : grid R) (x y : Z) (v : R) : outcome (grid R) := set f (u32 x) (u32 y) v.
Definition rinc (f : grid R) (x y : Z) (v : R) : outcome (grid R) := op_assign Rplus f (u32 x) (u32 y) v.
Definition rdec (f : grid R) (x y : Z) (v : R) : outcome (grid R) := op_assign Rminus f (u32 x) (u32 y) v.
Definition rmul (f : grid R) (x y : Z) (v : R) : outcome (grid R) := op_assign Rmult f (u32 x) (u32 y) v.

Section Yee.
Variable mu : R.                 (* MAGN_CONST *)
Variable g : geo.
Let dr := g_dr g.
Let dz := g_dz g.
Let dt := g_dt g.

(** maxwellSolverYee.cpp:111-159; state: (field_h, field_h_at_et) *)
Definition hstate : Type := (grid3 R * grid3 R)%type.
(** the update of H_r, lines 125-130 and 137-141 *)
Definition h_r_at (e : grid3 R) (i k : Z) (s : hstate) : outcome hstate :=
  let (h, t) := s in
  do e1 <- rget (c_phi e) i (k + 1); do e0 <- rget (c_phi e) i k;
  let alpha := (dt * (e1 - e0) / (dz * mu))%R in
  do v <- rget (c_r t) i k;
  do hr <- rset (c_r h) i k (v + alpha / 2)%R;
  do tr <- rinc (c_r t) i k alpha;
  Ok (mkGrid3 hr (c_phi h) (c_z h), mkGrid3 tr (c_phi t) (c_z t)).
(** lines 143-149 *)
Definition h_phi_at (e : grid3 R) (i k : Z) (s : hstate) : outcome hstate :=
  let (h, t) := s in
  do a1 <- rget (c_z e) (i + 1) k; do a0 <- rget (c_z e) i k;
  do b1 <- rget (c_r e) i (k + 1); do b0 <- rget (c_r e) i k;
  let alpha := (dt * ((a1 - a0) / dr - (b1 - b0) / dz) / mu)%R in
  do v <- rget (c_phi t) i k;
  do hp <- rset (c_phi h) i k (v + alpha / 2)%R;
  do tp <- rinc (c_phi t) i k alpha;
  Ok (mkGrid3 (c_r h) hp (c_z h), mkGrid3 (c_r t) tp (c_z t)).
(** lines 151-158 *)
Definition h_z_at (e : grid3 R) (i k : Z) (s : hstate) : outcome hstate :=
  let (h, t) := s in
  do a1 <- rget (c_phi e) (i + 1) k; do a0 <- rget (c_phi e) i k;
  let alpha := (dt * ((a1 + a0) / (2 * dr * (IZR i + /2 + IZR (g_d0 g))) + (a1 - a0) / dr) / mu)%R in
  do v <- rget (c_z t) i k;
  do hz <- rset (c_z h) i k (v - alpha / 2)%R;
  do tz <- rdec (c_z t) i k alpha;
  Ok (mkGrid3 (c_r h) (c_phi h) hz, mkGrid3 (c_r t) (c_phi t) tz).

Definition h_at (e : grid3 R) (i k : Z) (s : hstate) : outcome hstate :=
  do s1 <- h_r_at e i k s; do s2 <- h_phi_at e i k s1; h_z_at e i k s2.
Definition calc_field_h (e h t : grid3 R) : outcome hstate :=
  do h0 <- overlay_set3 0%R h; do t0 <- overlay_set3 0%R t;                        (* 113-114 *)
  do s1 <- (if g_w2 g then for_to 0 (g_nz g) (fun k => h_r_at e (u32 (g_nr g - 1)) k) (h0, t0)
            else Ok (h0, t0));                                                       (* 120-130 *)
  for_to 0 (g_nr g) (fun i => for_to 0 (g_nz g) (h_at e i)) s1.                      (* 133-158 *)

(** maxwellSolverYee.cpp:161-257; [t] is field_h_at_et, [j] the current, [eps] and [sg] the grids epsilon and sigma
    ([sg] = 0 without ENABLE_PML) *)
Section E.
Variables (t j : grid3 R) (eps sg : grid R).
(** the coefficients of lines 176-185, 203-212, 228-237 *)
Definition koefs (i k : Z) : outcome (R * R) :=
  do ep <- rget eps i k; do s <- rget sg i k;
  Ok ((2 * ep - s * dt) / (2 * ep + s * dt), 2 * dt / (2 * ep + s * dt))%R.
(** lines 187-190 and 239-242 *)
Definition e_r_at (i k : Z) (ke kh : R) (e : grid3 R) : outcome (grid3 R) :=
  do x <- rmul (c_r e) i k ke;
  do c <- rget (c_r j) i k; do h1 <- rget (c_phi t) i k; do h0 <- rget (c_phi t) i (k - 1);
  do y <- rdec x i k ((c + (h1 - h0) / dz) * kh)%R;
  Ok (mkGrid3 y (c_phi e) (c_z e)).
(** lines 192-194, axis *)
Definition e_z_axis_at (i k : Z) (ke kh : R) (e : grid3 R) : outcome (grid3 R) :=
  do x <- rmul (c_z e) i k ke;
  do c <- rget (c_z j) i k; do h1 <- rget (c_phi t) i k;
  do y <- rdec x i k ((c - h1 * 4 / dr) * kh)%R;
  Ok (mkGrid3 (c_r e) (c_phi e) y).
(** lines 214-219 and 250-255 *)
Definition e_z_at (i k : Z) (ke kh : R) (e : grid3 R) : outcome (grid3 R) :=
  do x <- rmul (c_z e) i k ke;
  do c <- rget (c_z j) i k; do h1 <- rget (c_phi t) i k; do h0 <- rget (c_phi t) (i - 1) k;
  do y <- rdec x i k ((c - (h1 - h0) / dr - (h1 + h0) / (2 * dr * (IZR (i + g_d0 g)))) * kh)%R;
  Ok (mkGrid3 (c_r e) (c_phi e) y).
(** lines 244-248 *)
Definition e_phi_at (i k : Z) (ke kh : R) (e : grid3 R) : outcome (grid3 R) :=
  do x <- rmul (c_phi e) i k ke;
  do c <- rget (c_phi j) i k; do a1 <- rget (c_r t) i k; do a0 <- rget (c_r t) i (k - 1);
  do b1 <- rget (c_z t) i k; do b0 <- rget (c_z t) (i - 1) k;
  do y <- rdec x i k ((c - (a1 - a0) / dz + (b1 - b0) / dr) * kh)%R;
  Ok (mkGrid3 (c_r e) y (c_z e)).

Definition e_axis (i k : Z) (e : grid3 R) : outcome (grid3 R) :=
  do (ke, kh) <- koefs i k; do e1 <- e_r_at i k ke kh e; e_z_axis_at i k ke kh e1.
Definition e_left (i k : Z) (e : grid3 R) : outcome (grid3 R) :=
  do (ke, kh) <- koefs i k; e_z_at i k ke kh e.
Definition e_regular (i k : Z) (e : grid3 R) : outcome (grid3 R) :=
  do (ke, kh) <- koefs i k;
  do e1 <- e_r_at i k ke kh e; do e2 <- e_phi_at i k ke kh e1; e_z_at i k ke kh e2.

Definition calc_field_e (e : grid3 R) : outcome (grid3 R) :=
  do e0 <- overlay_set3 0%R e;                                                       (* 163 *)
  do e1 <- (if g_w0 g then for_to (z_begin g) (z_end g) (fun k => e_axis 0 k) e0 else Ok e0);      (* 171-195 *)
  do e2 <- (if g_w1 g then for_to (r_begin g) (r_end g) (fun i => e_left i 0) e1 else Ok e1);      (* 198-220 *)
  for_to (r_begin g) (r_end g) (fun i => for_to (z_begin g) (z_end g) (e_regular i)) e2.           (* 223-256 *)
End E.
End Yee.

(** one domain: field_e, field_h, field_h_at_et *)
Record yee : Type := mkYee { y_e : grid3 R; y_h : grid3 R; y_t : grid3 R }.
(** SMB.cpp:1231-1252 for a single domain: E from the current [j], then H *)
Definition yee_step (mu : R) (g : geo) (eps sg : grid R) (j : grid3 R) (y : yee) : outcome yee :=
  do e <- calc_field_e g (y_t y) j eps sg (y_e y);
  do (h, t) <- calc_field_h mu g e (y_h y) (y_t y);
  Ok (mkYee e h t).
Fixpoint yee_run (mu : R) (g : geo) (eps sg : grid R) (js : list (grid3 R)) (y : yee) : outcome yee :=
  match js with [] => Ok y | j :: js' => do y' <- yee_step mu g eps sg j y; yee_run mu g eps sg js' y' end.

(** ** the absorbing layers, maxwellSolverYee.cpp:57-109 *)
Record pml : Type := mkPml {
  p_left : Z; p_top : Z; p_right : Z;    (* pml_size[1], pml_size[2], pml_size[3] *)
  p_s0 : R; p_s1 : R;                    (* pml_sigma *)
  p_G0 : Z; p_G1 : Z;                    (* global_cell_amount *)
  p_L0 : R; p_L1 : R }.                  (* global_size *)
Section Pml.
Variable g : geo.
Variable p : pml.
(** geometry.hpp:103-115 *)
Definition dist_x_to_end (i : Z) : R := (IZR (u64 (u64 (p_G0 p - g_d0 g) - i)) * g_dr g)%R.
Definition dist_y_to_end (k : Z) : R := (IZR (u64 (u64 (p_G1 p - g_d1 g) - k)) * g_dz g)%R.
Definition sig (len x : R) : R := (p_s0 p + (p_s1 p - p_s0 p) / (len * len) * (x * x))%R.
Definition rlt (x y : R) : bool := if Rlt_dec x y then true else false.
Definition pml_top_at (i k : Z) (sg : grid R) : outcome (grid R) :=
  let len := (g_dr g * IZR (p_top p))%R in
  if rlt (dist_x_to_end i) len
  then rinc sg i k (sig len (g_dr g * (IZR i + 1) + IZR (g_d0 g) * g_dr g - p_L0 p + len))%R else Ok sg.
Definition pml_left_at (k i : Z) (sg : grid R) : outcome (grid R) :=
  let len := (g_dz g * IZR (p_left p))%R in
  if rlt (g_dz g * IZR k + IZR (g_d1 g) * g_dz g) len
  then rinc sg i k (sig len (len - g_dz g * IZR k - IZR (g_d1 g) * g_dz g))%R else Ok sg.
Definition pml_right_at (k i : Z) (sg : grid R) : outcome (grid R) :=
  let len := (g_dz g * IZR (p_right p))%R in
  if rlt (dist_y_to_end k) len
  then rinc sg i k (sig len (g_dz g * (IZR k + 1) + IZR (g_d1 g) * g_dz g - p_L1 p + len))%R else Ok sg.
Definition set_pml (sg : grid R) : outcome (grid R) :=
  do s1 <- (if p_top p =? 0 then Ok sg else for_to 0 (g_nr g) (fun i => for_to 0 (g_nz g) (pml_top_at i)) sg);
  do s2 <- (if p_left p =? 0 then Ok s1 else for_to 0 (g_nz g) (fun k => for_to 0 (g_nr g) (pml_left_at k)) s1);
  if p_right p =? 0 then Ok s2 else for_to 0 (g_nz g) (fun k => for_to 0 (g_nr g) (pml_right_at k)) s2.
End Pml.
(** SMB.cpp:82-92: the layers a domain gets; [G0], [G1]: global_cell_amount of the whole area *)
Definition domain_pml (top_r right_z left_z G0 G1 l t r : Z) : Z * Z * Z :=
  ((if left_z <? l then l else 0),
   (if u64 (G0 - top_r) <? t then t else 0),
   (if u64 (G1 - right_z) <? r then r else 0)).
