(** Model of the sizes of the absorbing layers: reading (src/cfg.cpp:396-412), [global_cell_amount]
    (include/geometry.hpp:64-71) and what a domain gets (src/SMB.cpp:82-103, [domain_pml] of YeeModel).
    Numbers that come from the configuration are binary64 here, because their rounding matters. *)
From Coq Require Import Floats.SpecFloat.
From Verif Require Import Base YeeModel.
Open Scope Z_scope.

(** conversion of a finite non-negative double to [size_t]: truncation; [floor] is the same for non-negative arguments *)
Definition to_size (x : spec_float) : outcome Z :=
  match x with
  | S754_zero _ => Ok 0
  | S754_finite false m e =>
    let v := if 0 <=? e then Z.pos m * 2 ^ e else Z.pos m / 2 ^ (- e) in if v <? 2 ^ 64 then Ok v else UB
  | _ => UB
  end.
Definition of_size (n : Z) : spec_float := binary_normalize 53 1024 n 0 false.
(** cfg.cpp:408-410: [floor(wall * n_grid)] *)
Definition pml_cells (wall : spec_float) (n : Z) : outcome Z := to_size (SFmul 53 1024 wall (of_size n)).
(** geometry.hpp:67-71: [global_size / cell_size] with [cell_size = size / cell_amount] *)
Definition global_cells (global_size size : spec_float) (n : Z) : outcome Z :=
  to_size (SFdiv 53 1024 global_size (SFdiv 53 1024 size (of_size n))).

(** SMB.cpp:73-103: the layers of the domain [g] of an area with [p] (the domain's [global_cell_amount] is passed on
    as it is in [p]) *)
Definition pml_of_domain (g : geo) (p : pml) : pml :=
  let '(l, t, r) := domain_pml (g_d0 g + g_nr g) (g_d1 g + g_nz g) (g_d1 g) (p_G0 p) (p_G1 p) (p_left p) (p_top p) (p_right p) in
  mkPml l t r (p_s0 p) (p_s1 p) (p_G0 p) (p_G1 p) (p_L0 p) (p_L1 p).
(** SMB.cpp:49-92, longitudinal direction: the layer at the right wall that domain [j] of [zd] gets; [n] cells in all *)
Definition right_layer (G n zd r j : Z) : Z :=
  let '(_, _, x) := domain_pml 0 (n * (j + 1) / zd) (n * j / zd) 0 G 0 0 r in x.
