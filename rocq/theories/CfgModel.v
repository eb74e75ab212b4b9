(** Model of the configuration (probes, macro-particle budget) and of the main loop. *)
From Verif Require Import Base RndUtil TimeModel.
From Coq Require Import Reals String Floats.SpecFloat.
Open Scope R_scope.

(** * Macro-particle budget: cfg.cpp:489-571 [Cfg::weight_macro_amount] *)
Section Budget.
(** the rounding of one floating-point operation (the identity for exact arithmetic) *)
Variable rnd : R -> R.
(** [geometry->cell_amount[0..1]], [geometry->cell_size[0..1]] *)
Variables nr nz : Z.
Variables dr dz : R.
(** [beam_macro_ratio] (cfg.cpp:130), [macro_amount] (cfg.cpp:124) *)
Variable ratio : Z.
Variable macro_amount : R.

(** the fields of [particle_beam] used here (cfg.hpp) *)
Record beam_cfg : Type := { bunch_radius : R; bunch_length : R; bunches_amount : Z }.

(** cfg.cpp:501, 565 *)
Definition beam_r_grid_size (b : beam_cfg) : R := rnd (bunch_radius b / dr).
(** cfg.cpp:502, 566 *)
Definition beam_z_grid_size (b : beam_cfg) : R := rnd (rnd (bunch_length b * IZR (bunches_amount b)) / dz).
(** cfg.cpp:496: integer product in [size_t], converted to double and added to 0.
    The wrap-around of the product is kept, the conversion is rounded. *)
Definition norm_species (species : nat) : R := rnd (0 + rnd (IZR (u64 (u64 (nr * nz) * Z.of_nat species)))).
(** cfg.cpp:499-505 *)
Fixpoint norm_beams (acc : R) (bs : list beam_cfg) : R :=
  match bs with
  | [] => acc
  | b :: bs' => norm_beams (rnd (acc + rnd (rnd (beam_r_grid_size b * beam_z_grid_size b) * IZR ratio))) bs'
  end.
Definition norm_sum (species : nat) (bs : list beam_cfg) : R := norm_beams (norm_species species) bs.
(** cfg.cpp:508 *)
Definition norm (species : nat) (bs : list beam_cfg) : R := rnd (macro_amount / norm_sum species bs).
(** cfg.cpp:557 *)
Definition specie_share (species : nat) (bs : list beam_cfg) : R :=
  rnd (rnd (IZR (u64 (nr * nz))) * norm species bs).
(** cfg.cpp:568 *)
Definition beam_share (species : nat) (bs : list beam_cfg) (b : beam_cfg) : R :=
  rnd (rnd (rnd (beam_r_grid_size b * beam_z_grid_size b) * norm species bs) * IZR ratio).

Fixpoint convert_all (xs : list R) : outcome (list Z) :=
  match xs with [] => Ok [] | x :: xs' => do a <- to_u32 x; do l <- convert_all xs'; Ok (a :: l) end.
(** cfg.cpp:555-570: the amounts of the species, then of the beams *)
Definition weight_macro_amount (species : nat) (bs : list beam_cfg) : outcome (list Z) :=
  convert_all (repeat (specie_share species bs) species ++ map (beam_share species bs) bs).
End Budget.

(** the same formulas in doubles, one species and no beam: cfg.cpp:496, 508, 557 *)
Definition f64_of_Z (z : Z) : f64 := binary_normalize 53 1024 z 0 false.
Definition floor64 (x : f64) : Z :=
  match x with
  | S754_finite s m e => let v := if s then Zneg m else Zpos m in if (0 <=? e)%Z then (v * 2 ^ e)%Z else (v / 2 ^ (- e))%Z
  | _ => 0%Z
  end.
Definition single_amount64 (nr nz n : Z) : Z :=
  let cells := f64_of_Z (nr * nz) in
  floor64 (SFmul 53 1024 cells (div64 (f64_of_Z n) (add64 (S754_zero false) cells))).

(** * Probes: cfg.cpp:201-324 [Cfg::init_probes] *)
(** the JSON object of a probe; keys that are missing make picojson throw and are left out, as are the component,
    species and path strings *)
Record probe_desc : Type :=
  { d_shape : string; d_start_r : R; d_start_z : R; d_end_r : R; d_end_z : R; d_r : R; d_z : R; d_schedule : R }.
Record probe : Type := { p_shape : Z; p_dims : list Z; p_schedule : Z }.

(** write through [vector::operator[]]: undefined beyond the size *)
Definition vec_set (v : list Z) (i : nat) (x : Z) : outcome (list Z) :=
  if (i <? List.length v)%nat then Ok (firstn i v ++ x :: skipn (S i) v) else UB.
Definition vec_get (v : list Z) (i : nat) : outcome Z :=
  match nth_error v i with Some x => Ok x | None => UB end.

(** cfg.cpp:233-299; [p_p.dims] is empty at the start *)
Definition probe_shape (d : probe_desc) : outcome (Z * list Z) :=
  if (d_shape d =? "rec")%string then
    do a <- to_u64 (d_start_r d); do b <- to_u64 (d_start_z d);
    do c <- to_u64 (d_end_r d); do e <- to_u64 (d_end_z d);
    Ok (0%Z, [a; b; c; e])
  else if (d_shape d =? "col")%string then
    do v <- vec_set [] 0 0; do v <- vec_set v 2 0;
    do z <- to_s32 (d_z d); do v <- vec_set v 3 (u64 z);
    do v <- vec_set v 1 0; Ok (1%Z, v)
  else if (d_shape d =? "row")%string then
    do r <- to_s32 (d_r d); do v <- vec_set [] 2 (u64 r);
    do v <- vec_set v 0 0; do v <- vec_set v 1 0; do v <- vec_set v 3 0; Ok (2%Z, v)
  else if (d_shape d =? "dot")%string then
    do r <- to_s32 (d_r d); do v <- vec_set [] 2 (u64 r); do v <- vec_set v 0 0;
    do z <- to_s32 (d_z d); do v <- vec_set v 3 (u64 z); do v <- vec_set v 1 0; Ok (3%Z, v)
  else Fatal.

(** cfg.cpp:301-322 ([schedule] is unsigned, cfg.hpp) *)
Definition parse_probe (nr nz : Z) (d : probe_desc) : outcome probe :=
  do (sh, v) <- probe_shape d;
  do s <- to_s32 (d_schedule d);
  do d0 <- vec_get v 0; do d1 <- vec_get v 1; do d2 <- vec_get v 2; do d3 <- vec_get v 3;
  if ((d2 <? d0) || (d3 <? d1))%Z then Fatal
  else if (nr <? d2)%Z then Fatal
  else if (nz <? d3)%Z then Fatal
  else Ok {| p_shape := sh; p_dims := v; p_schedule := u32 s |}.
(** cfg.cpp:209-323 *)
Fixpoint init_probes (nr nz : Z) (ds : list probe_desc) : outcome (list probe) :=
  match ds with
  | [] => Ok []
  | d :: ds' => do p <- parse_probe nr nz d; do ps <- init_probes nr nz ds'; Ok (p :: ps)
  end.

(** * Main loop: PiCoPiC.cpp:299-395 *)
Inductive phase : Type := Inject | Fields | Push | Currents | Output.
(** PiCoPiC.cpp:327-345: one pass of the loop body, as the calls made and the value of the clock at that time *)
Definition pass {T : Type} (t : T) : list (phase * T) :=
  [(Inject, t); (Fields, t); (Push, t); (Currents, t); (Output, t)].
Section MainLoop.
Variable rnd : R -> R.
Variables tend dt : R.
(** PiCoPiC.cpp:299 [while (current <= end)] ... 347 [current += step]; None: not finished within [fuel] passes.
    The pause loop (PiCoPiC.cpp:352-390) is in SigModel.v and passes no simulated time. *)
Fixpoint main_from (fuel : nat) (t : R) : option (list (phase * R)) :=
  if Rle_dec t tend then
    match fuel with
    | O => None
    | S f => match main_from f (rnd (t + dt)) with Some l => Some (pass t ++ l) | None => None end
    end
  else Some [].
(** the clock starts at 0 (cfg.cpp:430-439 [Cfg::init_time]) *)
Definition main_loop (fuel : nat) : option (list (phase * R)) := main_from fuel 0.
End MainLoop.

(** the same loop in doubles *)
Fixpoint main_from64 (tend dt : f64) (fuel : nat) (t : f64) : option (list (phase * f64)) :=
  if SFleb t tend then
    match fuel with
    | O => None
    | S f => match main_from64 tend dt f (add64 t dt) with Some l => Some (pass t ++ l) | None => None end
    end
  else Some [].
Definition main_loop64 (tend dt : f64) (fuel : nat) := main_from64 tend dt fuel (S754_zero false).
