(** Model of the reading of species and numbers of domains from the configuration, and of the check of the
    limits of the method (src/cfg.cpp, src/phys/plasma.cpp).  Exact real arithmetic. *)
From Coq Require Import Reals String.
From Verif Require Import Base RndUtil DecompModel PushModel.
Open Scope R_scope.

(** the fields of [particle_specie] (cfg.hpp:92-102) used by the check *)
Record specie := { sp_name : string; sp_mass : Z; sp_charge : Z; sp_macro : R; sp_left : R; sp_right : R; sp_temp : R }.

(** cfg.cpp:189-193 the JSON numbers of a species; [(int)] of the mass, then conversion to [unsigned int] *)
Definition read_specie (name : string) (mass charge density temperature : R) : outcome specie :=
  do m <- to_s32 mass;
  do q <- to_s32 charge;
  Ok {| sp_name := name; sp_mass := u32 m; sp_charge := q; sp_macro := 0; sp_left := density; sp_right := density; sp_temp := temperature |}.
(** specieP.cpp:37-38 *)
Definition si_mass (el_mass : R) (s : specie) : R := IZR (sp_mass s) * el_mass.
Definition si_charge (el_charge : R) (s : specie) : R := IZR (sp_charge s) * el_charge.
(** cfg.cpp:422-423: [(int)], then conversion to [size_t] *)
Definition read_domains (x : R) : outcome Z := do t <- to_s32 x; Ok (u64 t).
(** cfg.cpp:404-406 thickness of the layers: [floor], then conversion to [size_t] *)
Definition read_pml (x : R) (n : Z) : outcome Z := to_u64 (IZR (Int_part (x * IZR n))).

(** cfg.cpp:604-608 and 614-617 *)
Definition is_electron (s : specie) : bool :=
  (sp_name s =? "Electrons")%string || (sp_name s =? "electrons")%string || (sp_name s =? "Electron")%string ||
  (sp_name s =? "electron")%string || (sp_mass s =? 1)%Z.
Definition is_ion (s : specie) : bool :=
  (sp_name s =? "Ions")%string || (sp_name s =? "ions")%string || (sp_name s =? "Ion")%string || (sp_name s =? "ion")%string.

(** local variables of the loop cfg.cpp:600-623 *)
Record found := { f_macro : R; n_el : R; t_el : R; n_ion : R; t_ion : R }.
Definition look (f : found) (s : specie) : found :=
  let m := f_macro f + sp_macro s in
  let f := if is_electron s then {| f_macro := m; n_el := (sp_left s + sp_right s) / 2; t_el := sp_temp s; n_ion := n_ion f; t_ion := t_ion f |}
           else {| f_macro := m; n_el := n_el f; t_el := t_el f; n_ion := n_ion f; t_ion := t_ion f |} in
  if is_ion s then {| f_macro := m; n_el := n_el f; t_el := t_el f; n_ion := (sp_left s + sp_right s) / 2; t_ion := sp_temp s |} else f.
Definition search (l : list specie) : found := fold_left look l {| f_macro := 0; n_el := 0; t_el := 0; n_ion := 0; t_ion := 0 |}.

(** plasma.cpp:24-33; a zero temperature makes the sum infinite and the length zero (binary64 division by zero) *)
Definition debye_length (n_e n_i t_e t_i : R) : outcome R :=
  if rlt 0 n_e then
    if rlt 0 n_i then
      Ok (if req t_e 0 || req t_i 0 then 0 else 7433944 / 1000 / sqrt (n_e / t_e + n_i / t_i))
    else Fatal
  else Fatal.
(** plasma.cpp:35-40 *)
Definition plasma_frequency (n : R) : R := 563803 / 10000 * sqrt n.

Record config := { c_dom_r : Z; c_dom_z : Z; c_nr : Z; c_dr : R; c_dz : R; c_size_r : R; c_size_z : R; c_step : R; c_species : list specie }.
Inductive message := StepTooLarge | GridTooLarge | SystemTooSmall | SystemTooLarge | FewParticles.

Section Check.
(** constant.hpp LIGHT_VEL *)
Variable c : R.
(** cfg.cpp:638-643 *)
Definition max_time (g : config) (n : R) : R := Rmin (Rmin (c_dr g / c) (c_dz g / c)) (2 / plasma_frequency n / 100).
Definition when (b : bool) (m : message) : list message := if b then [m] else [].
(** cfg.cpp:573-706: the messages of level ERROR and WARNING; only FATAL stops the program *)
Definition method_check (g : config) : outcome (list message) :=
  if negb (accepted_domains (c_dom_r g)) || negb (accepted_domains (c_dom_z g)) then Fatal
  else
    let f := search (c_species g) in
    if req (n_el f) 0 then Fatal
    else
      let m1 := when (rlt (max_time g (n_el f)) (c_step g)) StepTooLarge in
      (* cfg.cpp:655: the temperatures are passed in the order ion, electron *)
      do l <- debye_length (n_el f) (n_ion f) (t_ion f) (t_el f);
      let m2 := if req (t_el f) 0 then [] else
        when (rlt (l * 100) (c_dr g) || rlt (l * 100) (c_dz g)) GridTooLarge ++
        when (rlt (c_size_r g) (l * 100) || rlt (c_size_z g) (l * 100)) SystemTooSmall ++
        when (rlt (l * f_macro f * 100) (c_size_r g) || rlt (l * f_macro f * 100) (c_size_z g)) SystemTooLarge in
      let m3 := when (rlt (f_macro f) (IZR (u64 (u64 (c_nr g * c_nr g) * 10)))) FewParticles in
      Ok (m1 ++ m2 ++ m3).
End Check.
