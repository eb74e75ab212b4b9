(** Model of one round of collisions of a domain: src/collisions.cpp (constructor, clear, sort_to_cells, random_sort,
    collect_weighted_params_tot_grid), collide, correct_velocities and operator() of src/collisions/collisionsTA77S.cpp,
    collisionsSK98.cpp and collisionsP12.cpp.
    The species hold pointers, the lists of the cells hold copies of the pointers: particles live in a [heap].
    Exact real arithmetic.  The collision of one pair is in CollOpModel, the pairing in CollModel.
    Not modelled: [calc_temperature] of collisions.cpp:216-217 (grids of temperatures, SpecieP), the debugging means of P12. *)
From Coq Require Import Reals String.
From Verif Require Import Base PushModel CollModel CollOpModel.
From Verif Require CheckModel.
Open Scope Z_scope.

(** the two lists of a cell: map_el2cell and map_ion2cell (collisions.hpp:55-56) *)
Inductive kind : Type := El | Ion.
Definition kind_eqb (a b : kind) : bool := match a, b with El, El | Ion, Ion => true | _, _ => false end.
(** specieP.hpp: P_CELL_R, P_CELL_Z; weight and velocity *)
Record cpart : Type := CPart { cp_cell : Z * Z; cp_part : part }.
Definition heap : Type := nat -> cpart.
Record specie : Type := Specie { sp_name : string; sp_mass : R; sp_charge : R; sp_ptrs : list nat }.

(** collisions.cpp:28-32, 36, 42, 101-103 *)
Definition named (name cname : string) (s : specie) : bool := String.eqb name (sp_name s) || String.eqb cname (sp_name s).
Definition is_el : specie -> bool := named "electrons" "Electrons".
Definition is_ion : specie -> bool := named "ions" "Ions".
(** collisions.cpp:34-48: the last species of that name; [None]: the members stay uninitialised *)
Definition find_last (f : specie -> bool) (l : list specie) : option specie :=
  fold_left (fun acc s => if f s then Some s else acc) l None.

Section Phase.
(** cell_amount, cell_dims[0], cell_dims[1], cell_size *)
Variables (nr nz d0 d1 : Z) (dr dz : R).

Definition maps : Type := kind -> Z -> Z -> list nat.
Definition inner (i j : Z) : bool := (0 <=? i) && (i <? nr) && (0 <=? j) && (j <? nz).
(** the cells in the order of [for i] [for j] *)
Definition all_cells : list (Z * Z) := flat_map (fun i => map (fun j => (i, j)) (indices nz)) (indices nr).

(** collisions.cpp:78-83 *)
Definition clear (m : maps) : maps := fun k i j => if inner i j then [] else m k i j.
(** [map(i, j).push_back(p)]; the grids have two more cells on every side (lines 49-50, grid.hpp:190-193) *)
Definition push (k : kind) (i j : Z) (p : nat) (m : maps) : outcome maps :=
  if (-2 <=? i) && (i <? nr + 2) && (-2 <=? j) && (j <? nz + 2) then
    Ok (fun k' i' j' => if kind_eqb k k' && (i =? i') && (j =? j') then m k' i' j' ++ [p] else m k' i' j')
  else UB.
(** collisions.cpp:86-109 *)
Definition kind_of (s : specie) : kind := if is_ion s then Ion else El.
Fixpoint sort_ptrs (h : heap) (k : kind) (l : list nat) (m : maps) : outcome maps :=
  match l with
  | [] => Ok m
  | p :: l => do m <- push k (fst (cp_cell (h p)) - d0) (snd (cp_cell (h p)) - d1) p m; sort_ptrs h k l m
  end.
Fixpoint sort_to_cells (h : heap) (l : list specie) (m : maps) : outcome maps :=
  match l with
  | [] => Ok m
  | s :: l => do m <- sort_ptrs h (kind_of s) (sp_ptrs s) m; sort_to_cells h l m
  end.
(** collisions.cpp:112-121 *)
Definition random_sort (shuffle : kind -> Z -> Z -> list nat -> list nat) (m : maps) : maps :=
  fun k i j => if inner i j then shuffle k i j (m k i j) else m k i j.

Definition parts (h : heap) (l : list nat) : list part := map (fun p => cp_part (h p)) l.
Definition cells (h : heap) (m : maps) (i j : Z) : cell := (parts h (m Ion i j), parts h (m El i j)).

(** new velocity of the particle at [p] *)
Definition set_velocity (h : heap) (p : nat) (v : v3) : heap :=
  fun q => if Nat.eqb q p then CPart (cp_cell (h q)) (Part (weight (cp_part (h q))) v) else h q.
(** [None]: some velocity is not a number any more; what follows is not modelled *)
Definition apply_update (h : heap) (p : nat) (u : update) : option heap :=
  match u with Keep => Some h | Set_to v => Some (set_velocity h p v) | SetNaN => None end.

(** masses of electrons and ions (mass_el, mass_ion) *)
Variable mass : kind -> R.
(** the draws for one pair, and [collide_single] with masses and charges of the two kinds *)
Variable D : Type.
Variable single : kind -> kind -> part -> part -> R -> R -> R -> D -> coll.
(** the draws: cell and number of the pair *)
Variable draw : Z -> Z -> nat -> D.

(** the pairs of a cell in the order of collisionsTA77S.cpp:245-402 *)
Definition cell_pairs (els ions : Z) : list ((kind * Z) * (kind * Z)) :=
  let same := fun k n even =>
    if Bool.eqb (n mod 2 =? 0) even then map (fun p : Z * Z => ((k, fst p), (k, snd p))) (pairs_same n) else [] in
  same Ion ions true ++ same El els true ++ same Ion ions false ++ same El els false ++
  map (fun p : Z * Z => ((El, fst p), (Ion, snd p))) (pairs_el_ion els ions).
(** one call of collide_single; an index outside of the vector is undefined behaviour *)
Definition collide_pair (m : maps) (i j : Z) (n_el n_ion debye : R) (x : (kind * Z) * (kind * Z)) (d : D) (h : heap) : outcome (option heap) :=
  let '((ka, a), (kb, b)) := x in
  match nth_error (m ka i j) (Z.to_nat a), nth_error (m kb i j) (Z.to_nat b) with
  | Some p, Some q =>
    let dens := fun k => match k with El => n_el | Ion => n_ion end in
    match single ka kb (cp_part (h p)) (cp_part (h q)) (dens ka) (dens kb) debye d with
    | Died => Fatal
    | Pair u v => Ok (match apply_update h p u with Some h => apply_update h q v | None => None end)
    end
  | _, _ => UB
  end.
Fixpoint collide_pairs (m : maps) (i j : Z) (n_el n_ion debye : R) (l : list ((kind * Z) * (kind * Z))) (n : nat) (h : heap) : outcome (option heap) :=
  match l with
  | [] => Ok (Some h)
  | x :: l =>
    do r <- collide_pair m i j n_el n_ion debye x (draw i j n) h;
    match r with Some h => collide_pairs m i j n_el n_ion debye l (S n) h | None => Ok None end
  end.
(** collisions.cpp:148-161: [h0] are the particles at the time of collect_weighted_params_tot_grid; EL_CHARGE_INV, constant.hpp:43 *)
Variable ev : R.
Definition temperature (k : kind) (h0 : heap) (l : list nat) : R :=
  (energy_tot (mass k) (parts h0 l) / amount_tot (parts h0 l) * ev)%R.
(** collisionsTA77S.cpp:228-403, a cell that gets past the checks *)
Definition collide_cell (m : maps) (h0 : heap) (ij : Z * Z) (h : heap) : outcome (option heap) :=
  let '(i, j) := ij in
  let n_el := density dr dz d0 i (parts h (m El i j)) in
  let n_ion := density dr dz d0 i (parts h (m Ion i j)) in
  do debye <- CheckModel.debye_length n_el n_ion (temperature El h0 (m El i j)) (temperature Ion h0 (m Ion i j));
  collide_pairs m i j n_el n_ion debye
    (cell_pairs (Z.of_nat (List.length (m El i j))) (Z.of_nat (List.length (m Ion i j)))) 0 h.
Fixpoint collide_list (m : maps) (h0 : heap) (l : list (Z * Z)) (h : heap) : outcome (option heap) :=
  match l with
  | [] => Ok (Some h)
  | c :: l => do r <- collide_cell m h0 c h; match r with Some h => collide_list m h0 l h | None => Ok None end
  end.
(** the cells that collide; their temperatures come from the sums collected before, their densities from the weights *)
Definition colliding (m : maps) (h : heap) : list (Z * Z) :=
  collide_cells (mass Ion) (mass El) dr dz d0 (Z.to_nat nr) (Z.to_nat nz) (cells h m).
Definition collide (m : maps) (h : heap) : outcome (option heap) := collide_list m h (colliding m h) h.

(** collisionsTA77S.cpp:419-566.  The pointers of a list are distinct, so writing the velocities while walking over the
    list is the same as writing them at the end *)
Fixpoint write_back (h : heap) (ptrs : list nat) (l : list part) : heap :=
  match ptrs, l with
  | p :: ptrs, x :: l => write_back (set_velocity h p (velocity x)) ptrs l
  | _, _ => h
  end.
Definition correct_list (m : maps) (h0 : heap) (c : Z * Z) (k : kind) (h : heap) : heap :=
  let l := m k (fst c) (snd c) in let l0 := parts h0 l in
  write_back h l (correct_velocities (mass k) (amount_tot l0) (moment_tot (mass k) l0) (energy_tot (mass k) l0) (parts h l)).
Definition correct (m : maps) (h0 h : heap) : heap :=
  fold_left (fun h c => correct_list m h0 c El (correct_list m h0 c Ion h)) all_cells h.
End Phase.
Arguments collide_pair {D}.
Arguments collide_pairs {D}.
Arguments collide_cell d0 dr dz mass {D}.
Arguments collide_list d0 dr dz mass {D}.
Arguments collide nr nz d0 dr dz mass {D}.

(** mass_el, mass_ion, charge_el, charge_ion *)
Definition per_kind {A} (el ion : A) (k : kind) : A := match k with El => el | Ion => ion end.

(** operator(), collisionsTA77S.cpp:568-576 ([corrected]), collisionsSK98.cpp:443-451, collisionsP12.cpp:571-579.
    Without a species of one of the names, collisions.cpp:216-217 calls a member function of an uninitialised pointer.
    [single] gets masses and charges. *)
Definition phase (nr nz d0 d1 : Z) (dr dz ev : R) (corrected : bool) {D : Type}
  (single : (kind -> R) -> (kind -> R) -> kind -> kind -> part -> part -> R -> R -> R -> D -> coll) (draw : Z -> Z -> nat -> D)
  (shuffle : kind -> Z -> Z -> list nat -> list nat) (sp : list specie) (m : maps) (h : heap) : outcome (option (maps * heap)) :=
  do m <- sort_to_cells nr nz d0 d1 h sp (clear nr nz m);
  let m := random_sort nr nz shuffle m in
  match find_last is_el sp, find_last is_ion sp with
  | Some e, Some i =>
    let mass := per_kind (sp_mass e) (sp_mass i) in
    let charge := per_kind (sp_charge e) (sp_charge i) in
    do r <- collide nr nz d0 dr dz mass (single mass charge) draw ev m h;
    Ok (match r with
        | None => None
        | Some h' => Some (m, if corrected then correct nr nz mass m h h' else h')
        end)
  | _, _ => UB
  end.

(** [collide_single] of the three operators *)
Definition ta77 (mass charge : kind -> R) (a b : kind) (pa pb : part) (na nb debye : R) (d : R * R * R) : coll :=
  let '(delta, phi, dzeta) := d in
  let '(va, vb) := ta77_single (mass a) (mass b) pa pb delta phi dzeta in Pair (Set_to va) (Set_to vb).
Definition sk98 (c eps0 hbar mnzl step : R) (mass charge : kind -> R) (a b : kind) (pa pb : part) (na nb debye : R) (d : (R -> R) * R) : coll :=
  sk98_single c eps0 hbar mnzl step (mass a) (mass b) (charge a) (charge b) pa pb na nb debye (fst d) (snd d).
Definition p12 (c eps0 hbar mnzl lim step : R) (mass charge : kind -> R) (a b : kind) (pa pb : part) (na nb debye : R) (d : R * R * R) : coll :=
  let '(u, phi, u_defl) := d in
  p12_single c eps0 hbar mnzl lim step (mass a) (mass b) (charge a) (charge b) pa pb na nb debye u phi u_defl.
