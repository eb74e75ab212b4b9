(** Model of [SMB::particles_runaway_collector] (src/SMB.cpp:194-341), built without MPI, executed serially
    (one domain at a time, in an arbitrary order of the domains). *)
From Verif Require Import Base DecompModel.

Section Collector.
Variable P : Type.                 (* Particle *: identity and all other attributes *)
Variables cr cz : P -> Z.          (* P_CELL_R, P_CELL_Z as seen by [int r_cell], [int z_cell] *)

(** the global geometry: [cell_amount] = [cell_dims[2..3]] since [cell_dims[0..1]] = 0 (cfg.cpp:391), and the
    number of domains *)
Record area : Type := { nr : Z; nz : Z; rd_ : Z; zd_ : Z }.
Variable a : area.

(** A species: [id] and the vector [particles]; a domain: its [species_p]; the SMB: domain (i, j). *)
Definition species : Type := (Z * list P)%type.
Definition domain : Type := list species.
Definition smb : Type := Z -> Z -> domain.

Inductive verdict : Type := Keep | Remove | Move (i j : Z).

(** SMB.cpp:229-337: what the lambda given to [std::remove_if] does with a particle of domain (i, j) *)
Definition judge (i j : Z) (p : P) : outcome verdict :=
  let r_cell := cr p in
  let z_cell := cz p in
  do i_dst <- dst_index (local_amount (nr a) (rd_ a) 0 i) 0 r_cell;
  do j_dst <- dst_index (local_amount (nz a) (zd_ a) 0 j) 0 z_cell;
  if (r_cell <? 0) || (z_cell <? 0) then Ok Remove
  else if nr a <=? u64 r_cell then Ok Remove
  else if nz a <=? u64 z_cell then Ok Remove
  else if negb (i_dst =? i) || negb (j_dst =? j) then Ok (Move i_dst j_dst)
  else Ok Keep.

Definition in_range (i j : Z) : bool := (0 <=? i) && (i <? rd_ a) && (0 <=? j) && (j <? zd_ a).

Definition upd_dom (st : smb) (i j : Z) (d : domain) : smb :=
  fun i' j' => if (i' =? i) && (j' =? j) then d else st i' j'.

(** SMB.cpp:325-335 [push_back] to every species of the destination domain that has the same id *)
Definition push_species (sid : Z) (p : P) (s : species) : species :=
  if fst s =? sid then (fst s, snd s ++ [p]) else s.
Definition push (i j sid : Z) (p : P) (st : smb) : smb :=
  upd_dom st i j (map (push_species sid p) (st i j)).

(** [std::remove_if] over the vector of one species of domain (i, j) *)
Fixpoint run_particles (i j sid : Z) (l : list P) (st : smb) : outcome (list P * smb) :=
  match l with
  | [] => Ok ([], st)
  | p :: l' =>
      do v <- judge i j p;
      match v with
      | Keep => do (k, st') <- run_particles i j sid l' st; Ok (p :: k, st')
      | Remove => run_particles i j sid l' st
      | Move i' j' => if in_range i' j' then run_particles i j sid l' (push i' j' sid p st) else UB
      end
  end.

(** the loop over the species of a domain, SMB.cpp:217-341 *)
Fixpoint run_species (i j : Z) (d : domain) (st : smb) : outcome (domain * smb) :=
  match d with
  | [] => Ok ([], st)
  | s :: d' =>
      do (k, st') <- run_particles i j (fst s) (snd s) st;
      do (d'', st'') <- run_species i j d' st';
      Ok ((fst s, k) :: d'', st'')
  end.
Definition run_domain (i j : Z) (st : smb) : outcome smb :=
  do (d, st') <- run_species i j (st i j) st;
  Ok (upd_dom st' i j d).

Fixpoint collect (order : list (Z * Z)) (st : smb) : outcome smb :=
  match order with
  | [] => Ok st
  | (i, j) :: order' => do st' <- run_domain i j st; collect order' st'
  end.

(** SMB.cpp:208-215 the order of the loops: the four colours, then rows, then columns *)
Fixpoint steps2 (n : nat) (i hi : Z) : list Z :=
  match n with O => [] | S n' => if i <? hi then i :: steps2 n' (i + 2) hi else [] end.
Definition every2 (idx hi : Z) : list Z := steps2 (Z.to_nat hi) idx hi.
Definition colour (idx idy : Z) : list (Z * Z) :=
  flat_map (fun i => map (fun j => (i, j)) (every2 idy (zd_ a))) (every2 idx (rd_ a)).
Definition code_order : list (Z * Z) := colour 0 0 ++ colour 0 1 ++ colour 1 0 ++ colour 1 1.

End Collector.
