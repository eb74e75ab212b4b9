(** Memory accesses of the threads in the parallel loops of the collector (src/SMB.cpp:194-345) and of the initial
    distribution (src/SMB.cpp:1324-1334, src/domain.cpp:85-94).  Built without MPI.  The iterations of
    [#pragma omp parallel for] over the rows of domains may be executed by different threads in any order. *)
From Verif Require Import Base DecompModel CollectorModel.

(** ** Shared objects: the vector of particles of species [sid] of domain (i, j), the counters [j_c] and [r_c] that
    all threads share (lines 213-214, captured by reference), and the generator [math::random::gen] (rand.cpp:25-26) *)
Inductive loc : Type := Parts (i j sid : Z) | Jumped | Removed | Gen.
Record access : Type := Acc { write : bool; at_ : loc }.
Definition rd (l : loc) : access := Acc false l.
Definition wr (l : loc) : access := Acc true l.

Section Race.
Context {P : Type}.
Variables cr cz : P -> Z.
Variable a : area.
Notation judge := (judge P cr cz a).
Notation run_domain := (run_domain P cr cz a).

(** lines 229-340: [remove_if] reads the elements and overwrites them once one is dropped; [push_back] to the species
    of the same id of the destination; [++j_c], [++r_c] *)
Definition acc_particle (i j sid : Z) (st : smb P) (p : P) : list access :=
  match judge i j p with
  | Ok Keep => [rd (Parts i j sid)]
  | Ok Remove => [wr Removed; wr (Parts i j sid)]
  | Ok (Move i' j') =>
      wr Jumped :: map (fun s => wr (Parts i' j' (fst s))) (filter (fun s => fst s =? sid) (st i' j')) ++ [wr (Parts i j sid)]
  | _ => []
  end.
Definition acc_domain (i j : Z) (st : smb P) : list access :=
  flat_map (fun s => flat_map (acc_particle i j (fst s) st) (snd s)) (st i j).
(** lines 222-224: the iteration of one row: its domains of the colour, one after the other *)
Fixpoint thread (i : Z) (js : list Z) (st : smb P) : outcome (list access) :=
  match js with
  | [] => Ok []
  | j :: js =>
      do st' <- run_domain i j st;
      do t <- thread i js st';
      Ok (acc_domain i j st ++ t)
  end.
End Race.

(** ** The initial distribution: the draws of a domain with the given numbers of particles of its species.
    specieP.cpp:157-164 (random placement: two draws for a particle), 345-383 (thermal velocities: at least one draw
    for the energy and three for the direction), 385-415 (rectangular: three draws), 417-444 (eigen: none) *)
Inductive velocities : Type := Thermal | Rectangular | Eigen.
Definition draws_particle (random : bool) (v : velocities) : nat :=
  ((if random then 2 else 0) + match v with Thermal => 4 | Rectangular => 3 | Eigen => 0 end)%nat.
Definition acc_distribute (random : bool) (v : velocities) (amounts : list nat) : list access :=
  flat_map (fun n => repeat (wr Gen) (n * draws_particle random v)) amounts.

(** ** Specification *)
(** two accesses of different threads to the same object, at least one of them a write *)
Definition conflict (x y : access) : Prop := at_ x = at_ y /\ (write x = true \/ write y = true).
Definition race (t1 t2 : list access) : Prop := exists x y, In x t1 /\ In y t2 /\ conflict x y.
