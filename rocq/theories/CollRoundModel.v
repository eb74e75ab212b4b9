(** Model of the collisions of a domain inside a round of the main loop (src/SMB.cpp:1290-1293): the species of the domain as lists of
    pointers, the phase of CollPhaseModel, and the particles with the velocities that it wrote.
    [Domain::collide] (domain.cpp:199-204) calls [collisions->run()]; no class has a member of that name, so with
    ENABLE_COULOMB_COLLISIONS the code does not compile.  Taken here: [operator()], the only public member that does the collisions
    (collisions.hpp:49). *)
From Coq Require Import Reals String.
From Verif Require Import Base PushModel CollectorModel ParticleModel CollModel CollOpModel CollPhaseModel RoundModel.
Open Scope Z_scope.

Definition vel (q : pt) : v3 := V3 (vel_r (now q)) (vel_phi (now q)) (vel_z (now q)).
(** the n-th particle of the domain is at the pointer n; [c n] are its P_CELL_R and P_CELL_Z (specieP.hpp:56-66), as
    [bind_cell_numbers] or [inject] (beamP.cpp:133-137) left them; [rest]: other memory *)
Definition heap_of (rest : heap) (c : nat -> Z * Z) (l : list pt) : heap := fun n =>
  match nth_error l n with Some q => CPart (c n) (Part (ParticleModel.weight (now q)) (vel q)) | None => rest n end.
(** domain.cpp:54-61: [species_p], with the name, the mass and the charge of a species *)
Fixpoint pointers (info : Z -> string * R * R) (n : nat) (d : domain pt) : list specie :=
  match d with
  | [] => []
  | s :: d => let '(name, m, e) := info (fst s) in Specie name m e (seq n (List.length (snd s))) :: pointers info (n + List.length (snd s)) d
  end.
(** the particles with the velocities in memory *)
Fixpoint reread (h : heap) (n : nat) (l : list pt) : list pt :=
  match l with [] => [] | q :: l => mkPt (set_vel (now q) (velocity (cp_part (h n)))) (old_r q) (old_z q) :: reread h (S n) l end.
Fixpoint reread_all (h : heap) (n : nat) (d : domain pt) : domain pt :=
  match d with [] => [] | s :: d => (fst s, reread h n (snd s)) :: reread_all h (n + List.length (snd s)) d end.
Section Collided.
Variable info : Z -> string * R * R.
Variable stored : Z -> Z -> nat -> Z * Z.
(** cells and corner of domain (i, k) *)
Variables (nr nz d0 d1 : Z -> Z -> Z) (dr dz ev : R).
Variable corrected : bool.
Variable D : Type.
Variable single : (kind -> R) -> (kind -> R) -> kind -> kind -> CollOpModel.part -> CollOpModel.part -> R -> R -> R -> D -> coll.
Variable draw : Z -> Z -> Z -> Z -> nat -> D.
Variable shuffle : Z -> Z -> kind -> Z -> Z -> list nat -> list nat.
(** [m0]: what the lists of the cells held before (see C127_unread) *)
Definition collided (i k : Z) (d d' : domain pt) : Prop := exists rest m0 m h',
  phase (nr i k) (nz i k) (d0 i k) (d1 i k) dr dz ev corrected single (draw i k) (shuffle i k) (pointers info 0 d) m0
    (heap_of rest (stored i k) (flat_map snd d)) = Ok (Some (m, h')) /\ d' = reread_all h' 0 d.
End Collided.
