(** The memory of the particles of one process: objects made by [new Particle ()] (specieP.cpp:155, 219, 263, beamP.cpp:102,
    SMB.cpp:456, 512), the vectors of pointers [SpecieP::particles], and the places that delete objects (SMB.cpp:549-558,
    specieP.cpp:72-77).  An object that is used after its deletion, or deleted twice, is undefined behaviour. *)
From Verif Require Import Base ListUtil DecompModel CollectorModel MigrModel.
Open Scope Z_scope.

Definition addr : Type := Z.
(** what the collector reads of an object: [cell_r], [cell_z] and [specie_id] (include/specieP.hpp:84-119) *)
Record obj : Type := mkObj { o_r : Z; o_z : Z; o_sp : Z }.
Record mem : Type := mkMem { live : list addr; at_ : addr -> obj }.

Section Mem.
(** the allocator: an address that is not in use *)
Variable fresh : list addr -> addr.
Variable a : area.
Variable base : Z.
Definition set_obj (m : mem) (p : addr) (o : obj) : mem := mkMem (live m) (fun q => if q =? p then o else at_ m q).
Definition make (o : obj) (m : mem) : addr * mem := let p := fresh (live m) in (p, set_obj (mkMem (p :: live m) (at_ m)) p o).
Definition in_use (m : mem) (p : addr) : bool := existsb (Z.eqb p) (live m).
Definition del (p : addr) (m : mem) : outcome mem :=
  if in_use m p then Ok (mkMem (filter (fun q => negb (q =? p)) (live m)) (at_ m)) else UB.
Fixpoint del_all (l : list addr) (m : mem) : outcome mem :=
  match l with [] => Ok m | p :: l' => do m' <- del p m; del_all l' m' end.
(** the pointers in all vectors of all species of all domains *)
Definition listed (st : smb addr) : list addr :=
  flat_map (fun ij => flat_map snd (st (fst ij) (snd ij))) (pairs (rd_ a) (zd_ a)).
(** a loop over all particles uses every listed object *)
Definition uses (m : mem) (l : list addr) : outcome unit := if forallb (in_use m) l then Ok tt else UB.

(** [int r_cell = P_CELL_R (o)], SMB.cpp:237-238 *)
Definition pcr (m : mem) (p : addr) : Z := s32 (o_r (at_ m p)).
Definition pcz (m : mem) (p : addr) : Z := s32 (o_z (at_ m p)).
Definition psp (m : mem) (p : addr) : Z := o_sp (at_ m p).

(** what happens to the particles in a run *)
Inductive op : Type :=
| Fill (i j sid r z : Z)             (* specieP.cpp:155-170, 219-240, 263-290, beamP.cpp:102-131: one particle for species sid of domain (i, j) *)
| Touch (f : addr -> obj -> Z * Z)   (* push, move, reflect, collide: the listed objects get new cells *)
| Sort                               (* SMB.cpp:194-341, built without MPI *)
| Exchange (rs : list obj)           (* SMB.cpp:194-561, built with MPI; rs: what the neighbours send *)
| Destroy.                           (* specieP.cpp:72-77 for all species of all domains; not called in a run *)

(** SMB.cpp:456-488 and 512-545 *)
Fixpoint arrive (rs : list obj) (s : mem * smb addr) : outcome (mem * smb addr) :=
  match rs with
  | [] => Ok s
  | o :: rs' =>
      let (p, m) := make o (fst s) in
      do st <- receive1 addr (pcr m) (pcz m) (psp m) a base p (snd s);
      arrive rs' (m, st)
  end.
Definition step_op (o : op) (s : mem * smb addr) : outcome (mem * smb addr) :=
  let (m, st) := s in
  match o with
  | Fill i j sid r z => let (p, m') := make (mkObj r z sid) m in Ok (m', push addr i j sid p st)
  | Touch f =>
      do _ <- uses m (listed st);
      Ok (mkMem (live m) (fun p => if existsb (Z.eqb p) (listed st) then mkObj (fst (f p (at_ m p))) (snd (f p (at_ m p))) (o_sp (at_ m p)) else at_ m p), st)
  | Sort =>
      do _ <- uses m (listed st);
      do st' <- collect addr (pcr m) (pcz m) a (code_order a) st;
      Ok (m, st')
  | Exchange rs =>
      do _ <- uses m (listed st);
      do q <- mcollect addr (pcr m) (pcz m) a base (code_order a) (mkMs st [] []);
      do _ <- uses m (q_plus q ++ q_minus q);      (* SMB.cpp:391-400, 418-427: the sends read the objects *)
      do (m1, st1) <- arrive rs (m, doms_of q);
      do m2 <- del_all (q_minus q) m1;
      do m3 <- del_all (q_plus q) m2;
      Ok (m3, st1)
  | Destroy =>
      do m' <- del_all (listed st) m;
      Ok (m', fun i j => map (fun s => (fst s, [])) (st i j))
  end.
Fixpoint run_ops (l : list op) (s : mem * smb addr) : outcome (mem * smb addr) :=
  match l with [] => Ok s | o :: l' => do s' <- step_op o s; run_ops l' s' end.
(** before the distribution of the particles *)
Definition begin (ids : list Z) (at0 : addr -> obj) : mem * smb addr := (mkMem [] at0, fun _ _ => map (fun sid => (sid, [])) ids).
End Mem.
