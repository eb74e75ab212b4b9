(** Model of [SMB::particles_runaway_collector] built with ENABLE_MPI (src/SMB.cpp:194-561): every rank sorts the
    runaway particles of its domains into two queues, the queues are sent to the neighbours, and what is received
    is put into the domains.  The loop over the domains is executed serially. *)
From Verif Require Import Base DecompModel CollectorModel MpiModel.

Section Migr.
Variable P : Type.                 (* Particle: identity and all other attributes *)
Variables cr cz : P -> Z.          (* P_CELL_R, P_CELL_Z as seen by [int r_cell], [int z_cell] *)
Variable sp : P -> Z.              (* P_SPECIE_ID *)

(** geometry of one rank: [a] has the cells and domains of the slab (PiCoPiC.cpp:214-227), [base] is
    [cell_dims[1]]; [cell_dims[0]] = 0, [cell_dims[2]] = [nr a], [cell_dims[3]] = [base + nz a] *)
Variable a : area.
Variable base : Z.

Inductive mverdict : Type := MKeep | MRemove | MMove (i j : Z) | MMinus | MPlus.

(** SMB.cpp:229-337 with ENABLE_MPI.  Comparisons of [int] with [size_t] convert the [int]. *)
Definition mjudge (i j : Z) (p : P) : outcome mverdict :=
  let r_cell := cr p in
  let z_cell := cz p in
  do i_dst <- dst_index (local_amount (nr a) (rd_ a) 0 i) 0 r_cell;
  do j_dst <- dst_index (local_amount (nz a) (zd_ a) base j) base z_cell;
  if (r_cell <? 0) || (z_cell <? 0) then Ok MRemove
  else if u64 z_cell <? base then Ok MMinus
  else if base + nz a <=? u64 z_cell then Ok MPlus
  else if nr a <=? u64 r_cell then Ok MRemove
  else if negb (i_dst =? i) || negb (j_dst =? j) then Ok (MMove i_dst j_dst)
  else Ok MKeep.

(** the domains of the rank, queue_particles_plus and queue_particles_minus *)
Record mstate : Type := mkMs { doms_of : smb P; q_plus : list P; q_minus : list P }.

(** [std::remove_if] over the vector of one species of domain (i, j) *)
Fixpoint mrun_particles (i j sid : Z) (l : list P) (s : mstate) : outcome (list P * mstate) :=
  match l with
  | [] => Ok ([], s)
  | p :: l' =>
      do v <- mjudge i j p;
      match v with
      | MKeep => do (k, s') <- mrun_particles i j sid l' s; Ok (p :: k, s')
      | MRemove => mrun_particles i j sid l' s
      | MMinus => mrun_particles i j sid l' (mkMs (doms_of s) (q_plus s) (q_minus s ++ [p]))
      | MPlus => mrun_particles i j sid l' (mkMs (doms_of s) (q_plus s ++ [p]) (q_minus s))
      | MMove i' j' =>
          if in_range a i' j' then
            mrun_particles i j sid l' (mkMs (push P i' j' sid p (doms_of s)) (q_plus s) (q_minus s))
          else UB
      end
  end.

(** the loops over the species of a domain and over the domains, SMB.cpp:208-343 *)
Fixpoint mrun_species (i j : Z) (d : domain P) (s : mstate) : outcome (domain P * mstate) :=
  match d with
  | [] => Ok ([], s)
  | x :: d' =>
      do (k, s') <- mrun_particles i j (fst x) (snd x) s;
      do (d'', s'') <- mrun_species i j d' s';
      Ok ((fst x, k) :: d'', s'')
  end.
Definition mrun_domain (i j : Z) (s : mstate) : outcome mstate :=
  do (d, s') <- mrun_species i j (doms_of s i j) s;
  Ok (mkMs (upd_dom P (doms_of s') i j d) (q_plus s') (q_minus s')).
Fixpoint mcollect (order : list (Z * Z)) (s : mstate) : outcome mstate :=
  match order with
  | [] => Ok s
  | (i, j) :: order' => do s' <- mrun_domain i j s; mcollect order' s'
  end.

(** SMB.cpp:467-488 (= 524-545): a received particle is put into the species with its id of the domain computed
    from the sizes of the domain (0, 0); [domains(i_dst, j_dst)] is not checked *)
Definition receive1 (p : P) (st : smb P) : outcome (smb P) :=
  do i_dst <- dst_index (local_amount (nr a) (rd_ a) 0 0) 0 (cr p);
  do j_dst <- dst_index (local_amount (nz a) (zd_ a) base 0) base (cz p);
  if in_range a i_dst j_dst then Ok (push P i_dst j_dst (sp p) p st) else UB.
Fixpoint receive (l : list P) (st : smb P) : outcome (smb P) :=
  match l with [] => Ok st | p :: l' => do st' <- receive1 p st; receive l' st' end.
End Migr.
Arguments mkMs {P}. Arguments doms_of {P}. Arguments q_plus {P}. Arguments q_minus {P}.

(** * Communication *)
Section Comm.
Context {P : Type}.
(** a message is a count ([MPI_UNSIGNED]) or a particle ([mpi_prtl_type]) *)
Inductive pmsg : Type := Count (n : Z) | Part (p : P).

(** SMB.cpp:358-359 and 376-400 (= 402-427): [unsigned int prtls_plus = queue.size ()], the count, then that many
    particles *)
Definition payload (q : list P) : list pmsg :=
  let n := u32 (Z.of_nat (length q)) in Count n :: map Part (firstn (Z.to_nat n) q).

(** SMB.cpp:433-466 (= 491-523): the count is received first, then as many particles as it says *)
Fixpoint parts (n : nat) (l : list pmsg) : outcome (list P) :=
  match n, l with
  | O, [] => Ok []
  | S n', Part p :: l' => do r <- parts n' l'; Ok (p :: r)
  | _, _ => UB
  end.
Definition decode (l : list pmsg) : outcome (list P) :=
  match l with Count n :: l' => parts (Z.to_nat n) l' | _ => UB end.
End Comm.
Arguments pmsg : clear implicits.

(** SMB.cpp:374-547: what rank [p] of [W] does; all sends come before all receives.  Simplification: the number of
    receives is written down here as the number of messages of the neighbour (one count and the particles);
    in the code it is read from the count, which is the first message of the neighbour. *)
Definition migr_prog {M : Type} (W : Z) (plus minus : Z -> list M) (p : Z) : list (cact M) :=
  if (0 <=? p) && (p <? W) then
    (if p <? W - 1 then map (Send (p + 1)) (plus p) else []) ++
    (if 0 <? p then map (Send (p - 1)) (minus p) else []) ++
    (if 0 <? p then map (fun _ => Recv (p - 1)) (plus (p - 1)) else []) ++
    (if p <? W - 1 then map (fun _ => Recv (p + 1)) (minus (p + 1)) else [])
  else [].

(** The whole function on [W] ranks; rank [p] has the slab that begins at [nz a * p].  A particle that leaves the
    first rank downwards or the last one upwards stays in its queue and is deleted (SMB.cpp:549-558). *)
Definition migrated {P : Type} (cr cz sp : P -> Z) (K : nat) (W : Z) (a : area) (st st' : Z -> smb P) : Prop :=
  exists mid : Z -> mstate P,
    (forall p, 0 <= p < W ->
       mcollect P cr cz a (nz a * p) (code_order a) (mkMs (st p) [] []) = Ok (mid p)) /\
    exists s, steps K (start (migr_prog W (fun p => payload (q_plus (mid p))) (fun p => payload (q_minus (mid p))))) s /\
      finished s /\
      forall p, 0 <= p < W ->
        (do b <- (if 0 <? p then do l <- decode (got s p (p - 1)); receive P cr cz sp a (nz a * p) l (doms_of (mid p))
                  else Ok (doms_of (mid p)));
         (if p <? W - 1 then do l <- decode (got s p (p + 1)); receive P cr cz sp a (nz a * p) l b else Ok b)) = Ok (st' p).
