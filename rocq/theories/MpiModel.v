(** Model of the ENABLE_MPI parts: the border exchange between ranks (src/SMB.cpp:599-781 current_overlay,
    823-1007 field_h_overlay, 1045-1228 field_e_overlay; the three texts differ only in the grid that is
    exchanged), the struct [MPICommOverlay] (include/SMB.hpp:59-174), the blocking communication of the ranks
    and the split of the geometry (src/PiCoPiC.cpp:211-234). *)
From Verif Require Import Base GridModel OverlayModel.

(** * Blocking point-to-point communication *)
Section Net.
Context {M : Type}.                       (* messages *)

(** [MPI_Send (..., q, 0, MPI_COMM_WORLD)] and [MPI_Recv (..., q, 0, MPI_COMM_WORLD, ...)] *)
Inductive cact : Type := Send (q : Z) (m : M) | Recv (q : Z).

(** [prog p]: what rank p still has to do; [chan p q]: messages on the way from p to q, oldest first (MPI
    messages with equal tag and communicator do not overtake each other); [got p q]: what p received from q *)
Record net : Type := mkNet {
  prog : Z -> list cact;
  chan : Z -> Z -> list M;
  got : Z -> Z -> list M
}.
Definition upd1 {A} (f : Z -> A) (p : Z) (v : A) : Z -> A := fun x => if x =? p then v else f x.
Definition upd2 {A} (f : Z -> Z -> A) (p q : Z) (v : A) : Z -> Z -> A :=
  fun x y => if (x =? p) && (y =? q) then v else f x y.

(** The MPI library may store up to [K] sent messages per pair of ranks ([K = 0]: no buffering at all, a send
    only completes together with the matching receive - "rendezvous"). *)
Inductive step (K : nat) : net -> net -> Prop :=
| step_send s p q m l : prog s p = Send q m :: l -> (length (chan s p q) < K)%nat ->
    step K s (mkNet (upd1 (prog s) p l) (upd2 (chan s) p q (chan s p q ++ [m])) (got s))
| step_recv s p q m l c : prog s p = Recv q :: l -> chan s q p = m :: c ->
    step K s (mkNet (upd1 (prog s) p l) (upd2 (chan s) q p c) (upd2 (got s) p q (got s p q ++ [m])))
| step_sync s p q m l l' : p <> q -> prog s p = Send q m :: l -> prog s q = Recv p :: l' -> chan s p q = [] ->
    step K s (mkNet (upd1 (upd1 (prog s) p l) q l') (chan s) (upd2 (got s) q p (got s q p ++ [m]))).

Inductive steps (K : nat) : net -> net -> Prop :=
| steps_refl s : steps K s s
| steps_trans s t u : steps K s t -> step K t u -> steps K s u.

Definition start (P : Z -> list cact) : net := mkNet P (fun _ _ => []) (fun _ _ => []).
Definition finished (s : net) : Prop := forall p, prog s p = [].
Definition stuck (K : nat) (s : net) : Prop := forall t, ~ step K s t.

(** SMB.cpp:680-711 (= 904-935, 1126-1157): what rank [p] of [W] does in the exchange; [plus p], [minus p]: the
    messages [domains_plus], [domains_minus], one per radial domain *)
Definition exchange_prog (W : Z) (plus minus : Z -> list M) (p : Z) : list cact :=
  if (0 <=? p) && (p <? W) then
    (if p <? W - 1 then map (Send (p + 1)) (plus p) ++ map (fun _ => Recv (p + 1)) (plus p) else []) ++
    (if 0 <? p then map (Send (p - 1)) (minus p) ++ map (fun _ => Recv (p - 1)) (minus p) else [])
  else [].
End Net.
Arguments cact : clear implicits. Arguments net : clear implicits.

(** * The data that is exchanged *)
Section Data.
Context {T : Type}.
Variable add : T -> T -> T.
Variable zero : T.

(** SMB.hpp:59-101: [len], the twelve arrays [col_c_k] of [len] values (c = 0..3, component k = 0..2) and
    the number of the radial domain *)
Record msg : Type := mkMsg { mlen : Z; mcol : Z -> Z -> Z -> T; mdst : Z }.
(** SMB.hpp:81-101 *)
Definition new_msg (len r : Z) : msg := mkMsg len (fun _ _ _ => zero) r.
(** [item.col_c_k[j] = v] and [item.col_c_k[j]]: [std::vector::operator[]] is not checked *)
Definition put (m : msg) (c k j : Z) (v : T) : outcome msg :=
  if (0 <=? j) && (j <? mlen m) then
    Ok (mkMsg (mlen m) (fun c' k' j' => if (c' =? c) && (k' =? k) && (j' =? j) then v else mcol m c' k' j') (mdst m))
  else UB.
Definition take (m : msg) (c k j : Z) : outcome T :=
  if (0 <=? j) && (j <? mlen m) then Ok (mcol m c k j) else UB.

Definition put_comp (g : grid3 T) (k : Z) (x : grid T) : grid3 T :=
  if k =? 0 then mkGrid3 x (c_phi g) (c_z g) else if k =? 1 then mkGrid3 (c_r g) x (c_z g)
  else mkGrid3 (c_r g) (c_phi g) x.

(** SMB.cpp:619-647 (item_plus; the twelve assignments are written out in the code, c-th column block, k-th
    component): [d_r_s = y_size + o_s], columns [d_r_s - 4 + c], rows [j - o_s] for j = 0 .. x_real_size - 1 *)
Definition pack_plus (g : grid3 T) (i : Z) : outcome msg :=
  for_to 0 (xr (c_r g)) (fun j => for_to 0 4 (fun c => for_to 0 3 (fun k m =>
    do gk <- component g k;
    do v <- get gk (j - os (c_r g)) (ys (c_r g) + os (c_r g) - (4 - c));
    put m c k j v))) (new_msg (xr (c_r g)) i).

(** SMB.cpp:653-676 (item_minus): rows j = -o_s .. x_size + o_s - 1, columns [c - o_s] *)
Definition pack_minus (g : grid3 T) (i : Z) : outcome msg :=
  for_to (- os (c_r g)) (xs (c_r g) + os (c_r g)) (fun j => for_to 0 4 (fun c => for_to 0 3 (fun k m =>
    do gk <- component g k;
    do v <- get gk j (c - os (c_r g));
    put m c k (j + os (c_r g)) v))) (new_msg (xs (c_r g) + 2 * os (c_r g)) i).

(** SMB.cpp:717-743: add the columns received from rank - 1 to the domain (i, 0) *)
Definition unpack_minus (m : msg) (g : grid3 T) : outcome (grid3 T) :=
  for_to (- os (c_r g)) (xs (c_r g) + os (c_r g)) (fun j => for_to 0 4 (fun c => for_to 0 3 (fun k h =>
    do v <- take m c k (j + os (c_r g));
    do hk <- component h k;
    do hk' <- op_assign add hk j (c - os (c_r g)) v;
    Ok (put_comp h k hk')))) g.

(** SMB.cpp:745-778: add the columns received from rank + 1 to the domain (i, z_domains - 1); the columns
    are treated in descending order *)
Definition unpack_plus (m : msg) (g : grid3 T) : outcome (grid3 T) :=
  for_to (- os (c_r g)) (xs (c_r g) + os (c_r g)) (fun j => for_to 0 4 (fun c' => for_to 0 3 (fun k h =>
    do v <- take m (3 - c') k (j + os (c_r g));
    do hk <- component h k;
    do hk' <- op_assign add hk j (ys (c_r g) + os (c_r g) - (1 + c')) v;
    Ok (put_comp h k hk')))) g.

(** the domains (r-index, z-index) of one rank *)
Local Notation rank_state := (doms (grid3 T)).

(** SMB.cpp:608-678: packing in the order of the radial domains *)
Fixpoint pack_all (f : grid3 T -> Z -> outcome msg) (m : rank_state) (col : Z) (rows : list Z) : outcome (list msg) :=
  match rows with
  | [] => Ok []
  | i :: l => do a <- f (m (i, col)) i; do b <- pack_all f m col l; Ok (a :: b)
  end.
(** SMB.cpp:717-778: unpacking in the order of reception; [i->dst_domain[0]] selects the domain *)
Fixpoint unpack_all (f : msg -> grid3 T -> outcome (grid3 T)) (col : Z) (l : list msg) (m : rank_state)
  : outcome rank_state :=
  match l with
  | [] => Ok m
  | a :: l' => do g <- f a (m (mdst a, col)); unpack_all f col l' (updp m (mdst a, col) g)
  end.

(** One exchange, rank by rank: [R] radial domains, [C] longitudinal domains per rank, [W] ranks.  The ranks
    pack, communicate under any schedule with a library that stores up to [K] messages per pair of ranks, and
    unpack what they received (first the part of rank - 1, then that of rank + 1). *)
Definition rank_range (W p : Z) : Prop := 0 <= p < W.
Definition exchanged (K : nat) (W R C : Z) (st st' : Z -> rank_state) : Prop :=
  exists plus minus : Z -> list msg,
    (forall p, rank_range W p ->
       pack_all pack_plus (st p) (C - 1) (zrange 0 R) = Ok (plus p) /\
       pack_all pack_minus (st p) 0 (zrange 0 R) = Ok (minus p)) /\
    exists s, steps K (start (exchange_prog W plus minus)) s /\ finished s /\
      forall p, rank_range W p ->
        (do a <- (if 0 <? p then unpack_all unpack_minus 0 (got s p (p - 1)) (st p) else Ok (st p));
         (if p <? W - 1 then unpack_all unpack_plus (C - 1) (got s p (p + 1)) a else Ok a)) = Ok (st' p).
End Data.
Arguments msg : clear implicits.

(** * Splitting the geometry over the ranks (src/PiCoPiC.cpp:211-227), [size_t] arithmetic: cell_amount[1],
    cell_dims[1], cell_dims[3] and domains_amount[1] of rank [ID]; division by zero traps *)
Record slab : Type := mkSlab { s_cells : Z; s_begin : Z; s_end : Z; s_domains : Z; s_wall_l : bool; s_wall_r : bool }.
Definition split_geometry (cells domains nprocs ID : Z) : outcome slab :=
  if nprocs =? 0 then UB else
  let a := cells / nprocs in
  Ok (mkSlab a (u64 (a * ID)) (u64 (a * (ID + 1))) (domains / nprocs) (negb (0 <? ID)) (negb (ID <? nprocs - 1))).
