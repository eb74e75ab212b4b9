(** Model of the stitching pass over all domains: [SMB::current_overlay] (src/SMB.cpp:566-598),
    [SMB::field_h_overlay] (784-822) and [SMB::field_e_overlay] (1010-1044), without their MPI parts.
    The three functions have the same loops; only the grid they stitch differs ([field_h_overlay] stitches
    two grids per domain, [field_h] and [field_h_at_et], one after the other). *)
From Verif Require Import Base GridModel CollectorModel.

(** what a domain (i, j) holds: the grid(s) being stitched *)
Definition doms (S : Type) : Type := Z * Z -> S.

Definition peq (p q : Z * Z) : bool := (fst p =? fst q) && (snd p =? snd q).
Definition updp {S} (m : doms S) (p : Z * Z) (s : S) : doms S := fun q => if peq q p then s else m q.

(** an operation on two different domains, [domains(p)->f(domains(q))] *)
Definition pairop {S} (f : S * S -> outcome (S * S)) (p q : Z * Z) (m : doms S) : outcome (doms S) :=
  do (a, b) <- f (m p, m q); Ok (updp (updp m p a) q b).

Inductive kind : Type := KX | KY | KXY.
(** a stitching call: which one, and the domain [sim_domain] it starts from *)
Record op : Type := mkOp { okind : kind; orow : Z; ocol : Z }.
Definition src (o : op) : Z * Z := (orow o, ocol o).
Definition dst (o : op) : Z * Z :=
  match okind o with
  | KX => (orow o + 1, ocol o)
  | KY => (orow o, ocol o + 1)
  | KXY => (orow o + 1, ocol o + 1)
  end.

(** SMB.cpp:577-597: the calls made for one domain.  [R], [C] = geometry->domains_amount. *)
Definition block_ops (R C : Z) (ij : Z * Z) : list op :=
  let (i, j) := ij in
  (if i <? R - 1 then [mkOp KX i j] else []) ++
  (if j <? C - 1 then [mkOp KY i j] else []) ++
  (if (i <? R - 1) && (j <? C - 1) then [mkOp KXY i j] else []).

(** SMB.cpp:568-575: colours, rows, columns *)
Definition colour_ops (R C idx idy : Z) : list op :=
  flat_map (block_ops R C) (colour {| nr := 0; nz := 0; rd_ := R; zd_ := C |} idx idy).
Definition pass_ops (R C : Z) : list op :=
  flat_map (block_ops R C) (code_order {| nr := 0; nz := 0; rd_ := R; zd_ := C |}).

Section Pass.
Context {S : Type}.
Variables ox oy oxy : S -> S -> outcome (S * S).     (* overlay_x, overlay_y, overlay_xy of the stitched object *)
Definition op_fun (k : kind) (ab : S * S) : outcome (S * S) :=
  match k with KX => ox | KY => oy | KXY => oxy end (fst ab) (snd ab).
Definition apply_op (o : op) (m : doms S) : outcome (doms S) :=
  pairop (op_fun (okind o)) (src o) (dst o) m.
Fixpoint run_ops (l : list op) (m : doms S) : outcome (doms S) :=
  match l with [] => Ok m | o :: l' => do m' <- apply_op o m; run_ops l' m' end.
(** the whole function, executed by one thread *)
Definition pass (R C : Z) (m : doms S) : outcome (doms S) := run_ops (pass_ops R C) m.
End Pass.

(** the instances: one grid, and the three-component grids the program stitches *)
Definition pass1 {T} (add : T -> T -> T) := pass (overlay_x add) (overlay_y add) (overlay_xy add).
Definition pass3 {T} (add : T -> T -> T) := pass (overlay_x3 add) (overlay_y3 add) (overlay_xy3 add).

(** ** Statement-level actions, for interleaved (multi-threaded) executions.
    An overlay call is its size check followed by, for each cell pair of its loops, four assignments. *)
Section Actions.
Context {T : Type}.
Variable add : T -> T -> T.
Local Notation gact := (grid T * grid T -> outcome (grid T * grid T)).

(** grid.hpp:101-102, 119-120, 137-138 *)
Definition check_y : gact := fun s => if xr (fst s) =? xr (snd s) then Ok s else Fatal.
Definition check_x : gact := fun s => if yr (fst s) =? yr (snd s) then Ok s else Fatal.
Definition check_xy : gact := fun s =>
  if (xr (fst s) =? xr (snd s)) && (yr (fst s) =? yr (snd s)) then Ok s else Fatal.

(** [rhs[i1][j1] += this[i2][j2]], [this += rhs], [rhs = this], [this = rhs] *)
Definition st_acc_rhs (i1 j1 i2 j2 : Z) : gact := fun s =>
  do v <- rd (fst s) i2 j2; do b <- acc add (snd s) i1 j1 v; Ok (fst s, b).
Definition st_acc_this (i1 j1 i2 j2 : Z) : gact := fun s =>
  do v <- rd (snd s) i2 j2; do a <- acc add (fst s) i1 j1 v; Ok (a, snd s).
Definition st_set_rhs (i1 j1 i2 j2 : Z) : gact := fun s =>
  do v <- rd (fst s) i2 j2; do b <- wr (snd s) i1 j1 v; Ok (fst s, b).
Definition st_set_this (i1 j1 i2 j2 : Z) : gact := fun s =>
  do v <- rd (snd s) i2 j2; do a <- wr (fst s) i1 j1 v; Ok (a, snd s).

(** grid.hpp:105-109 for given sizes X, Y of [this] and overlay o *)
Definition stmts_y (X Y o d i : Z) : list gact :=
  [ st_acc_rhs i (u32 (2 * o - d - 1)) i (u32 (Y - 1 - d));
    st_acc_this i (u32 (Y - 2 * o + d)) i d;
    st_set_rhs i d i (u32 (Y - 2 * o + d));
    st_set_this i (u32 (Y - 1 - d)) i (u32 (2 * o - 1 - d)) ].
(** grid.hpp:123-127 *)
Definition stmts_x (X Y o d i : Z) : list gact :=
  [ st_acc_rhs (u32 (2 * o - d - 1)) i (u32 (X - 1 - d)) i;
    st_acc_this (u32 (X - 2 * o + d)) i d i;
    st_set_rhs d i (u32 (X - 2 * o + d)) i;
    st_set_this (u32 (X - 1 - d)) i (u32 (2 * o - 1 - d)) i ].
(** grid.hpp:141-145 *)
Definition stmts_xy (X Y o d e : Z) : list gact :=
  [ st_acc_rhs (u32 (2 * o - d - 1)) (u32 (2 * o - e - 1)) (u32 (X - 1 - d)) (u32 (X - 1 - e));
    st_acc_this (u32 (X - 2 * o + d)) (u32 (X - 2 * o + e)) d e;
    st_set_rhs d e (u32 (Y - 2 * o + d)) (u32 (Y - 2 * o + e));
    st_set_this (u32 (X - 1 - d)) (u32 (X - 1 - e)) (u32 (2 * o - 1 - d)) (u32 (2 * o - 1 - e)) ].

Fixpoint zseq (n : nat) (i : Z) : list Z := match n with O => [] | S n' => i :: zseq n' (i + 1) end.
Definition zrange (lo hi : Z) : list Z := zseq (Z.to_nat (hi - lo)) lo.

(** the statements executed by one call on [this] = a (sizes do not change during the call) *)
Definition acts (k : kind) (a : grid T) : list gact :=
  let X := xr a in let Y := yr a in let o := os a in
  match k with
  | KY => check_y :: flat_map (fun d => flat_map (stmts_y X Y o d) (zrange o (u32 (X - o)))) (zrange 0 o)
  | KX => check_x :: flat_map (fun d => flat_map (stmts_x X Y o d) (zrange o (u32 (Y - o)))) (zrange 0 o)
  | KXY => check_xy :: flat_map (fun d => flat_map (stmts_xy X Y o d) (zrange 0 o)) (zrange 0 o)
  end.

(** an action of one component of the three-component grid *)
Inductive comp : Type := Cr | Cphi | Cz.
Definition getc (c : comp) (g : grid3 T) : grid T :=
  match c with Cr => c_r g | Cphi => c_phi g | Cz => c_z g end.
Definition putc (c : comp) (g : grid3 T) (x : grid T) : grid3 T :=
  match c with
  | Cr => mkGrid3 x (c_phi g) (c_z g)
  | Cphi => mkGrid3 (c_r g) x (c_z g)
  | Cz => mkGrid3 (c_r g) (c_phi g) x
  end.
Definition on_comp (c : comp) (f : gact) : grid3 T * grid3 T -> outcome (grid3 T * grid3 T) := fun s =>
  do (a, b) <- f (getc c (fst s), getc c (snd s)); Ok (putc c (fst s) a, putc c (snd s) b).

(** grid3d.hpp: the three components one after the other *)
Definition acts3 (k : kind) (g : grid3 T) : list (grid3 T * grid3 T -> outcome (grid3 T * grid3 T)) :=
  map (on_comp Cr) (acts k (c_r g)) ++ map (on_comp Cphi) (acts k (c_phi g)) ++ map (on_comp Cz) (acts k (c_z g)).

(** everything the iteration (i, j) of a colour does, as a list of atomic actions on the domains; [m] gives
    the grid sizes *)
Definition op_acts (m : doms (grid3 T)) (o : op) : list (doms (grid3 T) -> outcome (doms (grid3 T))) :=
  map (fun f => pairop f (src o) (dst o)) (acts3 (okind o) (m (src o))).
Definition iteration (R C : Z) (m : doms (grid3 T)) (ij : Z * Z)
  : list (doms (grid3 T) -> outcome (doms (grid3 T))) :=
  flat_map (op_acts m) (block_ops R C ij).
End Actions.
