(** Model of the division of the simulation area into domains (src/SMB.cpp) and of the arithmetic used to
    find the destination domain of a particle. *)
From Verif Require Import Base.

(** SMB.cpp:72-81.  First cell (in one direction) of the domain number [i] of [n]: all operands are [size_t]
    or [unsigned int], so the arithmetic is modulo 2^64.  [base] is [geometry->cell_dims[0]] or [[1]].
    The end of domain [i] is [bound .. (i + 1)]: the code uses the same expression with [(i + 1)]. *)
Definition bound (amount n base i : Z) : Z := u64 (u64 (amount * i) / n + base).

(** geometry.hpp:58-60 local [cell_amount] of domain [i] *)
Definition local_amount (amount n base i : Z) : Z :=
  u64 (bound amount n base (i + 1) - bound amount n base i).

(** SMB.cpp:236-243 (and 474-481, 534-541): [i_dst]/[j_dst] as computed by the runaway collector of a domain
    with [local] cells for a particle in cell [c] ([int], converted to [size_t]).  Integer division by zero is
    undefined; [ceil] of an integer below 2^53 is the identity. *)
Definition dst_index (local base c : Z) : outcome Z :=
  if local =? 0 then UB else Ok (u32 (u64 (c - base) / local)).

(** cfg.cpp:581-585 number of domains accepted by the configuration check *)
Definition accepted_domains (n : Z) : bool := (n mod 2 =? 0) || (n =? 1).
