(** Model of [hash_from_string] (src/algo/common.cpp:219-226) and of the identifiers given to species and
    beams by the configuration reader. *)
From Verif Require Import Base.
From Coq Require Export Strings.String Strings.Ascii.
Open Scope Z_scope.

(** [str[i]] is a (signed, x86-64) [char] promoted to [int] *)
Definition schar (c : ascii) : Z :=
  let n := Z.of_N (N_of_ascii c) in if n <? 128 then n else n - 256.

(** one iteration: [ret ^= ((ret << 5) + str[i] + (ret >> 2))] with [unsigned short ret] *)
Definition hash_step (ret : Z) (c : ascii) : Z :=
  u16 (Z.lxor ret (Z.shiftl ret 5 + schar c + Z.shiftr ret 2)).
Fixpoint hash_loop (ret : Z) (s : string) : Z :=
  match s with EmptyString => ret | String c s' => hash_loop (hash_step ret c) s' end.
Definition hash_from_string (s : string) (salt : Z) : Z := Z.land (hash_loop salt s) 2147483647.

(** cfg.hpp:38-39, cfg.cpp:183 and 350; a beam is named "beam_" + name (cfg.cpp:342) *)
Definition SPECIE_HASH_SALT : Z := 1394.
Definition BEAM_HASH_SALT : Z := 18132.
Definition specie_id (name : string) : Z := hash_from_string name SPECIE_HASH_SALT.
Definition beam_id (name : string) : Z := hash_from_string (append "beam_" name) BEAM_HASH_SALT.
