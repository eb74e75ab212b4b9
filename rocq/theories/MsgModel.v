(** Model of the text of the elapsed time, [get_simulation_duration] (src/algo/common.cpp:62-103), printed for every probe that is
    dumped (src/msg.cpp:50-69), and of the square root of common.cpp:31-51.  The time is a whole number of seconds; the numbers are
    below 2^31, so that the doubles are exact and the truncated quotients are those of the integers. *)
From Coq Require Import Reals String Ascii.
From Verif Require Import Base.
Open Scope Z_scope.

(** a non-negative number as [%d] and, for whole numbers, [%.0f] print it *)
Definition digit (d : Z) : ascii := ascii_of_nat (48 + Z.to_nat d).
Fixpoint dec_fuel (f : nat) (n : Z) (acc : string) : string :=
  match f with O => acc | S f => let acc := String (digit (n mod 10)) acc in if n <? 10 then acc else dec_fuel f (n / 10) acc end.
Definition dec (n : Z) : string := dec_fuel 10 n "".

(** common.cpp:76-101 *)
Definition duration (t : Z) : string :=
  if (60 <? t) && (t <? 3600) then
    let min := t / 60 in let sec := t - min * 60 in (dec min ++ "m " ++ dec sec ++ "s")%string
  else if (3600 <? t) && (t <? 86400) then
    let hr := t / 3600 in let min := (t - hr * 3600) / 60 in let sec := t - hr * 3600 - min * 60 in
    (dec hr ++ "h " ++ dec min ++ "m " ++ dec sec ++ "s")%string
  else if 86400 <? t then
    let d := t / 86400 in let hr := (t - d * 86400) / 3600 in let min := (t - d * 86400 - hr * 3600) / 60 in
    let sec := t - d * 86400 - hr * 3600 - min * 60 in
    (dec d ++ "d " ++ dec hr ++ "h " ++ dec min ++ "m " ++ dec sec ++ "s")%string
  else (dec t ++ "s")%string.
(** [sprintf] into a block of [size] bytes: the text and the byte 0 *)
Definition sprintf (size : Z) (s : string) : outcome string := if Z.of_nat (String.length s) + 1 <=? size then Ok s else UB.
(** common.cpp:62-103: [new char] is a block of one byte *)
Definition get_simulation_duration (start now : Z) : outcome string := sprintf 1 (duration (now - start)).

(** common.cpp:31-51 with AVX: [_mm256_set_pd(x, 0, 0, 0)] puts x in the last lane; [_mm256_store_pd] needs an address divisible by 32.
    [addr]: where the compiler places [double d[4]]; a double needs an address divisible by 8 *)
Definition sq_rt_avx (addr : Z) (x : R) : outcome R := if addr mod 32 =? 0 then Ok (sqrt x) else UB.
