(** Model of the pairing of particles inside a cell and of the walk over the cells in the collision operators:
    src/collisions/collisionsTA77S.cpp:222-417, collisionsSK98.cpp:246-441, collisionsP12.cpp:330-530 (the three [collide]
    have the same pairing, word for word up to the extra arguments).
    Only the indices handed to [collide_single] matter here. *)
From Coq Require Import Floats.SpecFloat.
From Verif Require Import Base.

(** ** Same species *)
(** [for (unsigned int k = a; k < n; k = k + 2) collide_single([k], [k+1])] *)
Fixpoint by_two (fuel : nat) (k n : Z) : list (Z * Z) :=
  match fuel with
  | O => []
  | S f => if k <? n then (k, k + 1) :: by_two f (k + 2) n else []
  end.
(** collisionsTA77S.cpp:245-264 (case 1a), 266-334 (case 1b) *)
Definition pairs_same (n : Z) : list (Z * Z) :=
  (if n mod 2 =? 0 then by_two (Z.to_nat n) 0 n else []) ++
  (if negb (n mod 2 =? 0) then
     (if 3 <=? n then [(0, 1); (1, 2); (2, 0)] else []) ++
     (if 5 <=? n then by_two (Z.to_nat n) 3 n else [])
   else []).

(** ** Electrons and ions *)
(** rounding of num / m to the nearest integer, ties to even *)
Definition rne (num m : Z) : Z :=
  let q := num / m in let r := num mod m in
  if 2 * r <? m then q else if m <? 2 * r then q + 1 else if Z.even q then q else q + 1.
(** [(float)n / (float)m] for 0 < m <= n < 2^24, times 2^23: the quotient rounded to 24 significant bits.
    It is at least 1, so it is a multiple of 2^-23. *)
Definition quot23 (n m : Z) : Z :=
  let e := Z.log2 (n / m) in rne (n * 2 ^ (23 - e)) m * 2 ^ e.
(** [floor(float(k) / float(b))] for 0 <= k < 2^24, 0 < b < 2^24.  A quotient below one becomes one only by rounding, in
    steps of 2^-24. *)
Definition floor_quot (k b : Z) : Z :=
  if k <? b then (if 2 ^ 24 <=? rne (k * 2 ^ 24) b then 1 else 0) else quot23 k b / 2 ^ 23.
(** lines 341-346 and 373-378.  [c_i], and the sizes of the groups: the 1st group of the longer list, the 1st group of the
    shorter one, the 2nd group of the longer one.  [c_r * 2^23] is the integer [cr].  All intermediate results are
    multiples of 2^-23 below 2^25, so the binary64 arithmetic is exact; the conversion to unsigned truncates. *)
Definition groups (n m : Z) : Z * Z * Z * Z :=
  let q := quot23 n m in
  let ci := q / 2 ^ 23 in
  let cr := q - ci * 2 ^ 23 in
  (ci, (ci + 1) * cr * m / 2 ^ 23, cr * m / 2 ^ 23, ci * (2 ^ 23 - cr) * m / 2 ^ 23).
(** a list of indices [0 .. n-1] *)
Definition indices (n : Z) : list Z := map Z.of_nat (seq 0 (Z.to_nat n)).
(** lines 348-369 and 380-401: pairs (index in the shorter list, index in the longer list) *)
Definition pairs_2b (n m : Z) : list (Z * Z) :=
  let '(ci, g1, s1, g2) := groups n m in
  map (fun k => (floor_quot k (ci + 1), k)) (indices g1) ++
  map (fun k => (floor_quot k ci + s1, k + g1)) (indices g2).
(** lines 336-402: pairs (electron, ion) *)
Definition pairs_el_ion (els ions : Z) : list (Z * Z) :=
  if ions =? els then map (fun k => (k, k)) (indices els)
  else if els <? ions then if 0 <? els then pairs_2b ions els else []
  else if 0 <? ions then map (fun p => (snd p, fst p)) (pairs_2b els ions) else [].

(** ** The same numbers computed with the IEEE formats, used to check [groups] *)
(** binary32 and binary64 *)
Definition f32_of_Z (z : Z) : spec_float := binary_normalize 24 128 z 0 false.
Definition d64_of_Z (z : Z) : spec_float := binary_normalize 53 1024 z 0 false.
Definition floor_sf (x : spec_float) : Z :=
  match x with
  | S754_finite s m e => let v := if s then Zneg m else Zpos m in if 0 <=? e then v * 2 ^ e else v / 2 ^ (- e)
  | _ => 0
  end.
Definition widen (x : spec_float) : spec_float :=
  match x with
  | S754_finite s m e => binary_normalize 53 1024 (if s then Zneg m else Zpos m) e s
  | y => y
  end.
(** ions > electrons: [c_i] is unsigned, so the subtraction is done in binary32 ([narrow]); otherwise [c_i] is double *)
Definition groups_ieee (narrow : bool) (n m : Z) : Z * Z * Z * Z :=
  let q := SFdiv 24 128 (f32_of_Z n) (f32_of_Z m) in
  let ci := floor_sf q in
  let cr := if narrow then widen (SFsub 24 128 q (f32_of_Z ci)) else SFsub 53 1024 (widen q) (d64_of_Z ci) in
  (ci,
   floor_sf (SFmul 53 1024 (SFmul 53 1024 (d64_of_Z (ci + 1)) cr) (d64_of_Z m)),
   floor_sf (SFmul 53 1024 cr (d64_of_Z m)),
   floor_sf (SFmul 53 1024 (SFmul 53 1024 (d64_of_Z ci) (SFsub 53 1024 (d64_of_Z 1) cr)) (d64_of_Z m))).
Definition floor_quot_ieee (k b : Z) : Z := floor_sf (SFdiv 24 128 (f32_of_Z k) (f32_of_Z b)).
