(** Model of include/math/vector3d.hpp: vectors of three components, whose loops carry [#pragma omp simd].  A run of such a loop on a
    machine with [w] lanes takes the iterations in chunks of at most [w]; the lanes of a chunk do the same instruction at the same
    time: all of them load, then all of them store (OpenMP 4.5, 2.8.1: the iterations of a chunk run concurrently by means of SIMD
    instructions).  One lane (w = 1) is the loop without the pragma.  The values may be of any type; memory is a map of places to
    values.  Not modelled: conversions between types of components, the value of [std::pow] and of [sqrt]. *)
From Verif Require Import Base.
Open Scope Z_scope.

(** component [i] of the vector object [o], or a scalar variable *)
Inductive place : Type := Comp (o i : Z) | Var (x : Z).
Definition place_eqb (p q : place) : bool :=
  match p, q with Comp o i, Comp o' i' => (o =? o') && (i =? i') | Var x, Var y => x =? y | _, _ => false end.
Lemma place_eqb_eq p q : place_eqb p q = true <-> p = q.
Proof.
  destruct p as [o i|x], q as [o' i'|y]; cbn [place_eqb]; try (split; [discriminate|intros; discriminate]).
  - split; [intros H; assert (o = o' /\ i = i') as [-> ->] by lia; reflexivity|intros [= -> ->]; lia].
  - split; [intros H; now replace y with x by lia|intros [= ->]; lia].
Qed.

Section Vec.
Variable V : Type.
Definition memory : Type := place -> V.
Definition store (m : memory) (p : place) (v : V) : memory := fun q => if place_eqb q p then v else m q.

(** an iteration of one of the loops: it loads the places [src i] and stores the outcome of [f] at [dst i] *)
Record body : Type := mkBody { src : Z -> list place; dst : Z -> place; comp : list V -> option V }.
(** the lanes of a chunk: iterations [i, i + n): all load from [m], then all store, in order *)
Fixpoint lanes (b : body) (m : memory) (n : nat) (i : Z) (m' : memory) : outcome memory :=
  match n with
  | O => Ok m'
  | S n' => match comp b (map m (src b i)) with Some v => lanes b m n' (i + 1) (store m' (dst b i) v) | None => UB end
  end.
(** [n] iterations that begin with [i], by chunks of [w] *)
Fixpoint chunks (b : body) (w : nat) (fuel : nat) (n : nat) (i : Z) (m : memory) : outcome memory :=
  match fuel with
  | O => Ok m
  | S fuel' => match n with
    | O => Ok m
    | _ => let c := Nat.min w n in do m' <- lanes b m c i m; chunks b w fuel' (n - c)%nat (i + Z.of_nat c) m'
    end
  end.
(** the three iterations of the loops of vector3d.hpp on a machine with [w] lanes *)
Definition loop3 (w : nat) (b : body) (m : memory) : outcome memory := chunks b w 3 3 0 m.

(** vector3d.hpp:85-92, 104-111, 123-130, 142-149, 161-168: [*this op= rhs] for a number at the place [x], [f] being the operation ([=]:
    the second operand) *)
Definition scalar_body (f : V -> V -> option V) (o : Z) (x : place) : body :=
  mkBody (fun i => [Comp o i; x]) (fun i => Comp o i) (fun l => match l with [a; b] => f a b | _ => None end).
(** vector3d.hpp:94-101, 113-120, 132-139, 151-158, 170-177: [*this op= rhs] for another vector *)
Definition vector_body (f : V -> V -> option V) (o o' : Z) : body :=
  mkBody (fun i => [Comp o i; Comp o' i]) (fun i => Comp o i) (fun l => match l with [a; b] => f a b | _ => None end).
Definition assign_op (w : nat) (f : V -> V -> option V) (o : Z) (x : place) (m : memory) : outcome memory := loop3 w (scalar_body f o x) m.
Definition assign_vec (w : nat) (f : V -> V -> option V) (o o' : Z) (m : memory) : outcome memory := loop3 w (vector_body f o o') m.
(** vector3d.hpp:179-267: [lhs op rhs]; [lhs] is a copy (by the implicit copy constructor), here the object [t] *)
Definition copied (t o : Z) (m : memory) : memory := fun q => match q with Comp t' i => if (t' =? t) && (0 <=? i) && (i <? 3) then m (Comp o i) else m q | _ => m q end.
Definition binary_op (w : nat) (f : V -> V -> option V) (t o : Z) (x : place) (m : memory) : outcome memory := assign_op w f t x (copied t o m).
Definition binary_vec (w : nat) (f : V -> V -> option V) (t o o' : Z) (m : memory) : outcome memory := assign_vec w f t o' (copied t o m).

(** vector3d.hpp:304-311 and 313-320: [pow] and [abs] change the vector itself and return it *)
Definition map_body (f : V -> option V) (o : Z) : body := mkBody (fun i => [Comp o i]) (fun i => Comp o i) (fun l => match l with [a] => f a | _ => None end).
Definition map_in_place (w : nat) (f : V -> option V) (o : Z) (m : memory) : outcome memory := loop3 w (map_body f o) m.

(** vector3d.hpp:270-278: the loop of [dot]; [ret] is the place [r], set to zero before; no [reduction] clause *)
Variable zero : V.
Variables add mul sub : V -> V -> V.
Definition dot_body (r : Z) (o o' : Z) : body :=
  mkBody (fun i => [Var r; Comp o i; Comp o' i]) (fun _ => Var r) (fun l => match l with [a; x; y] => Some (add a (mul x y)) | _ => None end).
Definition dot (w : nat) (r o o' : Z) (m : memory) : outcome V := do m' <- loop3 w (dot_body r o o') (store m (Var r) zero); Ok (m' (Var r)).

(** vector3d.hpp:280-292: [cross]: [rhs] is a copy, so that it does not matter whether it is the vector itself *)
Definition cross (o o' : Z) (m : memory) : memory :=
  let c i j := sub (mul (m (Comp o i)) (m (Comp o' j))) (mul (m (Comp o j)) (m (Comp o' i))) in
  store (store (store m (Comp o 0) (c 1 2)) (Comp o 1) (c 2 0)) (Comp o 2) (c 0 1).
(** vector3d.hpp:294-297 *)
Definition length2 (o : Z) (m : memory) : V :=
  let x i := m (Comp o i) in add (add (mul (x 0) (x 0)) (mul (x 1) (x 1))) (mul (x 2) (x 2)).

(** vector3d.hpp:55-82 *)
Variable eqb : V -> V -> bool.
Definition equal_vec (o o' : Z) (m : memory) : bool := eqb (m (Comp o 0)) (m (Comp o' 0)) && eqb (m (Comp o 1)) (m (Comp o' 1)) && eqb (m (Comp o 2)) (m (Comp o' 2)).
Definition differ_vec (o o' : Z) (m : memory) : bool :=
  negb (eqb (m (Comp o 0)) (m (Comp o' 0))) || negb (eqb (m (Comp o 1)) (m (Comp o' 1))) || negb (eqb (m (Comp o 2)) (m (Comp o' 2))).
Definition equal_op (o : Z) (x : place) (m : memory) : bool := eqb (m (Comp o 0)) (m x) && eqb (m (Comp o 1)) (m x) && eqb (m (Comp o 2)) (m x).
Definition differ_op (o : Z) (x : place) (m : memory) : bool := negb (eqb (m (Comp o 0)) (m x)) || negb (eqb (m (Comp o 1)) (m x)) || negb (eqb (m (Comp o 2)) (m x)).
End Vec.
