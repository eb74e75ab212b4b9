(** C146: what the operations on vectors compute on a machine with any number of SIMD lanes. *)
From Coq Require Import ZifyBool Reals Lra Psatz.
From Verif Require Import Base VecModel.
Open Scope Z_scope.

(** ** specification: the components of the vector [o] become [r 0], [r 1], [r 2] and nothing else changes *)
Definition becomes {V} (m : memory V) (o : Z) (r : Z -> V) (m' : memory V) : Prop :=
  (forall i, 0 <= i < 3 -> m' (Comp o i) = r i) /\ (forall p, (forall i, 0 <= i < 3 -> p <> Comp o i) -> m' p = m p).

Lemma place_neqb p q : p <> q -> place_eqb p q = false.
Proof. intros N. destruct (place_eqb p q) eqn:E; [|reflexivity]. apply place_eqb_eq in E. contradiction. Qed.
Lemma place_eqb_refl p : place_eqb p p = true.
Proof. now apply place_eqb_eq. Qed.
Lemma store_same {V} (m : memory V) p v : store V m p v p = v.
Proof. unfold store. now rewrite place_eqb_refl. Qed.
Lemma store_other {V} (m : memory V) p q v : q <> p -> store V m p v q = m q.
Proof. intros N. unfold store. now rewrite place_neqb. Qed.
(** three stores in a row *)
Lemma three_stores {V} (m : memory V) o (r : Z -> V) :
  becomes m o r (store V (store V (store V m (Comp o 0) (r 0)) (Comp o 1) (r 1)) (Comp o 2) (r 2)).
Proof.
  split.
  - intros i Hi. assert (D : i = 0 \/ i = 1 \/ i = 2) by lia. destruct D as [->|[->| ->]].
    + rewrite !store_other by (intros [=]; lia). apply store_same.
    + rewrite store_other by (intros [=]; lia). apply store_same.
    + apply store_same.
  - intros p N. rewrite !store_other by (apply N; lia). reflexivity.
Qed.
(** a loop that stores at the components of [o] and whose later iterations load nothing of what the earlier ones store *)
Lemma loop_any {V} w (b : body V) (m : memory V) o (r : Z -> V) : (1 <= w)%nat -> (forall i, dst V b i = Comp o i) ->
  (forall i, 0 <= i < 3 -> comp V b (map m (src V b i)) = Some (r i)) ->
  (forall i j, 0 <= i < j -> j < 3 -> ~ In (Comp o i) (src V b j)) ->
  exists m', loop3 V w b m = Ok m' /\ becomes m o r m'.
Proof.
  intros Hw D E N.
  assert (K : forall m1 j, 0 <= j < 3 -> (forall p, (forall i, 0 <= i < j -> p <> Comp o i) -> m1 p = m p) -> comp V b (map m1 (src V b j)) = Some (r j)).
  { intros m1 j Hj H. rewrite <- (E j Hj). f_equal. apply map_ext_in. intros p Hp. apply H. intros i Hi ->. apply (N i j); auto; lia. }
  unfold loop3. destruct w as [|[|[|w]]]; [lia| | |]; cbn [chunks Nat.min Nat.sub lanes bind Z.of_nat Pos.of_succ_nat Pos.succ Z.add Pos.add].
  - change (Z.of_nat 1) with 1. rewrite (E 0) by lia. cbn [bind]. rewrite D. change (0 + 1) with 1. cbn [Nat.sub Nat.min lanes bind].
    rewrite (K _ 1) by (try lia; intros p Hp; apply store_other; apply Hp; lia). cbn [bind]. rewrite D. change (1 + 1) with 2.
    rewrite (K _ 2) by (try lia; intros p Hp; rewrite !store_other by (apply Hp; lia); reflexivity). cbn [bind]. rewrite D.
    eexists. split; [reflexivity|]. apply three_stores.
  - rewrite (E 0) by lia. change (0 + 1) with 1. rewrite (E 1) by lia. cbn [bind]. rewrite !D. change (0 + Z.of_nat 2) with 2.
    rewrite (K _ 2) by (try lia; intros p Hp; rewrite !store_other by (apply Hp; lia); reflexivity). cbn [bind]. rewrite ?D.
    eexists. split; [reflexivity|]. apply three_stores.
  - rewrite (E 0) by lia. change (0 + 1) with 1. rewrite (E 1) by lia. change (1 + 1) with 2. rewrite (E 2) by lia. rewrite Nat.min_0_r. cbn [lanes bind]. rewrite !D.
    eexists. split; [reflexivity|]. apply three_stores.
Qed.

Lemma loop3_wide {V} w (b : body V) m : (3 <= w)%nat -> loop3 V w b m = loop3 V 3 b m.
Proof. intros H. unfold loop3. cbn [chunks]. rewrite (Nat.min_r w 3) by lia. reflexivity. Qed.

(** * the operations component by component *)
(** with another vector, or with the vector itself *)
Theorem C146_vector : forall V w f o o' (m : memory V) r, (1 <= w)%nat -> (forall i, 0 <= i < 3 -> f (m (Comp o i)) (m (Comp o' i)) = Some (r i)) ->
  exists m', assign_vec V w f o o' m = Ok m' /\ becomes m o r m'.
Proof.
  intros V w f o o' m r Hw E. apply loop_any; auto. cbn [vector_body src]. intros i j Hi Hj [H|[H|[]]]; injection H; lia.
Qed.
(** with a number, as long as it is not one of the first two components of the same vector *)
Theorem C146_number_partial : forall V w f o x (m : memory V) r, (1 <= w)%nat -> x <> Comp o 0 -> x <> Comp o 1 ->
  (forall i, 0 <= i < 3 -> f (m (Comp o i)) (m x) = Some (r i)) ->
  exists m', assign_op V w f o x m = Ok m' /\ becomes m o r m'.
Proof.
  intros V w f o x m r Hw N0 N1 E. apply loop_any; auto. cbn [scalar_body src]. intros i j Hi Hj [H|[H|[]]]; [injection H; lia|].
  assert (D : i = 0 \/ i = 1) by lia. destruct D as [->| ->]; contradiction.
Qed.
(** [v *= v[0]]: the loop without lanes multiplies the last two components by the square of the first one; with three lanes or more
    the operation is right *)
Theorem C146_number_refuted : exists (m : memory Z) m1, let f a b := Some (a * b) in
  assign_op Z 1 f 0 (Comp 0 0) m = Ok m1 /\ m1 (Comp 0 1) <> m (Comp 0 1) * m (Comp 0 0) /\
  forall w, (3 <= w)%nat -> exists m', assign_op Z w f 0 (Comp 0 0) m = Ok m' /\ becomes m 0 (fun i => m (Comp 0 i) * m (Comp 0 0)) m'.
Proof.
  exists (fun _ => 3). eexists. cbv zeta. split; [reflexivity|]. split; [cbv; discriminate|].
  intros w Hw. unfold assign_op. rewrite loop3_wide by assumption. eexists. split; [reflexivity|]. apply (three_stores (fun _ => 3) 0 (fun _ => 3 * 3)).
Qed.
(** [pow] and [abs] give the right values, but in the vector they are asked of *)
Theorem C146_in_place : forall V w f o (m : memory V) r, (1 <= w)%nat -> (forall i, 0 <= i < 3 -> f (m (Comp o i)) = Some (r i)) ->
  exists m', map_in_place V w f o m = Ok m' /\ becomes m o r m'.
Proof.
  intros V w f o m r Hw E. apply loop_any; auto. cbn [map_body src]. intros i j Hi Hj [H|[]]. injection H; lia.
Qed.

(** the operators that return a new vector [t]: always right, even with a component of the left operand; the operands keep their values *)
Lemma copied_other {V} t o (m : memory V) p : (forall i, 0 <= i < 3 -> p <> Comp t i) -> copied V t o m p = m p.
Proof.
  intros N. destruct p as [t' i|x]; [|reflexivity]. cbn [copied]. destruct ((t' =? t) && (0 <=? i) && (i <? 3)) eqn:B; [|reflexivity].
  exfalso. apply (N i); [lia|]. f_equal. lia.
Qed.
Lemma copied_comp {V} t o (m : memory V) i : 0 <= i < 3 -> copied V t o m (Comp t i) = m (Comp o i).
Proof. intros Hi. cbn [copied]. now replace ((t =? t) && (0 <=? i) && (i <? 3)) with true by lia. Qed.
Theorem C146_binary : forall V w f t o (m : memory V), (1 <= w)%nat ->
  (forall o' r, t <> o' -> (forall i, 0 <= i < 3 -> f (m (Comp o i)) (m (Comp o' i)) = Some (r i)) ->
     exists m', binary_vec V w f t o o' m = Ok m' /\ becomes m t r m') /\
  (forall x r, (forall i, x <> Comp t i) -> (forall i, 0 <= i < 3 -> f (m (Comp o i)) (m x) = Some (r i)) ->
     exists m', binary_op V w f t o x m = Ok m' /\ becomes m t r m').
Proof.
  intros V w f t o m Hw. split.
  - intros o' r N E. destruct (C146_vector V w f t o' (copied V t o m) r Hw) as (m' & E' & B1 & B2).
    { intros i Hi. rewrite copied_comp by assumption. rewrite copied_other by (intros j Hj [=]; congruence). now apply E. }
    exists m'. split; [exact E'|]. split; [exact B1|]. intros p Hp. rewrite B2 by assumption. now apply copied_other.
  - intros x r N E. destruct (C146_number_partial V w f t x (copied V t o m) r Hw (N 0) (N 1)) as (m' & E' & B1 & B2).
    { intros i Hi. rewrite copied_comp by assumption. rewrite copied_other by (intros j Hj; apply N). now apply E. }
    exists m'. split; [exact E'|]. split; [exact B1|]. intros p Hp. rewrite B2 by assumption. now apply copied_other.
Qed.

(** * the comparisons *)
Theorem C146_comparisons : forall V eqb o o' x (m : memory V), (forall a b : V, eqb a b = true <-> a = b) ->
  (equal_vec V eqb o o' m = true <-> forall i, 0 <= i < 3 -> m (Comp o i) = m (Comp o' i)) /\ differ_vec V eqb o o' m = negb (equal_vec V eqb o o' m) /\
  (equal_op V eqb o x m = true <-> forall i, 0 <= i < 3 -> m (Comp o i) = m x) /\ differ_op V eqb o x m = negb (equal_op V eqb o x m).
Proof.
  intros V eqb o o' x m E.
  assert (T : forall P : Z -> Prop, (forall i, 0 <= i < 3 -> P i) <-> P 0 /\ P 1 /\ P 2).
  { intros P. split; [intros H; repeat split; apply H; lia|]. intros (A & B & C) i Hi. assert (D : i = 0 \/ i = 1 \/ i = 2) by lia. destruct D as [->|[->| ->]]; assumption. }
  unfold equal_vec, differ_vec, equal_op, differ_op. rewrite !T, !Bool.andb_true_iff, !E, !Bool.negb_andb. tauto.
Qed.

(** * the scalar product *)
(** one lane: the sum of the three products *)
Theorem C146_dot_partial : forall V zero add mul r o o' (m : memory V),
  dot V zero add mul 1 r o o' m = Ok (add (add (add zero (mul (m (Comp o 0)) (m (Comp o' 0)))) (mul (m (Comp o 1)) (m (Comp o' 1)))) (mul (m (Comp o 2)) (m (Comp o' 2)))).
Proof.
  intros V zero add mul r o o' m. unfold dot, loop3.
  cbn [chunks Nat.min Nat.sub lanes bind dot_body comp src dst map]. unfold store. cbn [place_eqb]. rewrite !Z.eqb_refl. reflexivity.
Qed.
(** more lanes without a reduction: each chunk keeps the product of its last lane only *)
Theorem C146_dot_lanes : forall V zero add mul r o o' (m : memory V),
  let t i := mul (m (Comp o i)) (m (Comp o' i)) in
  dot V zero add mul 2 r o o' m = Ok (add (add zero (t 1)) (t 2)) /\ forall w, (3 <= w)%nat -> dot V zero add mul w r o o' m = Ok (add zero (t 2)).
Proof.
  intros V zero add mul r o o' m. cbv zeta. split.
  - unfold dot, loop3. cbn [chunks Nat.min Nat.sub lanes bind dot_body comp src dst map]. unfold store. cbn [place_eqb]. rewrite !Z.eqb_refl. reflexivity.
  - intros w Hw. unfold dot. rewrite loop3_wide by assumption. unfold loop3.
    cbn [chunks Nat.min Nat.sub lanes bind dot_body comp src dst map]. unfold store. cbn [place_eqb]. rewrite !Z.eqb_refl. reflexivity.
Qed.
(** the vectors of the unit test of [dot] (vector3dTest.cpp:195-203) *)
Definition test_memory : memory Z := fun p => match p with Comp 0 0 => 1 | Comp 0 1 => -2 | Comp 0 2 => 3 | Comp 1 0 => -2 | Comp 1 1 => 3 | Comp 1 2 => 1 | _ => 0 end.
Theorem C146_dot_refuted : dot Z 0 Z.add Z.mul 1 0 0 1 test_memory = Ok (-5) /\ dot Z 0 Z.add Z.mul 2 0 0 1 test_memory = Ok (-3) /\
  dot Z 0 Z.add Z.mul 4 0 0 1 test_memory = Ok 3.
Proof. repeat split. Qed.

(** * the vector product *)
(** it is orthogonal to both operands, also when they are the same object; its length is right (Lagrange); the left operand is lost *)
Example C146_ex : exists m1 m2 m3, let f a b := Some (a + b) in
  assign_vec Z 2 f 0 1 test_memory = Ok m1 /\ becomes test_memory 0 (fun i => if i =? 0 then -1 else if i =? 1 then 1 else 4) m1 /\
  assign_op Z 2 f 0 (Comp 0 2) test_memory = Ok m2 /\ becomes test_memory 0 (fun i => if i =? 0 then 4 else if i =? 1 then 1 else 6) m2 /\
  binary_op Z 2 f 7 0 (Comp 0 0) test_memory = Ok m3 /\ becomes test_memory 7 (fun i => if i =? 0 then 2 else if i =? 1 then -1 else 4) m3.
Proof.
  assert (T : forall i, 0 <= i < 3 -> i = 0 \/ i = 1 \/ i = 2) by (intros; lia).
  destruct (C146_vector Z 2 (fun a b => Some (a + b)) 0 1 test_memory (fun i => if i =? 0 then -1 else if i =? 1 then 1 else 4) ltac:(lia)) as (m1 & E1 & B1);
    [intros i Hi; destruct (T i Hi) as [->|[->| ->]]; reflexivity|].
  destruct (C146_number_partial Z 2 (fun a b => Some (a + b)) 0 (Comp 0 2) test_memory (fun i => if i =? 0 then 4 else if i =? 1 then 1 else 6) ltac:(lia)) as (m2 & E2 & B2);
    [discriminate|discriminate|intros i Hi; destruct (T i Hi) as [->|[->| ->]]; reflexivity|].
  destruct (proj2 (C146_binary Z 2 (fun a b => Some (a + b)) 7 0 test_memory ltac:(lia)) (Comp 0 0) (fun i => if i =? 0 then 2 else if i =? 1 then -1 else 4)) as (m3 & E3 & B3);
    [discriminate|intros i Hi; destruct (T i Hi) as [->|[->| ->]]; reflexivity|].
  exists m1, m2, m3. cbv zeta. auto 10.
Qed.
Local Open Scope R_scope.
Definition prod (m : memory R) (o o' : Z) : R := m (Comp o 0) * m (Comp o' 0) + m (Comp o 1) * m (Comp o' 1) + m (Comp o 2) * m (Comp o' 2).
Theorem C146_cross : forall (m : memory R) o o', let m' := cross R Rmult Rminus o o' m in
  m' (Comp o 0) * m (Comp o 0) + m' (Comp o 1) * m (Comp o 1) + m' (Comp o 2) * m (Comp o 2) = 0 /\
  m' (Comp o 0) * m (Comp o' 0) + m' (Comp o 1) * m (Comp o' 1) + m' (Comp o 2) * m (Comp o' 2) = 0 /\
  length2 R Rplus Rmult o m' = prod m o o * prod m o' o' - prod m o o' * prod m o o' /\
  m' (Comp o 2) = m (Comp o 0) * m (Comp o' 1) - m (Comp o 1) * m (Comp o' 0) /\
  (forall p, (forall i, (0 <= i < 3)%Z -> p <> Comp o i) -> m' p = m p).
Proof.
  intros m o o' m'. unfold m', cross, length2, prod.
  set (c := fun i j => Rminus (Rmult (m (Comp o i)) (m (Comp o' j))) (Rmult (m (Comp o j)) (m (Comp o' i)))).
  destruct (three_stores m o (fun i => if (i =? 0)%Z then c 1%Z 2%Z else if (i =? 1)%Z then c 2%Z 0%Z else c 0%Z 1%Z)) as (B1 & B2).
  cbn [Z.eqb Pos.eqb] in B1, B2. rewrite !B1 by lia. cbn [Z.eqb Pos.eqb]. unfold c. repeat split; try ring. intros p Hp. now apply B2.
Qed.
Theorem C146_cross_refuted : exists (m : memory R), cross R Rmult Rminus 0 1 m (Comp 0 0) <> m (Comp 0 0).
Proof.
  exists (fun p => match p with Comp 0 0 => 1 | Comp 1 1 => 1 | _ => 0 end).
  unfold cross, store. cbn [place_eqb Z.eqb Pos.eqb andb]. lra.
Qed.

Print Assumptions C146_vector.
Print Assumptions C146_number_partial.
Print Assumptions C146_number_refuted.
Print Assumptions C146_in_place.
Print Assumptions C146_binary.
Print Assumptions C146_comparisons.
Print Assumptions C146_dot_partial.
Print Assumptions C146_dot_lanes.
Print Assumptions C146_dot_refuted.
Print Assumptions C146_cross.
Print Assumptions C146_cross_refuted.
