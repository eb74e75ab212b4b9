(** Relative error algebra for rounded arithmetic over the reals, and truncation to integers. *)
From Verif Require Import Base.
From Coq Require Import Reals Lra.
Open Scope R_scope.

(** truncation toward zero, the C++ conversion of a floating-point number to an integer type *)
Definition truncR (x : R) : Z := if Rle_dec 0 x then Int_part x else (- Int_part (- x))%Z.
(** conversion to [unsigned int] / [size_t] / [int]: undefined when the truncated value does not fit *)
Definition to_u32 (x : R) : outcome Z := let t := truncR x in if ((0 <=? t) && (t <? 2 ^ 32))%Z then Ok t else UB.
Definition to_u64 (x : R) : outcome Z := let t := truncR x in if ((0 <=? t) && (t <? 2 ^ 64))%Z then Ok t else UB.
Definition to_s32 (x : R) : outcome Z := let t := truncR x in if ((- 2 ^ 31 <=? t) && (t <? 2 ^ 31))%Z then Ok t else UB.

Lemma truncR_pos x : 0 <= x -> truncR x = Int_part x.
Proof. intros H. unfold truncR. destruct (Rle_dec 0 x); [reflexivity|contradiction]. Qed.
Lemma Int_part_bounds x : IZR (Int_part x) <= x < IZR (Int_part x) + 1.
Proof. destruct (base_Int_part x). lra. Qed.
Lemma Int_part_unique x k : IZR k <= x < IZR k + 1 -> Int_part x = k.
Proof.
  intros H. destruct (Int_part_bounds x) as [A B].
  assert (L1 : IZR k < IZR (Int_part x + 1)) by (rewrite plus_IZR; lra).
  assert (L2 : IZR (Int_part x) < IZR (k + 1)) by (rewrite plus_IZR; lra).
  apply lt_IZR in L1. apply lt_IZR in L2. lia.
Qed.
Lemma Int_part_nonneg x : 0 <= x -> (0 <= Int_part x)%Z.
Proof.
  intros H. destruct (Int_part_bounds x) as [A B].
  assert (L : IZR (-1) < IZR (Int_part x)) by (change (IZR (-1)) with (-1); lra).
  apply lt_IZR in L. lia.
Qed.
Lemma Int_part_IZR k : Int_part (IZR k) = k.
Proof. apply Int_part_unique. lra. Qed.
Lemma truncR_IZR k : truncR (IZR k) = k.
Proof.
  unfold truncR. destruct (Rle_dec 0 (IZR k)); [apply Int_part_IZR|].
  rewrite <- opp_IZR, Int_part_IZR. lia.
Qed.
Lemma Int_part_lt x k : x < IZR k -> (Int_part x < k)%Z.
Proof. intros H. destruct (Int_part_bounds x). apply lt_IZR. lra. Qed.
Lemma Int_part_le x k : IZR k <= x -> (k <= Int_part x)%Z.
Proof.
  intros H. destruct (Int_part_bounds x).
  assert (L : IZR k < IZR (Int_part x + 1)) by (rewrite plus_IZR; lra). apply lt_IZR in L. lia.
Qed.
Lemma to_u32_ok x : 0 <= x < 2 ^ 32 -> to_u32 x = Ok (Int_part x).
Proof.
  intros H. unfold to_u32. rewrite truncR_pos by lra.
  pose proof (Int_part_nonneg x ltac:(lra)).
  assert (Int_part x < 4294967296)%Z by (apply Int_part_lt; lra).
  replace ((0 <=? Int_part x) && (Int_part x <? 2 ^ 32))%Z with true; [reflexivity|].
  symmetry. apply andb_true_intro. split; [apply Z.leb_le|apply Z.ltb_lt]; [lia|].
  change (2 ^ 32)%Z with 4294967296%Z. lia.
Qed.

(** [approx q k x y]: the non-negative numbers x and y differ by at most the factor q^k *)
Section Approx.
Variable q : R.
Hypothesis Hq : 0 < q <= 1.
Definition approx (k : nat) (x y : R) : Prop := q ^ k * x <= y /\ q ^ k * y <= x.

Lemma q_pow_pos k : 0 < q ^ k.
Proof. apply pow_lt. lra. Qed.
Lemma q_pow_le1 k : q ^ k <= 1.
Proof. rewrite <- (pow1 k). apply pow_incr. lra. Qed.
Lemma approx_refl x k : 0 <= x -> approx k x x.
Proof.
  intros H. pose proof (q_pow_le1 k). pose proof (q_pow_pos k).
  assert (q ^ k * x <= 1 * x) by (apply Rmult_le_compat_r; lra). split; lra.
Qed.
Lemma approx_nonneg k x y : 0 <= x -> approx k x y -> 0 <= y.
Proof. intros H [A _]. pose proof (q_pow_pos k). apply Rle_trans with (2 := A). apply Rmult_le_pos; lra. Qed.
Lemma approx_pos k x y : 0 < x -> approx k x y -> 0 < y.
Proof. intros H [A _]. pose proof (q_pow_pos k). apply Rlt_le_trans with (2 := A). apply Rmult_lt_0_compat; lra. Qed.
Lemma approx_weaken k l x y : (k <= l)%nat -> 0 <= x -> approx k x y -> approx l x y.
Proof.
  intros Hkl Hx H. assert (Hy := approx_nonneg _ _ _ Hx H). destruct H as [A B].
  replace l with ((l - k) + k)%nat by lia. unfold approx. rewrite pow_add.
  pose proof (q_pow_pos k). pose proof (q_pow_pos (l - k)). pose proof (q_pow_le1 (l - k)).
  assert (0 <= q ^ k * x) by (apply Rmult_le_pos; lra).
  assert (0 <= q ^ k * y) by (apply Rmult_le_pos; lra).
  assert (q ^ (l - k) * (q ^ k * x) <= 1 * (q ^ k * x)) by (apply Rmult_le_compat_r; lra).
  assert (q ^ (l - k) * (q ^ k * y) <= 1 * (q ^ k * y)) by (apply Rmult_le_compat_r; lra).
  rewrite !Rmult_assoc. split; lra.
Qed.
Lemma approx_mul k l a b c d : 0 <= a -> 0 <= c ->
  approx k a b -> approx l c d -> approx (k + l) (a * c) (b * d).
Proof.
  intros Ha Hc H1 H2. assert (Hb := approx_nonneg _ _ _ Ha H1). assert (Hd := approx_nonneg _ _ _ Hc H2).
  destruct H1 as [A B]. destruct H2 as [C D].
  pose proof (q_pow_pos k). pose proof (q_pow_pos l). unfold approx. rewrite pow_add.
  split.
  - replace (q ^ k * q ^ l * (a * c)) with ((q ^ k * a) * (q ^ l * c)) by ring.
    apply Rmult_le_compat; auto; apply Rmult_le_pos; lra.
  - replace (q ^ k * q ^ l * (b * d)) with ((q ^ k * b) * (q ^ l * d)) by ring.
    apply Rmult_le_compat; auto; apply Rmult_le_pos; lra.
Qed.
Lemma approx_inv k x y : 0 < x -> approx k x y -> approx k (/ x) (/ y).
Proof.
  intros Hx H. assert (Hy := approx_pos _ _ _ Hx H). destruct H as [A B].
  pose proof (q_pow_pos k). split.
  - apply Rmult_le_reg_r with (x * y); [apply Rmult_lt_0_compat; lra|].
    replace (q ^ k * / x * (x * y)) with (q ^ k * y) by (field; lra).
    replace (/ y * (x * y)) with x by (field; lra). exact B.
  - apply Rmult_le_reg_r with (x * y); [apply Rmult_lt_0_compat; lra|].
    replace (q ^ k * / y * (x * y)) with (q ^ k * x) by (field; lra).
    replace (/ x * (x * y)) with y by (field; lra). exact A.
Qed.
Lemma approx_div k l a b c d : 0 <= a -> 0 < c ->
  approx k a b -> approx l c d -> approx (k + l) (a / c) (b / d).
Proof.
  intros. unfold Rdiv. apply approx_mul; auto; [left; now apply Rinv_0_lt_compat|now apply approx_inv].
Qed.
Lemma approx_add k a b c d : approx k a b -> approx k c d -> approx k (a + c) (b + d).
Proof. intros [A B] [C D]. unfold approx. rewrite !Rmult_plus_distr_l. split; lra. Qed.

Variable rnd : R -> R.
Hypothesis Hrnd : forall x, 0 <= x -> approx 1 x (rnd x).
Lemma approx_rnd k x y : 0 <= x -> approx k x y -> approx (S k) x (rnd y).
Proof.
  intros Hx H. assert (Hy := approx_nonneg _ _ _ Hx H).
  assert (Hr := Hrnd y Hy). assert (Hry := approx_nonneg _ _ _ Hy Hr).
  destruct H as [A B]. destruct Hr as [C D]. unfold approx. cbn [pow] in *. rewrite Rmult_1_r in C, D.
  pose proof (q_pow_pos k). split.
  - rewrite Rmult_assoc. apply Rle_trans with (2 := C). apply Rmult_le_compat_l; lra.
  - apply Rle_trans with (2 := B). replace (q * q ^ k * rnd y) with (q ^ k * (q * rnd y)) by ring.
    apply Rmult_le_compat_l; lra.
Qed.
End Approx.

Lemma bernoulli_q k eps : 0 <= eps <= 1 -> 1 - INR k * eps <= (1 - eps) ^ k.
Proof.
  intros Hx. induction k as [|k IH]; [cbn; lra|]. rewrite S_INR. cbn [pow].
  assert (0 <= INR k) by apply pos_INR.
  assert (0 <= INR k * eps * eps) by (apply Rmult_le_pos; [apply Rmult_le_pos|]; lra).
  apply Rle_trans with ((1 - eps) * (1 - INR k * eps)); [lra|]. apply Rmult_le_compat_l; lra.
Qed.

(** the usual statement of the rounding error gives [approx] with q = 1 - eps *)
Lemma approx_of_relative eps rnd : 0 <= eps < 1 ->
  (forall x, 0 <= x -> (1 - eps) * x <= rnd x <= (1 + eps) * x) ->
  forall x, 0 <= x -> approx (1 - eps) 1 x (rnd x).
Proof.
  intros He H x Hx. destruct (H x Hx) as [A B]. unfold approx. rewrite pow_1. split; [exact A|].
  apply Rle_trans with ((1 - eps) * ((1 + eps) * x)); [apply Rmult_le_compat_l; lra|].
  assert (0 <= eps * eps * x) by (apply Rmult_le_pos; [apply Rmult_le_pos|]; lra). lra.
Qed.
