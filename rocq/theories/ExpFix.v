(** Bounds of the exponential by fixed-point arithmetic: numbers are multiples of [2^-62]. *)
From Coq Require Import Reals Lra ZArith Lia.
Open Scope R_scope.

Definition one_z : Z := 4611686018427387904.
Definition rv (z : Z) : R := IZR z / IZR one_z.
Definition sqs (n : nat) (z : Z) : Z := Nat.iter n (fun z => Z.shiftr (z * z) 62) z.
Lemma one_pos : 0 < IZR one_z.
Proof. apply IZR_lt. reflexivity. Qed.
Lemma rv_le a b : (a <= b)%Z -> rv a <= rv b.
Proof. intros H. unfold rv. apply Rmult_le_compat_r; [apply Rlt_le, Rinv_0_lt_compat, one_pos|apply IZR_le, H]. Qed.
Lemma rv_plus a b : rv (a + b) = rv a + rv b.
Proof. unfold rv. rewrite plus_IZR. assert (A := one_pos). field. lra. Qed.
Lemma rv_opp a : rv (- a) = - rv a.
Proof. unfold rv. rewrite opp_IZR. assert (A := one_pos). field. lra. Qed.
Lemma rv_one : rv one_z = 1.
Proof. unfold rv. assert (A := one_pos). field. lra. Qed.
Lemma quo_le a b : (0 < b)%Z -> IZR (a / b) <= IZR a / IZR b.
Proof.
  intros H. assert (B : 0 < IZR b) by (apply IZR_lt; exact H).
  apply Rmult_le_reg_r with (IZR b); [exact B|]. replace (IZR a / IZR b * IZR b) with (IZR a) by (field; lra).
  rewrite <- mult_IZR. apply IZR_le. rewrite Z.mul_comm. apply Z.mul_div_le, H.
Qed.
Lemma quo_gt a b : (0 < b)%Z -> IZR a / IZR b <= IZR (a / b + 1).
Proof.
  intros H. assert (B : 0 < IZR b) by (apply IZR_lt; exact H).
  apply Rmult_le_reg_r with (IZR b); [exact B|]. replace (IZR a / IZR b * IZR b) with (IZR a) by (field; lra).
  rewrite <- mult_IZR. apply IZR_le. assert (M := Z.mod_pos_bound a b H). assert (D := Z.div_mod a b ltac:(lia)). nia.
Qed.
Lemma sqs_ge n : forall z, (0 <= z)%Z -> (0 <= sqs n z)%Z.
Proof. intros z H. destruct n as [|n]; [exact H|]. change (0 <= Z.shiftr (sqs n z * sqs n z) 62)%Z. apply Z.shiftr_nonneg. nia. Qed.
Lemma sqs_exp n : forall z t, (0 <= z)%Z -> rv z <= exp t -> rv (sqs n z) <= exp (2 ^ n * t).
Proof.
  induction n as [|n IH]; intros z t Hz H; [cbn; rewrite Rmult_1_l; exact H|].
  assert (IH' := IH z t Hz H). assert (G := sqs_ge n z Hz).
  change (sqs (S n) z) with (Z.shiftr (sqs n z * sqs n z) 62). rewrite Z.shiftr_div_pow2 by lia. change (2 ^ 62)%Z with one_z. set (w := sqs n z) in *. clearbody w.
  assert (A := one_pos). assert (W : 0 <= rv w) by (unfold rv; apply Rmult_le_pos; [apply IZR_le, G|apply Rlt_le, Rinv_0_lt_compat, A]).
  apply Rle_trans with (rv w * rv w).
  - unfold rv. apply Rmult_le_reg_r with (IZR one_z); [exact A|].
    replace (IZR (w * w / one_z) / IZR one_z * IZR one_z) with (IZR (w * w / one_z)) by (field; lra).
    replace (IZR w / IZR one_z * (IZR w / IZR one_z) * IZR one_z) with (IZR (w * w) / IZR one_z) by (rewrite mult_IZR; field; lra).
    apply quo_le. reflexivity.
  - replace (2 ^ S n * t) with (2 ^ n * t + 2 ^ n * t) by (cbn; ring). rewrite exp_plus.
    apply Rmult_le_compat; assumption.
Qed.

(** the first four terms of the series *)
Lemma cubic_le t : 1 + t + t * t / 2 + t * t * t / 6 <= exp t.
Proof.
  set (h := fun t => (1 + t + t * t / 2 + t * t * t / 6) * exp (- t)).
  assert (D : forall x, derivable_pt_lim h x (- (x * x * x / 6) * exp (- x))).
  { intros x. replace (- (x * x * x / 6) * exp (- x)) with
      ((0 + 1 + / 2 * (1 * x + x * 1) + / 6 * ((1 * x + x * 1) * x + x * x * 1)) * exp (- x) + (1 + x + / 2 * (x * x) + / 6 * (x * x * x)) * (exp (- x) * - 1)) by field.
    apply (derivable_pt_lim_ext (fun t => (1 + t + / 2 * (t * t) + / 6 * (t * t * t)) * exp (- t))); [intros z; unfold h; field|].
    apply (derivable_pt_lim_mult (fun t => 1 + t + / 2 * (t * t) + / 6 * (t * t * t)) (fun t => exp (- t))).
    - assert (I := derivable_pt_lim_id x). unfold id in I.
      apply (derivable_pt_lim_plus (fun t => 1 + t + / 2 * (t * t)) (fun t => / 6 * (t * t * t))); [apply (derivable_pt_lim_plus (fun t => 1 + t) (fun t => / 2 * (t * t)))|].
      + apply (derivable_pt_lim_plus (fun _ => 1) (fun t => t)); [apply derivable_pt_lim_const|exact I].
      + apply (derivable_pt_lim_scal (fun t => t * t)). apply (derivable_pt_lim_mult (fun t => t) (fun t => t)); exact I.
      + apply (derivable_pt_lim_scal (fun t => t * t * t)). apply (derivable_pt_lim_mult (fun t => t * t) (fun t => t)); [|exact I].
        apply (derivable_pt_lim_mult (fun t => t) (fun t => t)); exact I.
    - apply (derivable_pt_lim_comp (fun t => - t) exp); [|apply derivable_pt_lim_exp].
      apply (derivable_pt_lim_opp (fun t => t)), (derivable_pt_lim_id x). }
  assert (H0 : h 0 = 1) by (unfold h; rewrite Ropp_0, exp_0; field).
  assert (H : h t <= 1).
  { rewrite <- H0. destruct (Rtotal_order t 0) as [L|[->|G]]; [|lra|].
    - destruct (MVT_cor2 h (fun x => - (x * x * x / 6) * exp (- x)) t 0 L ltac:(intros; apply D)) as (c & E & C).
      assert (P := exp_pos (- c)). assert (Q := Rle_0_sqr c). unfold Rsqr in Q. assert (W : 0 <= c * c * - c) by (apply Rmult_le_pos; lra).
      assert (W' : 0 <= (- (c * c * c / 6)) * exp (- c)) by (apply Rmult_le_pos; lra). assert (0 <= (- (c * c * c / 6)) * exp (- c) * (0 - t)) by (apply Rmult_le_pos; lra). lra.
    - destruct (MVT_cor2 h (fun x => - (x * x * x / 6) * exp (- x)) 0 t G ltac:(intros; apply D)) as (c & E & C).
      assert (P := exp_pos (- c)). assert (Q := Rle_0_sqr c). unfold Rsqr in Q. assert (W : 0 <= c * c * c) by (apply Rmult_le_pos; lra).
      assert (W' : 0 <= (c * c * c / 6) * exp (- c)) by (apply Rmult_le_pos; lra). assert (0 <= (c * c * c / 6) * exp (- c) * (t - 0)) by (apply Rmult_le_pos; lra). lra. }
  unfold h in H. rewrite exp_Ropp in H. assert (P := exp_pos t).
  apply (Rmult_le_compat_r (exp t)) in H; [|lra]. rewrite Rmult_assoc, Rinv_l, Rmult_1_r in H by lra. lra.
Qed.

(** [exp (x / 2^62)] from below and from above, times 2^62: the series at x / 256, squared eight times *)
Definition series (t : Z) : Z := (let s := t * t in one_z + t + Z.shiftr s 63 + Z.shiftr (s * t) 124 / 6)%Z.
Definition elo (x : Z) : Z := sqs 8 (Z.max 0 (series (x / 256))).
Definition ehi (x : Z) : Z := (one_z * one_z / elo (- x) + 1)%Z.
Lemma ehi_eq x : ehi x = (one_z * one_z / elo (- x) + 1)%Z.
Proof. reflexivity. Qed.
Lemma elo_ge x : (0 <= elo x)%Z.
Proof. apply sqs_ge. lia. Qed.
Lemma series_le t : rv (series t) <= exp (rv t).
Proof.
  eapply Rle_trans; [|apply cubic_le]. unfold series. cbv zeta. rewrite !rv_plus, rv_one. assert (A := one_pos).
  assert (S1 : rv (Z.shiftr (t * t) 63) <= rv t * rv t / 2).
  { rewrite Z.shiftr_div_pow2 by lia. assert (Q := quo_le (t * t) (2 ^ 63) ltac:(reflexivity)). rewrite mult_IZR in Q.
    replace (IZR (2 ^ 63)) with (2 * IZR one_z) in Q by (rewrite <- mult_IZR; reflexivity).
    apply (Rmult_le_compat_r (/ IZR one_z)) in Q; [|left; apply Rinv_0_lt_compat, A]. unfold rv.
    replace (IZR t / IZR one_z * (IZR t / IZR one_z) / 2) with (IZR t * IZR t / (2 * IZR one_z) * / IZR one_z) by (field; lra). exact Q. }
  assert (S2 : rv (Z.shiftr (t * t * t) 124 / 6) <= rv t * rv t * rv t / 6).
  { rewrite Z.shiftr_div_pow2 by lia. assert (Q := quo_le (t * t * t) (2 ^ 124) ltac:(reflexivity)). rewrite !mult_IZR in Q.
    replace (IZR (2 ^ 124)) with (IZR one_z * IZR one_z) in Q by (rewrite <- mult_IZR; reflexivity).
    assert (Q' := quo_le (t * t * t / 2 ^ 124) 6 ltac:(reflexivity)).
    apply (Rmult_le_compat_r (/ IZR one_z)) in Q'; [|left; apply Rinv_0_lt_compat, A]. unfold rv at 1. eapply Rle_trans; [exact Q'|].
    apply Rle_trans with (IZR t * IZR t * IZR t / (IZR one_z * IZR one_z) * / 6 * / IZR one_z); [|right; unfold rv; field; lra].
    apply Rmult_le_compat_r; [left; apply Rinv_0_lt_compat, A|]. unfold Rdiv at 1. apply Rmult_le_compat_r; [lra|exact Q]. }
  lra.
Qed.
Lemma elo_spec x : rv (elo x) <= exp (rv x).
Proof.
  unfold elo. assert (A := one_pos). replace (rv x) with (2 ^ 8 * (rv x / 256)) by (cbn; field).
  apply sqs_exp; [lia|].
  destruct (Z.max_spec 0 (series (x / 256))) as [[_ ->]|[_ ->]]; [|unfold rv, Rdiv; rewrite Rmult_0_l; apply Rlt_le, exp_pos].
  eapply Rle_trans; [apply series_le|]. assert (L : rv (x / 256) <= rv x / 256).
  { assert (Q := quo_le x 256 ltac:(reflexivity)). apply (Rmult_le_compat_r (/ IZR one_z)) in Q; [|left; apply Rinv_0_lt_compat, A].
    unfold rv. replace (IZR x / IZR one_z / 256) with (IZR x / 256 * / IZR one_z) by (field; lra). exact Q. }
  destruct (Rle_lt_or_eq_dec _ _ L) as [L'| ->]; [apply Rlt_le, exp_increasing, L'|apply Rle_refl].
Qed.
Lemma inv_gen u w y : (0 < u)%Z -> (0 < w)%Z -> IZR w / IZR u <= / exp y -> exp y <= IZR (u * u / w + 1) / IZR u.
Proof.
  intros U H L. assert (E := exp_pos y). assert (A : 0 < IZR u) by (apply IZR_lt; exact U). assert (B : 0 < IZR w) by (apply IZR_lt; exact H).
  assert (Q := quo_gt (u * u) w H). rewrite (mult_IZR u u) in Q.
  assert (W : 0 < IZR w / IZR u) by (apply Rmult_lt_0_compat; [exact B|apply Rinv_0_lt_compat, A]).
  assert (X : exp y * (IZR w / IZR u) <= 1).
  { apply Rle_trans with (exp y * / exp y); [apply Rmult_le_compat_l; lra|]. rewrite Rinv_r by lra. lra. }
  apply Rle_trans with (IZR u * IZR u / IZR w / IZR u).
  - apply Rmult_le_reg_r with (IZR w / IZR u); [exact W|]. apply Rle_trans with 1; [exact X|]. right. field. lra.
  - apply Rmult_le_compat_r; [apply Rlt_le, Rinv_0_lt_compat, A|exact Q].
Qed.
Lemma ehi_spec x : (0 < elo (- x))%Z -> exp (rv x) <= rv (ehi x).
Proof.
  intros H. apply (inv_gen one_z (elo (- x)) (rv x) eq_refl H).
  rewrite <- exp_Ropp, <- rv_opp. apply elo_spec.
Qed.
