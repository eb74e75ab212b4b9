(** C113, continued: negative energies of the thermal distribution (src/math/maxwellJuettner.cpp). *)
From Coq Require Import Reals Lra.
From Verif Require Import Base RndUtil MjTable MjModel MjProofs ThmMj.
Open Scope R_scope.

(** ** Bounds of logarithms *)
Lemma deriv_pow n y : derivable_pt_lim (fun y => y ^ n) y (INR n * y ^ pred n).
Proof. apply derivable_pt_lim_pow. Qed.
Lemma ln1p_lower x : 0 <= x -> x - x ^ 2 / 2 + x ^ 3 / 3 - x ^ 4 / 4 + x ^ 5 / 5 - x ^ 6 / 6 <= ln (1 + x).
Proof.
  intros Hx.
  assert (A := increasing_from0 (fun z => ln (1 + z) + ((-1) * z + (/ 2 * z ^ 2 + (- / 3 * z ^ 3 + (/ 4 * z ^ 4 + (- / 5 * z ^ 5 + / 6 * z ^ 6))))))
    (fun z => / (1 + z) * (0 + 1) + ((-1) * 1 + (/ 2 * (INR 2 * z ^ 1) + (- / 3 * (INR 3 * z ^ 2) + (/ 4 * (INR 4 * z ^ 3) + (- / 5 * (INR 5 * z ^ 4) + / 6 * (INR 6 * z ^ 5))))))) x).
  cbv beta in A. rewrite Rplus_0_r, ln_1 in A.
  assert (B : 0 <= ln (1 + x) + ((-1) * x + (/ 2 * x ^ 2 + (- / 3 * x ^ 3 + (/ 4 * x ^ 4 + (- / 5 * x ^ 5 + / 6 * x ^ 6)))))).
  { eapply Rle_trans; [|apply A]; [simpl; lra| | |lra].
    - intros y Hy. apply deriv_plus.
      + apply (deriv_ln1 (fun z => 1 + z)); [apply deriv_plus; [apply deriv_const|apply deriv_id]|lra].
      + repeat apply deriv_plus; apply deriv_scal; try apply deriv_id; apply deriv_pow.
    - intros y Hy. simpl INR. replace (_ + _) with (y ^ 6 / (1 + y)) by (field; lra).
      apply Rmult_le_pos; [apply pow_le; lra|apply Rlt_le, Rinv_0_lt_compat; lra]. }
  lra.
Qed.
Lemma ln1p_upper x : 0 <= x -> ln (1 + x) <= x - x ^ 2 / 2 + x ^ 3 / 3 - x ^ 4 / 4 + x ^ 5 / 5.
Proof.
  intros Hx.
  assert (A := increasing_from0 (fun z => (-1) * ln (1 + z) + (1 * z + (- / 2 * z ^ 2 + (/ 3 * z ^ 3 + (- / 4 * z ^ 4 + / 5 * z ^ 5)))))
    (fun z => (-1) * (/ (1 + z) * (0 + 1)) + (1 * 1 + (- / 2 * (INR 2 * z ^ 1) + (/ 3 * (INR 3 * z ^ 2) + (- / 4 * (INR 4 * z ^ 3) + / 5 * (INR 5 * z ^ 4)))))) x).
  cbv beta in A. rewrite Rplus_0_r, ln_1 in A.
  assert (B : 0 <= (-1) * ln (1 + x) + (1 * x + (- / 2 * x ^ 2 + (/ 3 * x ^ 3 + (- / 4 * x ^ 4 + / 5 * x ^ 5))))).
  { eapply Rle_trans; [|apply A]; [simpl; lra| | |lra].
    - intros y Hy. apply deriv_plus.
      + apply deriv_scal. apply (deriv_ln1 (fun z => 1 + z)); [apply deriv_plus; [apply deriv_const|apply deriv_id]|lra].
      + repeat apply deriv_plus; apply deriv_scal; try apply deriv_id; apply deriv_pow.
    - intros y Hy. simpl INR. replace (_ + _) with (y ^ 5 / (1 + y)) by (field; lra).
      apply Rmult_le_pos; [apply pow_le; lra|apply Rlt_le, Rinv_0_lt_compat; lra]. }
  lra.
Qed.
Lemma lnpow x n : 0 < x -> ln (x ^ n) = INR n * ln x.
Proof.
  intros Hx. induction n as [|n IH]; [simpl; rewrite ln_1; lra|].
  rewrite S_INR. cbn [pow]. rewrite ln_mult by (try apply pow_lt; assumption). rewrite IH. ring.
Qed.
Lemma ln2_bounds : 69314715 / 10 ^ 8 <= ln 2 <= 69314730 / 10 ^ 8.
Proof.
  assert (E : ln 2 = 7 * ln (1 + / 15) + 5 * ln (1 + / 24) + 3 * ln (1 + / 80)).
  { replace 2 with ((1 + / 15) ^ 7 * (1 + / 24) ^ 5 * (1 + / 80) ^ 3) at 1 by (simpl; field).
    rewrite !ln_mult by (repeat apply Rmult_lt_0_compat; try apply pow_lt; lra). rewrite !lnpow by lra. simpl INR. ring. }
  rewrite E.
  assert (A := ln1p_lower (/ 15) ltac:(lra)). assert (A' := ln1p_upper (/ 15) ltac:(lra)).
  assert (B := ln1p_lower (/ 24) ltac:(lra)). assert (B' := ln1p_upper (/ 24) ltac:(lra)).
  assert (C := ln1p_lower (/ 80) ltac:(lra)). assert (C' := ln1p_upper (/ 80) ltac:(lra)).
  split; lra.
Qed.
Lemma ln3_bounds : 109861225 / 10 ^ 8 <= ln 3 <= 109861250 / 10 ^ 8.
Proof.
  assert (E : ln 3 = 11 * ln (1 + / 15) + 8 * ln (1 + / 24) + 5 * ln (1 + / 80)).
  { replace 3 with ((1 + / 15) ^ 11 * (1 + / 24) ^ 8 * (1 + / 80) ^ 5) at 1 by (simpl; field).
    rewrite !ln_mult by (repeat apply Rmult_lt_0_compat; try apply pow_lt; lra). rewrite !lnpow by lra. simpl INR. ring. }
  rewrite E.
  assert (A := ln1p_lower (/ 15) ltac:(lra)). assert (A' := ln1p_upper (/ 15) ltac:(lra)).
  assert (B := ln1p_lower (/ 24) ltac:(lra)). assert (B' := ln1p_upper (/ 24) ltac:(lra)).
  assert (C := ln1p_lower (/ 80) ltac:(lra)). assert (C' := ln1p_upper (/ 80) ltac:(lra)).
  split; lra.
Qed.
(** x - ln (1 + x + x^2/2) <= x^3/6 - x^4/8 + x^5/20 *)
Lemma H0_upper x : 0 <= x -> x - ln (1 + x + 1 / 2 * x * x) <= x ^ 3 / 6 - x ^ 4 / 8 + x ^ 5 / 20.
Proof.
  intros Hx.
  assert (A := increasing_from0 (fun z => ln (1 + (z + / 2 * z ^ 2)) + ((-1) * z + (/ 6 * z ^ 3 + (- / 8 * z ^ 4 + / 20 * z ^ 5))))
    (fun z => / (1 + (z + / 2 * z ^ 2)) * (0 + (1 + / 2 * (INR 2 * z ^ 1))) + ((-1) * 1 + (/ 6 * (INR 3 * z ^ 2) + (- / 8 * (INR 4 * z ^ 3) + / 20 * (INR 5 * z ^ 4))))) x).
  cbv beta in A.
  assert (B : 0 <= ln (1 + (x + / 2 * x ^ 2)) + ((-1) * x + (/ 6 * x ^ 3 + (- / 8 * x ^ 4 + / 20 * x ^ 5)))).
  { eapply Rle_trans; [|apply A]; [| | |lra].
    - replace (1 + (0 + / 2 * 0 ^ 2)) with 1 by (simpl; lra). rewrite ln_1. simpl. lra.
    - intros y Hy. assert (0 <= y ^ 2) by (simpl; nra). apply deriv_plus.
      + apply (deriv_ln1 (fun z => 1 + (z + / 2 * z ^ 2))); [|lra].
        apply deriv_plus; [apply deriv_const|]. apply deriv_plus; [apply deriv_id|]. apply deriv_scal, deriv_pow.
      + repeat apply deriv_plus; apply deriv_scal; try apply deriv_id; apply deriv_pow.
    - intros y Hy. assert (0 <= y ^ 2) by (simpl; nra). simpl INR.
      replace (_ + _) with (y ^ 6 / 8 / (1 + (y + / 2 * y ^ 2))) by (field; simpl in *; lra).
      apply Rmult_le_pos; [|apply Rlt_le, Rinv_0_lt_compat; lra]. assert (0 <= y ^ 6) by (apply pow_le; lra). lra. }
  replace (1 + x + 1 / 2 * x * x) with (1 + (x + / 2 * x ^ 2)) by (simpl; lra). lra.
Qed.

(** * C113: at 2916 eV the smallest draws are stored with a negative energy, whatever the second draw is *)
Lemma arg_2916 u : 0 <= u <= / 10 ^ 17 -> - (7 * ln 2 + 19 * ln 3) - 1 / 1000 <= ln (rel_arg 2916 u) <= - (7 * ln 2 + 19 * ln 3) - 254166 / 10 ^ 9.
Proof.
  intros [U0 U1]. set (x := 1 / 2916).
  assert (P17 : / 10 ^ 17 = 1 / 100000000000000000) by (simpl; field).
  assert (X0 : 0 <= - ln (1 - u) <= 2 / 100000000000000000).
  { split; [assert (K := ln_le1 (- u) ltac:(lra)); replace (1 + - u) with (1 - u) in K by ring; lra|].
    assert (K := ln_le1 (u / (1 - u))).
    assert (Q : 0 <= u / (1 - u) <= 2 * u).
    { split; [apply Rmult_le_pos; [lra|apply Rlt_le, Rinv_0_lt_compat; lra]|].
      apply Rmult_le_reg_r with (1 - u); [lra|]. unfold Rdiv. rewrite Rmult_assoc, Rinv_l by lra. nra. }
    specialize (K ltac:(lra)). replace (1 + u / (1 - u)) with (/ (1 - u)) in K by (field; lra).
    rewrite ln_Rinv in K by lra. lra. }
  assert (E : ln (x ^ 3 / 6) = - (7 * ln 2 + 19 * ln 3)).
  { replace (x ^ 3 / 6) with (/ (2 ^ 7 * 3 ^ 19)) by (unfold x; simpl; field). rewrite ln_Rinv by (apply Rmult_lt_0_compat; apply pow_lt; lra).
    rewrite ln_mult by (apply pow_lt; lra). rewrite !lnpow by lra. simpl INR. ring. }
  assert (L := H0_lower 2916 x ltac:(lra) ltac:(unfold x; lra) ltac:(unfold x; lra)).
  assert (M := H0_upper x ltac:(unfold x; lra)).
  assert (M' : - H0 2916 <= x ^ 3 / 6 - x ^ 4 / 8 + x ^ 5 / 20) by (unfold H0; cbv zeta; fold x; lra).
  unfold rel_arg. split.
  - apply Rle_trans with (ln (x ^ 3 / 6 * (1 - 9 / 10000))).
    + rewrite ln_mult by (unfold x; lra). rewrite E.
      assert (K := ln_le1 (/ (1 - 9 / 10000) - 1) ltac:(lra)). replace (1 + (/ (1 - 9 / 10000) - 1)) with (/ (1 - 9 / 10000)) in K by ring.
      rewrite ln_Rinv in K by lra. lra.
    + apply ln_mono; [unfold x; lra|]. eapply Rle_trans; [|apply Rplus_le_compat; [apply X0|apply L]].
      unfold x. lra.
  - apply Rle_trans with (ln (x ^ 3 / 6 * (1 + - (254166 / 10 ^ 9)))).
    + apply ln_mono; [|unfold x in *; lra]. assert (0 < / (1 + 3 / x + 6 / (x * x) + 6 / (x * x * x))) by (unfold x; lra). lra.
    + rewrite ln_mult by (unfold x; lra). rewrite E. assert (K := ln_le1 (- (254166 / 10 ^ 9)) ltac:(lra)). lra.
Qed.
Theorem C113_negative_refuted : forall u1 u2 draws, 0 <= u1 <= / 10 ^ 17 ->
  exists e, rel_energy 2916 ((u1, u2) :: draws) = Ok (Stored (Some e)) /\ - 1 / 1000 < e < 0.
Proof.
  intros u1 u2 draws HU. cbn [rel_energy].
  assert (U : draw53 u1).
  { split; [lra|]. assert (/ 10 ^ 17 <= / 2) by (apply Rinv_le_contravar; simpl; lra).
    assert (/ 2 ^ 53 <= / 2 ^ 1) by (apply Rinv_le_contravar; [lra|apply Rle_pow; [lra|lia]]). simpl pow in *. lra. }
  assert (A := arg_2916 u1 HU). assert (L2 := ln2_bounds). assert (L3 := ln3_bounds).
  assert (X26 : exp (- 26) <= rel_arg 2916 u1).
  { destruct (ln_draw u1 U) as [C _]. assert (L := H0_lower 2916 (1 / 3000) ltac:(lra) ltac:(lra) ltac:(lra)). assert (E := e26). unfold rel_arg. lra. }
  destruct (rel_table 2916 u1 ltac:(lra) U X26) as [G R0]. rewrite G. cbn [bind].
  set (I := (ln (rel_arg 2916 u1) + 30) * (999 / (12 + 30))) in *.
  assert (NI : Int_part I = 101%Z) by (apply Int_part_unique; unfold I; lra).
  assert (V : - 1 / 1000 < lin (entry lnInvH) I + (2 * ln 2 + 6 * ln 3) < 0).
  { unfold lin. rewrite NI.
    assert (E1 : exists a, entry lnInvH 101 = IZR a / 10 ^ 21 /\ a = nth 101 lnInvH 0%Z) by (eexists; split; reflexivity).
    assert (E2 : exists a, entry lnInvH (101 + 1) = IZR a / 10 ^ 21 /\ a = nth 102 lnInvH 0%Z) by (eexists; split; reflexivity).
    destruct E1 as (a1 & E1 & N1). destruct E2 as (a2 & E2 & N2). vm_compute in N1, N2. rewrite E1, E2, N1, N2. unfold I. split; lra. }
  assert (T : 2916 * exp (lin (entry lnInvH) I) = exp (lin (entry lnInvH) I + (2 * ln 2 + 6 * ln 3))).
  { rewrite exp_plus, Rmult_comm. f_equal. rewrite exp_plus. replace (2 * ln 2) with (ln (2 ^ 2)) by (rewrite lnpow by lra; simpl INR; ring).
    replace (6 * ln 3) with (ln (3 ^ 6)) by (rewrite lnpow by lra; simpl INR; ring). rewrite !exp_ln by (apply pow_lt; lra). simpl. lra. }
  rewrite T. set (v := lin (entry lnInvH) I + (2 * ln 2 + 6 * ln 3)) in *.
  assert (Gv : exp v < 1) by (rewrite <- exp_0; apply exp_increasing; lra). assert (Gp := exp_pos v). assert (Gl := exp_ge1 v).
  destruct (Rlt_dec (exp v * exp v) 1) as [_|N]; [|nra]. exists (exp v - 1). split; [reflexivity|lra].
Qed.
Example C113_negative_ex : 0 <= 0 <= / 10 ^ 17 /\ draw53 0.
Proof.
  assert (0 < / 10 ^ 17) by (apply Rinv_0_lt_compat, pow_lt; lra). split; [lra|].
  split; [lra|]. assert (/ 2 ^ 53 <= / 2 ^ 1) by (apply Rinv_le_contravar; [lra|apply Rle_pow; [lra|lia]]). simpl pow in *. lra.
Qed.
Print Assumptions C113_negative_refuted.
