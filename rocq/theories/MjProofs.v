(** Lemmas on the tables of the Maxwell-Juettner sampling and bounds of exp and ln. *)
From Coq Require Import Reals Lra.
From Verif Require Import Base RndUtil MjTable MjModel.
Open Scope R_scope.

(** * The tables are monotone *)
Fixpoint descending (l : list Z) : bool :=
  match l with
  | x :: l' => match l' with y :: _ => (y <? x)%Z && descending l' | [] => true end
  | [] => true
  end.
Lemma descending_nth l : descending l = true -> forall i, (S i < length l)%nat -> (nth (S i) l 0 < nth i l 0)%Z.
Proof.
  induction l as [|x l IH]; intros H i Hi; [simpl in Hi; lia|].
  destruct l as [|y l]; [simpl in Hi; lia|].
  cbn [descending] in H. apply andb_prop in H as [H1 H2].
  destruct i as [|i]; [change (y < x)%Z; lia|].
  change (nth (S i) (y :: l) 0 < nth i (y :: l) 0)%Z. apply IH; [exact H2|]. simpl in *. lia.
Qed.
Lemma F_descending : descending lnInvF = true.
Proof. vm_compute. reflexivity. Qed.
Lemma H_descending : descending (map Z.opp lnInvH) = true.
Proof. vm_compute. reflexivity. Qed.
Lemma F_length : length lnInvF = 1000%nat.
Proof. vm_compute. reflexivity. Qed.
Lemma H_length : length lnInvH = 1000%nat.
Proof. vm_compute. reflexivity. Qed.

Lemma p21 : 0 < 10 ^ 21. Proof. apply pow_lt. lra. Qed.
Lemma F_step i : (0 <= i < 999)%Z -> entry lnInvF (i + 1) < entry lnInvF i.
Proof.
  intros Hi. unfold entry. apply Rmult_lt_compat_r; [apply Rinv_0_lt_compat, p21|]. apply IZR_lt.
  replace (Z.to_nat (i + 1)) with (S (Z.to_nat i)) by lia.
  apply descending_nth; [exact F_descending|]. rewrite F_length. lia.
Qed.
Lemma H_step i : (0 <= i < 999)%Z -> entry lnInvH i < entry lnInvH (i + 1).
Proof.
  intros Hi. unfold entry. apply Rmult_lt_compat_r; [apply Rinv_0_lt_compat, p21|]. apply IZR_lt.
  replace (Z.to_nat (i + 1)) with (S (Z.to_nat i)) by lia.
  assert (L := descending_nth _ H_descending (Z.to_nat i)).
  rewrite map_length, H_length in L. specialize (L ltac:(lia)).
  change 0%Z with (Z.opp 0) in L. rewrite !map_nth in L. lia.
Qed.

(** * Interpolation between the points of a sequence *)
Definition lin (a : Z -> R) (x : R) : R := a (Int_part x) + (x - IZR (Int_part x)) * (a (Int_part x + 1)%Z - a (Int_part x)).

Section Lin.
Variable a : Z -> R.
Hypothesis a_step : forall i, (0 <= i < 999)%Z -> a (i + 1)%Z < a i.
Lemma seq_le i j : (0 <= i)%Z -> (i <= j)%Z -> (j <= 999)%Z -> a j <= a i.
Proof.
  intros Hi Hij. pattern j. apply Zlt_lower_bound_ind with (z := i); [|exact Hij].
  intros k IH Hk K. destruct (Z.eq_dec k i) as [->|]; [lra|].
  assert (A := IH (k - 1)%Z ltac:(lia) ltac:(lia)).
  assert (B := a_step (k - 1)%Z ltac:(lia)). replace (k - 1 + 1)%Z with k in B by lia. lra.
Qed.
Lemma lin_between x : 0 <= x < 999 -> a (Int_part x + 1)%Z <= lin a x <= a (Int_part x).
Proof.
  intros Hx. destruct (Int_part_bounds x) as [A B].
  assert (I1 := Int_part_nonneg x ltac:(lra)). assert (I2 := Int_part_lt x 999 ltac:(lra)).
  assert (S := a_step (Int_part x) ltac:(lia)). unfold lin. split; nra.
Qed.
Lemma lin_decreasing x y : 0 <= x -> x <= y -> y < 999 -> lin a y <= lin a x.
Proof.
  intros Hx Hxy Hy.
  assert (I1 := Int_part_nonneg x ltac:(lra)). assert (I2 := Int_part_lt y 999 ltac:(lra)).
  destruct (Int_part_bounds x) as [A B]. destruct (Int_part_bounds y) as [C D].
  assert (I3 : (Int_part x <= Int_part y)%Z).
  { apply Int_part_le. lra. }
  destruct (Z.eq_dec (Int_part x) (Int_part y)) as [E|E].
  - unfold lin. rewrite E in *. assert (S := a_step (Int_part y) ltac:(lia)). nra.
  - destruct (lin_between x ltac:(lra)) as [L _]. destruct (lin_between y ltac:(lra)) as [_ U].
    assert (M := seq_le (Int_part x + 1) (Int_part y) ltac:(lia) ltac:(lia) ltac:(lia)). lra.
Qed.
End Lin.

Lemma interpolate_ok t x : 0 <= x < 999 -> interpolate t x = Ok (exp (lin (entry t) x)).
Proof.
  intros Hx. unfold interpolate. rewrite to_u32_ok by lra. cbn [bind].
  assert (I1 := Int_part_nonneg x ltac:(lra)). assert (I2 := Int_part_lt x 999 ltac:(lra)).
  unfold table. rewrite u32_small by lia.
  replace ((0 <=? Int_part x) && (Int_part x <? 1000))%Z with true by (symmetry; lia). cbn [bind].
  replace ((0 <=? Int_part x + 1) && (Int_part x + 1 <? 1000))%Z with true by (symmetry; lia). cbn [bind].
  reflexivity.
Qed.
Lemma interpolate_end t : interpolate t 999 = UB.
Proof.
  unfold interpolate. rewrite to_u32_ok by lra. cbn [bind].
  rewrite (Int_part_unique 999 999) by lra. unfold table. cbn [bind]. rewrite u32_small by lia. reflexivity.
Qed.

(** * Bounds of exp and ln *)
Lemma increasing_from0 (f f' : R -> R) (b : R) :
  (forall x, 0 <= x <= b -> derivable_pt_lim f x (f' x)) -> (forall x, 0 <= x <= b -> 0 <= f' x) ->
  forall x, 0 <= x <= b -> f 0 <= f x.
Proof.
  intros Hd Hp x Hx. destruct (Req_dec x 0) as [->|N]; [lra|].
  destruct (MVT_cor2 f f' 0 x) as (c & E & Hc); [lra| |].
  { intros c Hc. apply Hd. lra. }
  assert (P := Hp c ltac:(lra)). nra.
Qed.

(** exp x >= 1 + x + x^2/2 + x^3/6 *)
Lemma exp_ge1 x : 1 + x <= exp x.
Proof. destruct (Req_dec x 0) as [->|N]; [rewrite exp_0; lra|]. assert (A := exp_ineq1 x N). lra. Qed.
Lemma exp_ge2 x : 0 <= x -> 1 + x + x * x / 2 <= exp x.
Proof.
  intros Hx.
  assert (A := increasing_from0 (fun y => exp y - (1 + y + y * y / 2)) (fun y => exp y - (1 + y)) x).
  assert (B : exp 0 - (1 + 0 + 0 * 0 / 2) <= exp x - (1 + x + x * x / 2)).
  { apply A; [| |lra].
    - intros y _. apply derivable_pt_lim_minus; [apply derivable_pt_lim_exp|].
      replace (1 + y) with (0 + 1 + (1 * y + y * 1) / 2) by field.
      apply derivable_pt_lim_plus; [apply derivable_pt_lim_plus; [apply derivable_pt_lim_const|apply derivable_pt_lim_id]|].
      replace (fun y => y * y / 2) with (mult_real_fct (/ 2) (id * id)%F).
      + replace ((1 * y + y * 1) / 2) with (/ 2 * (1 * id y + id y * 1)) by (unfold id; field).
        apply derivable_pt_lim_scal, derivable_pt_lim_mult; apply derivable_pt_lim_id.
      + apply FunctionalExtensionality.functional_extensionality. intros z. unfold mult_real_fct, mult_fct, id. field.
    - intros y _. assert (C := exp_ge1 y). lra. }
  rewrite exp_0 in B. lra.
Qed.
Lemma deriv_sq y : derivable_pt_lim (fun y => y * y) y (2 * y).
Proof.
  replace (2 * y) with (1 * id y + id y * 1) by (unfold id; ring).
  apply (derivable_pt_lim_mult id id); apply derivable_pt_lim_id.
Qed.
Lemma deriv_cube y : derivable_pt_lim (fun y => y * y * y) y (3 * (y * y)).
Proof.
  replace (3 * (y * y)) with (2 * y * id y + (y * y) * 1) by (unfold id; ring).
  apply (derivable_pt_lim_mult (fun y => y * y) id); [apply deriv_sq|apply derivable_pt_lim_id].
Qed.
Lemma deriv_scal (f : R -> R) k y l : derivable_pt_lim f y l -> derivable_pt_lim (fun y => k * f y) y (k * l).
Proof. intros H. apply (derivable_pt_lim_scal f k y l H). Qed.
Lemma deriv_plus (f g : R -> R) y l m : derivable_pt_lim f y l -> derivable_pt_lim g y m -> derivable_pt_lim (fun y => f y + g y) y (l + m).
Proof. intros A B. apply (derivable_pt_lim_plus f g y l m A B). Qed.
Lemma deriv_id y : derivable_pt_lim (fun y => y) y 1. Proof. apply derivable_pt_lim_id. Qed.
Lemma deriv_const k y : derivable_pt_lim (fun _ => k) y 0. Proof. apply (derivable_pt_lim_const k). Qed.
Lemma deriv_ln1 (f : R -> R) l y : derivable_pt_lim f y l -> 0 < f y -> derivable_pt_lim (fun y => ln (f y)) y (/ f y * l).
Proof. intros A B. apply (derivable_pt_lim_comp f ln y l (/ f y)); [exact A|]. apply derivable_pt_lim_ln, B. Qed.

Lemma exp_ge3 x : 0 <= x -> 1 + x + x * x / 2 + x * x * x / 6 <= exp x.
Proof.
  intros Hx.
  assert (A := increasing_from0 (fun y => exp y + (-1) * (1 + y + / 2 * (y * y) + / 6 * (y * y * y)))
                                (fun y => exp y + (-1) * (0 + 1 + / 2 * (2 * y) + / 6 * (3 * (y * y)))) x).
  assert (B := A ltac:(intros y _; apply deriv_plus; [apply derivable_pt_lim_exp|];
                       apply deriv_scal; repeat apply deriv_plus;
                       [apply deriv_const|apply deriv_id|apply deriv_scal, deriv_sq|apply deriv_scal, deriv_cube])
                 ltac:(intros y Hy; assert (C := exp_ge2 y ltac:(lra)); lra) x ltac:(lra)).
  cbv beta in B. rewrite exp_0 in B. lra.
Qed.

(** ln (1 + y) >= y - y^2/2 *)
Lemma ln_ge2 y : 0 <= y -> y - y * y / 2 <= ln (1 + y).
Proof.
  intros Hy.
  assert (B := increasing_from0 (fun z => ln (1 + z) + ((-1) * z + / 2 * (z * z)))
                                (fun z => / (1 + z) * (0 + 1) + ((-1) * 1 + / 2 * (2 * z))) y).
  assert (C := B ltac:(intros z Hz; apply deriv_plus;
                        [apply (deriv_ln1 (fun z => 1 + z)); [apply deriv_plus; [apply deriv_const|apply deriv_id]|lra]
                        |apply deriv_plus; [apply deriv_scal, deriv_id|apply deriv_scal, deriv_sq]])
                 ltac:(intros z Hz; cbv beta; replace (/ (1 + z) * (0 + 1) + (-1 * 1 + / 2 * (2 * z))) with (z * z / (1 + z)) by (field; lra);
                       apply Rmult_le_pos; [nra|apply Rlt_le, Rinv_0_lt_compat; lra]) y ltac:(lra)).
  cbv beta in C. rewrite Rplus_0_r, ln_1 in C. lra.
Qed.
Lemma ln_le1 y : -1 < y -> ln (1 + y) <= y.
Proof.
  intros Hy. apply Rle_trans with (ln (exp y)); [|rewrite ln_exp; lra]. destruct (Req_dec y 0) as [->|N]; [rewrite exp_0, Rplus_0_r; lra|].
  apply Rlt_le, ln_increasing; [lra|]. apply exp_ineq1, N.
Qed.
Lemma ln_mono x y : 0 < x -> x <= y -> ln x <= ln y.
Proof. intros Hx [H| ->]; [apply Rlt_le, ln_increasing; assumption|lra]. Qed.
Lemma exp_mono x y : x <= y -> exp x <= exp y.
Proof. intros [H| ->]; [apply Rlt_le, exp_increasing, H|lra]. Qed.
Lemma exp_nat n x : exp (INR n * x) = exp x ^ n.
Proof.
  induction n as [|n IH]; [simpl; rewrite Rmult_0_l; apply exp_0|].
  rewrite S_INR, Rmult_plus_distr_r, Rmult_1_l, exp_plus, IH. simpl. ring.
Qed.
(** 2.7 < e < 2.72 *)
Lemma e_lower : 27 / 10 < exp 1.
Proof.
  replace 1 with (INR 4 * / 4) by (simpl; field). rewrite exp_nat.
  assert (A := exp_ge3 (/ 4) ltac:(lra)).
  assert (B : 128385 / 100000 <= exp (/ 4)) by lra.
  assert (C : (128385 / 100000) ^ 4 <= exp (/ 4) ^ 4) by (apply pow_incr; lra).
  lra.
Qed.
Lemma e_upper : exp 1 < 272 / 100.
Proof.
  (* exp (-1/8) >= 1 / (exp (1/8)) ... use exp (-x) >= 1 - x + x^2/2 - x^3/6 *)
  assert (A : forall x, 0 <= x -> 1 + (-1) * x + / 2 * (x * x) + - / 6 * (x * x * x) <= exp (- x)).
  { intros x Hx.
    assert (N1 : forall y, 0 <= y -> 0 <= exp (- y) + (-1 + y)) by (intros y Hy; assert (E := exp_ge1 (- y)); lra).
    assert (De : forall y, derivable_pt_lim (fun y => exp (- y)) y (exp (- y) * - 1)).
    { intros y. apply (derivable_pt_lim_comp (fun y => - y) exp y (-1) (exp (- y))); [|apply derivable_pt_lim_exp].
      apply (derivable_pt_lim_opp id y 1), derivable_pt_lim_id. }
    assert (N2 : forall y, 0 <= y -> 0 <= (-1) * exp (- y) + (1 + (-1) * y + / 2 * (y * y))).
    { intros y Hy.
      assert (B := increasing_from0 (fun z => (-1) * exp (- z) + (1 + (-1) * z + / 2 * (z * z)))
                     (fun z => (-1) * (exp (- z) * - 1) + (0 + (-1) * 1 + / 2 * (2 * z))) y).
      assert (C := B ltac:(intros z Hz; apply deriv_plus; [apply deriv_scal, De|];
                           repeat apply deriv_plus; [apply deriv_const|apply deriv_scal, deriv_id|apply deriv_scal, deriv_sq])
                     ltac:(intros z Hz; assert (D := N1 z ltac:(lra)); lra) y ltac:(lra)).
      cbv beta in C. rewrite Ropp_0, exp_0 in C. lra. }
    assert (B := increasing_from0 (fun z => exp (- z) + (-1) * (1 + (-1) * z + / 2 * (z * z) + - / 6 * (z * z * z)))
                   (fun z => exp (- z) * - 1 + (-1) * (0 + (-1) * 1 + / 2 * (2 * z) + - / 6 * (3 * (z * z)))) x).
    assert (C := B ltac:(intros z Hz; apply deriv_plus; [apply De|]; apply deriv_scal;
                         repeat apply deriv_plus; [apply deriv_const|apply deriv_scal, deriv_id|apply deriv_scal, deriv_sq|apply deriv_scal, deriv_cube])
                   ltac:(intros z Hz; assert (D := N2 z ltac:(lra)); lra) x ltac:(lra)).
    cbv beta in C. rewrite Ropp_0, exp_0 in C. lra. }
  assert (B := A (/ 8) ltac:(lra)).
  assert (C : 88248 / 100000 <= exp (- / 8)) by lra.
  assert (D : (88248 / 100000) ^ 8 <= exp (- / 8) ^ 8) by (apply pow_incr; lra).
  rewrite <- exp_nat in D. replace (INR 8 * - / 8) with (Ropp 1) in D by (simpl; field).
  rewrite exp_Ropp in D.
  assert (E := exp_pos 1).
  assert (F : exp 1 * / exp 1 = 1) by (field; lra). nra.
Qed.
