(** C180: the sampling of energies (maxwellJuettner.cpp). *)
From Coq Require Import ZArith List Reals Bool Lra Lia Psatz.
From Verif Require Import Base MJModel.
Import ListNotations.
Open Scope R_scope.

(** ** the tables *)
Fixpoint sortedb (l : list Z) : bool := match l with a :: (b :: _) as t => Z.ltb a b && sortedb t | _ => true end.
Lemma sorted_nth l : sortedb l = true -> forall i, (S i < length l)%nat -> (nth i l 0 < nth (S i) l 0)%Z.
Proof.
  induction l as [|a l IH]; intros H i Hi; [cbn in Hi; lia|]. destruct l as [|b l]; [cbn in Hi; lia|]. cbn [sortedb] in H. apply andb_true_iff in H as [Hab H].
  destruct i as [|i]; [cbn; lia|]. change (nth (S i) (a :: b :: l) 0%Z) with (nth i (b :: l) 0%Z). change (nth (S (S i)) (a :: b :: l) 0%Z) with (nth (S i) (b :: l) 0%Z). apply IH; [exact H|]. cbn in *. lia.
Qed.
Definition val (tab : list Z) (i : Z) : R := entry (nth (Z.to_nat i) tab 0%Z).
Lemma entry_lt a b : (a < b)%Z -> entry a < entry b.
Proof. intros H. unfold entry. apply Rmult_lt_compat_r; [|now apply IZR_lt]. apply Rinv_0_lt_compat. apply IZR_lt. reflexivity. Qed.
Lemma f_falls : forall i, (0 <= i < 999)%Z -> val lnInvF_tab (i + 1) < val lnInvF_tab i.
Proof.
  intros i Hi. apply entry_lt. assert (H : sortedb (map Z.opp lnInvF_tab) = true) by (vm_compute; reflexivity).
  assert (L := sorted_nth _ H (Z.to_nat i)). rewrite map_length in L. change (length lnInvF_tab) with 1000%nat in L. specialize (L ltac:(lia)).
  change 0%Z with (Z.opp 0) in L. rewrite !map_nth in L. replace (Z.to_nat (i + 1)) with (S (Z.to_nat i)) by lia. lia.
Qed.
Lemma h_rises : forall i, (0 <= i < 999)%Z -> val lnInvH_tab i < val lnInvH_tab (i + 1).
Proof.
  intros i Hi. apply entry_lt. assert (H : sortedb lnInvH_tab = true) by (vm_compute; reflexivity).
  assert (L := sorted_nth _ H (Z.to_nat i)). change (length lnInvH_tab) with 1000%nat in L. specialize (L ltac:(lia)).
  replace (Z.to_nat (i + 1)) with (S (Z.to_nat i)) by lia. lia.
Qed.

(** ** piecewise linear functions *)
Definition line (v : Z -> R) (x : R) : R := v (Int_part x) + (x - IZR (Int_part x)) * (v (Int_part x + 1)%Z - v (Int_part x)).
Lemma int_part x : IZR (Int_part x) <= x < IZR (Int_part x) + 1.
Proof. destruct (base_Int_part x). lra. Qed.
Lemma int_range x n : 0 <= x < IZR n -> (0 <= Int_part x < n)%Z.
Proof. intros H. destruct (int_part x). split; [|apply lt_IZR; lra]. assert (-1 < IZR (Int_part x)) by lra. apply (lt_IZR (-1)) in H2. lia. Qed.
Section Rising.
Variable v : Z -> R.
Hypothesis up : forall i, (0 <= i < 999)%Z -> v i < v (i + 1)%Z.
Lemma v_mono i j : (0 <= i)%Z -> (i <= j <= 999)%Z -> v i <= v j.
Proof using up.
  intros Hi Hj. replace j with (i + Z.of_nat (Z.to_nat (j - i)))%Z by lia. assert (H : (i + Z.of_nat (Z.to_nat (j - i)) <= 999)%Z) by lia. revert H.
  generalize (Z.to_nat (j - i)). induction n as [|n IH]; intros H; [rewrite Z.add_0_r; lra|]. specialize (IH ltac:(lia)). specialize (up (i + Z.of_nat n)%Z ltac:(lia)).
  replace (i + Z.of_nat (S n))%Z with (i + Z.of_nat n + 1)%Z by lia. lra.
Qed.
Lemma line_between x : 0 <= x < 999 -> v (Int_part x) <= line v x < v (Int_part x + 1)%Z.
Proof using up. intros H. assert (I := int_range x 999 H). assert (U := up _ I). destruct (int_part x). unfold line. split; nra. Qed.
Lemma line_range x : 0 <= x < 999 -> v 0%Z <= line v x <= v 999%Z.
Proof using up. intros H. assert (I := int_range x 999 H). assert (B := line_between x H). assert (A := v_mono 0 (Int_part x) ltac:(lia) ltac:(lia)). assert (C := v_mono (Int_part x + 1) 999 ltac:(lia) ltac:(lia)). lra. Qed.
Lemma line_rises x y : 0 <= x -> x < y -> y < 999 -> line v x < line v y.
Proof using up.
  intros Hx Hxy Hy. assert (I := int_range x 999 ltac:(lra)). assert (J := int_range y 999 ltac:(lra)). assert (Bx := line_between x ltac:(lra)). assert (By := line_between y ltac:(lra)).
  assert (M : (Int_part x <= Int_part y)%Z). { destruct (int_part x), (int_part y). assert (IZR (Int_part x) < IZR (Int_part y + 1)) by (rewrite plus_IZR; lra). apply lt_IZR in H3. lia. }
  destruct (Z.eq_dec (Int_part x) (Int_part y)) as [E|N].
  - unfold line. rewrite <- E. assert (U := up _ I). nra.
  - assert (A := v_mono (Int_part x + 1) (Int_part y) ltac:(lia) ltac:(lia)). lra.
Qed.
End Rising.
Lemma interpolate_is tab x : 0 <= x < 999 -> interpolate tab x = Ok (exp (line (val tab) x)).
Proof. intros H. assert (I := int_range x 999 H). unfold interpolate, lookup. replace ((0 <=? Int_part x) && (Int_part x <? 1000))%Z with true by lia. replace ((0 <=? Int_part x + 1) && (Int_part x + 1 <? 1000))%Z with true by lia. reflexivity. Qed.
Lemma f_line x : 0 <= x < 999 -> val lnInvF_tab 999 <= line (val lnInvF_tab) x <= val lnInvF_tab 0.
Proof.
  intros H. assert (G := line_range (fun i => - val lnInvF_tab i) (fun i Hi => Ropp_lt_contravar _ _ (f_falls i Hi)) x H). unfold line in *. lra.
Qed.
Lemma f_line_falls x y : 0 <= x -> x < y -> y < 999 -> line (val lnInvF_tab) y < line (val lnInvF_tab) x.
Proof.
  intros Hx Hxy Hy. assert (G := line_rises (fun i => - val lnInvF_tab i) (fun i Hi => Ropp_lt_contravar _ _ (f_falls i Hi)) x y Hx Hxy Hy). unfold line in *. lra.
Qed.

(** ** the classical case *)
Lemma rltb_t x y : x < y -> rltb x y = true.
Proof. intros. unfold rltb. destruct (Rlt_dec x y); [reflexivity|contradiction]. Qed.
Lemma rltb_f x y : y <= x -> rltb x y = false.
Proof. intros. unfold rltb. destruct (Rlt_dec x y); [lra|reflexivity]. Qed.
(** the double logarithm of the draws *)
Lemma lnln u : 0 < u < 1 -> 0 < - ln u /\ u = exp (- exp (ln (- ln u))).
Proof. intros H. assert (L : ln u < 0) by (rewrite <- ln_1; now apply ln_increasing). split; [lra|]. rewrite exp_ln by lra. rewrite Ropp_involutive, exp_ln; [reflexivity|apply H]. Qed.
Lemma lnln_exp a : ln (- ln (exp (- exp a))) = a.
Proof. rewrite ln_exp, Ropp_involutive. apply ln_exp. Qed.
Lemma dexp_lt a b : a < b -> exp (- exp b) < exp (- exp a).
Proof. intros H. apply exp_increasing. apply exp_increasing in H. lra. Qed.
Lemma dexp_in a : 0 < exp (- exp a) < 1.
Proof. split; [apply exp_pos|]. rewrite <- exp_0. apply exp_increasing. assert (P := exp_pos a). lra. Qed.
Lemma dexp_inv u u' : 0 < u < 1 -> 0 < u' < 1 -> u < u' -> ln (- ln u') < ln (- ln u).
Proof. intros Hu Hu' L. apply ln_increasing; [now apply lnln|]. apply ln_increasing in L; lra. Qed.
Lemma classical_table T u : exp (- exp 2) < u <= exp (- exp (-19)) -> 0 <= (ln (- ln u) + 19) * (999 / (2 + 19)) < 999 /\
  classical T u = Ok (Some (T * exp (line (val lnInvF_tab) ((ln (- ln u) + 19) * (999 / (2 + 19)))))).
Proof.
  intros [H1 H2]. assert (D1 := dexp_in 2). assert (D2 := dexp_in (-19)). assert (A : ln (- ln u) < 2). { rewrite <- (lnln_exp 2). apply dexp_inv; lra. }
  assert (B : -19 <= ln (- ln u)). { destruct (Req_dec u (exp (- exp (-19)))) as [->|N]; [rewrite lnln_exp; lra|]. rewrite <- (lnln_exp (-19)) at 1. left. apply dexp_inv; lra. }
  assert (X : 0 <= (ln (- ln u) + 19) * (999 / (2 + 19)) < 999) by (split; lra). split; [exact X|]. unfold classical, inv_f. destruct (Req_EM_T u 0); [lra|]. rewrite rltb_f by lra. rewrite rltb_f by lra.
  rewrite interpolate_is by exact X. reflexivity.
Qed.
Definition largest : R := exp (entry 3028113261189336214000).
Lemma largest_big : 4 < largest.
Proof. unfold largest, entry. eapply Rle_lt_trans; [|apply exp_ineq1]; [|apply Rgt_not_eq]; assert (3 <= 3028113261189336214000 / 10 ^ 21) by lra; change (IZR (10 ^ 21)) with 1000000000000000000000; lra. Qed.

(** Below 0.1 every draw but one gives an energy between 0 and 20.7 temperatures. *)
Theorem C180_classical : forall T u, 0 <= T -> 0 <= u < 1 -> u <> exp (- exp 2) -> exists e, classical T u = Ok (Some e) /\ 0 <= e <= T * largest.
Proof.
  intros T u HT Hu Ne. assert (Lb := largest_big). assert (One : 0 <= 1 * T <= T * largest) by nra.
  destruct (Req_dec u 0) as [->|Nz].
  { exists (T * (4 / 3 * sqrt PI * 0)). split; [|lra]. unfold classical, inv_f. destruct (Req_EM_T 0 0); [|contradiction]. unfold pow_. rewrite rltb_f by lra. destruct (Req_EM_T 0 0); [reflexivity|contradiction]. }
  destruct (Rle_or_lt u (exp (- exp 2))) as [Le|Gt].
  { assert (Lt : u < exp (- exp 2)) by lra. assert (D := dexp_in 2). assert (A : 2 < ln (- ln u)) by (rewrite <- (lnln_exp 2) at 1; apply dexp_inv; lra).
    exists (T * (4 / 3 * sqrt PI * Rpower u (2 / 3))). split.
    - unfold classical, inv_f. destruct (Req_EM_T u 0); [contradiction|]. rewrite rltb_t by exact A. unfold pow_. rewrite rltb_f by lra. destruct (Req_EM_T u 0); [contradiction|reflexivity].
    - assert (P1 : 0 < Rpower u (2 / 3) < 1). { unfold Rpower. split; [apply exp_pos|]. rewrite <- exp_0. apply exp_increasing. assert (L := lnln u ltac:(lra)). lra. }
      assert (S : 0 < sqrt PI < 2). { assert (Q := PI_RGT_0). split; [now apply sqrt_lt_R0|]. replace 2 with (sqrt (2 * 2)) by (rewrite sqrt_square; lra). apply sqrt_lt_1; try lra. assert (P4 := PI_4). destruct (Req_dec PI 4); [|lra]. exfalso. assert (X := PI_ineq 1). cbn in X. unfold tg_alt, PI_tg in X. cbn in X. lra. }
      assert (0 <= 4 / 3 * sqrt PI * Rpower u (2 / 3) <= largest) by nra. nra. }
  destruct (Rle_or_lt u (exp (- exp (-19)))) as [Le|Gt2].
  { destruct (classical_table T u ltac:(lra)) as [X E]. eexists. split; [exact E|]. destruct (f_line _ X) as [_ B]. set (z := line _ _) in *. clearbody z.
    assert (P := exp_pos z). assert (exp z <= largest) by (unfold largest; change (entry 3028113261189336214000) with (val lnInvF_tab 0); destruct B as [B|B]; [left; now apply exp_increasing|right; now rewrite B]). nra. }
  assert (D := dexp_in (-19)). assert (A : ln (- ln u) < -19) by (rewrite <- (lnln_exp (-19)); apply dexp_inv; lra).
  exists (T * 1). split; [|lra]. unfold classical, inv_f. destruct (Req_EM_T u 0); [contradiction|]. rewrite rltb_f by lra. rewrite rltb_t by exact A. reflexivity.
Qed.
(** The energy rises with the draw, from exp(-e^2) up to exp(-e^-19). *)
Theorem C180_classical_rises : forall T u u', 0 < T -> exp (- exp 2) < u -> u < u' -> u' <= exp (- exp (-19)) ->
  exists e e', classical T u = Ok (Some e) /\ classical T u' = Ok (Some e') /\ e < e'.
Proof.
  intros T u u' HT A L B. destruct (classical_table T u ltac:(lra)) as [X E]. destruct (classical_table T u' ltac:(lra)) as [X' E']. eexists _, _. split; [exact E|]. split; [exact E'|].
  assert (D1 := dexp_in 2). assert (D2 := dexp_in (-19)). assert (M := dexp_inv u u' ltac:(lra) ltac:(lra) L). apply Rmult_lt_compat_l; [exact HT|]. apply exp_increasing. apply f_line_falls; lra.
Qed.
(** The draw exp(-e^2) reads the element behind the table. *)
Theorem C180_read_refuted : forall T, 0 < exp (- exp 2) < 1 /\ classical T (exp (- exp 2)) = UB.
Proof.
  intros T. assert (D := dexp_in 2). split; [exact D|]. unfold classical, inv_f. destruct (Req_EM_T _ 0); [lra|]. rewrite lnln_exp. rewrite !rltb_f by lra.
  replace ((2 + 19) * (999 / (2 + 19))) with (IZR 999) by lra. unfold interpolate, lookup. assert (I : Int_part (IZR 999) = 999%Z). { assert (H := int_part (IZR 999)). assert (A : IZR 999 < IZR (Int_part (IZR 999) + 1)) by (rewrite plus_IZR; lra). destruct H as [H _]. apply le_IZR in H. apply lt_IZR in A. lia. }
  rewrite I. reflexivity.
Qed.
(** The largest draws get one temperature instead of the largest energies. *)
Theorem C180_top_refuted : forall T, 0 < T -> exists u u' e e', 0 < u /\ u < u' /\ u' < 1 /\ classical T u = Ok (Some e) /\ classical T u' = Ok (Some e') /\ 4 * e' < e.
Proof.
  intros T HT. assert (D1 := dexp_in (-19)). assert (D2 := dexp_in (-20)). exists (exp (- exp (-19))), (exp (- exp (-20))), (T * largest), (T * 1).
  split; [lra|]. split; [apply dexp_lt; lra|]. split; [lra|]. split; [|split].
  - assert (Lt : exp (- exp 2) < exp (- exp (-19))) by (apply dexp_lt; lra). destruct (classical_table T (exp (- exp (-19))) ltac:(lra)) as [_ ->]. rewrite lnln_exp. replace ((-19 + 19) * (999 / (2 + 19))) with (IZR 0) by lra.
    assert (I : Int_part (IZR 0) = 0%Z). { assert (H := int_part (IZR 0)). assert (A : IZR 0 < IZR (Int_part (IZR 0) + 1)) by (rewrite plus_IZR; lra). destruct H as [H _]. apply le_IZR in H. apply lt_IZR in A. lia. }
    replace (line (val lnInvF_tab) (IZR 0)) with (val lnInvF_tab 0); [reflexivity|]. unfold line. rewrite I. ring.
  - unfold classical, inv_f. destruct (Req_EM_T _ 0); [lra|]. rewrite lnln_exp. rewrite rltb_f by lra. rewrite rltb_t by lra. reflexivity.
  - assert (L := largest_big). nra.
Qed.

(** ** the relativistic case *)
Definition gap (x : R) : R := x - ln (1 + x + 1 / 2 * x * x).
Lemma gap_h0 T : - h0 T = gap (1 / T).
Proof. unfold h0, gap. cbv zeta. lra. Qed.
Lemma quad_pos x : 0 < 1 + x + 1 / 2 * x * x.
Proof. nra. Qed.
Lemma gap_deriv x : derivable_pt_lim gap x (1 / 2 * x * x / (1 + x + 1 / 2 * x * x)).
Proof.
  assert (Q := quad_pos x). replace (1 / 2 * x * x / (1 + x + 1 / 2 * x * x)) with (1 - / (1 + x + 1 / 2 * x * x) * (0 + 1 + 1 / 2 * (1 * x + x * 1))) by (field; lra).
  apply (derivable_pt_lim_minus (fun x => x) (fun x => ln (1 + x + 1 / 2 * x * x))); [apply derivable_pt_lim_id|].
  apply (derivable_pt_lim_comp (fun x => 1 + x + 1 / 2 * x * x) ln x); [|now apply derivable_pt_lim_ln].
  apply (derivable_pt_lim_ext (plus_fct (plus_fct (fct_cte 1) id) (mult_real_fct (1 / 2) (mult_fct id id)))); [intros; unfold plus_fct, mult_real_fct, mult_fct, fct_cte, id; ring|].
  apply derivable_pt_lim_plus; [apply derivable_pt_lim_plus; [apply derivable_pt_lim_const|apply derivable_pt_lim_id]|]. apply derivable_pt_lim_scal. apply (derivable_pt_lim_mult id id); apply derivable_pt_lim_id.
Qed.
Lemma gap_0 : gap 0 = 0.
Proof. unfold gap. replace (1 + 0 + 1 / 2 * 0 * 0) with 1 by lra. rewrite ln_1. lra. Qed.
Lemma gap_rises x y : 0 <= x -> x < y -> gap x < gap y.
Proof.
  intros Hx Hxy. destruct (MVT_cor2 gap (fun x => 1 / 2 * x * x / (1 + x + 1 / 2 * x * x)) x y Hxy (fun c _ => gap_deriv c)) as (c & E & Hc).
  assert (0 < 1 / 2 * c * c / (1 + c + 1 / 2 * c * c)) by (apply Rdiv_lt_0_compat; [nra|apply quad_pos]). nra.
Qed.
Lemma gap_pos x : 0 < x -> 0 < gap x.
Proof. intros H. rewrite <- gap_0. apply gap_rises; lra. Qed.
Lemma gap_below x : 0 <= x -> gap x <= x.
Proof. intros H. unfold gap. assert (L : 0 <= ln (1 + x + 1 / 2 * x * x)); [|lra]. rewrite <- ln_1. destruct (Req_dec x 0) as [->|N]; [right; f_equal; lra|]. left. apply ln_increasing; nra. Qed.
Lemma cube_deriv k x : derivable_pt_lim (fun x => k * (x * x * x)) x (3 * k * x * x).
Proof.
  replace (3 * k * x * x) with (k * ((1 * x + x * 1) * x + x * x * 1)) by ring.
  apply (derivable_pt_lim_scal (fun x => x * x * x)). apply (derivable_pt_lim_mult (fun x => x * x) id); [|apply derivable_pt_lim_id]. apply (derivable_pt_lim_mult id id); apply derivable_pt_lim_id.
Qed.
Lemma gap_cube_low x : 0 < x <= 1 / 2 -> 1 / 12 * (x * x * x) <= gap x.
Proof.
  intros [H H2]. destruct (MVT_cor2 (fun x => gap x - 1 / 12 * (x * x * x)) (fun x => 1 / 2 * x * x / (1 + x + 1 / 2 * x * x) - 3 * (1 / 12) * x * x) 0 x H) as (c & E & Hc).
  { intros c _. apply (derivable_pt_lim_minus gap (fun x => 1 / 12 * (x * x * x))); [apply gap_deriv|apply cube_deriv]. }
  rewrite gap_0 in E. assert (0 <= 1 / 2 * c * c / (1 + c + 1 / 2 * c * c) - 3 * (1 / 12) * c * c); [|nra].
  assert (Q := quad_pos c). assert (I : 1 / 2 <= / (1 + c + 1 / 2 * c * c)). { replace (1 / 2) with (/ 2) at 1 by lra. apply Rinv_le_contravar; [exact Q|nra]. } unfold Rdiv at 1. unfold Rdiv in I. nra.
Qed.
Lemma gap_cube_high x : 0 < x -> gap x <= 1 / 6 * (x * x * x).
Proof.
  intros H. destruct (MVT_cor2 (fun x => 1 / 6 * (x * x * x) - gap x) (fun x => 3 * (1 / 6) * x * x - 1 / 2 * x * x / (1 + x + 1 / 2 * x * x)) 0 x H) as (c & E & Hc).
  { intros c _. apply (derivable_pt_lim_minus (fun x => 1 / 6 * (x * x * x)) gap); [apply cube_deriv|apply gap_deriv]. }
  rewrite gap_0 in E. assert (0 <= 3 * (1 / 6) * c * c - 1 / 2 * c * c / (1 + c + 1 / 2 * c * c)); [|nra].
  assert (Q := quad_pos c). assert (I : / (1 + c + 1 / 2 * c * c) <= 1). { rewrite <- Rinv_1. apply Rinv_le_contravar; nra. } unfold Rdiv at 3. nra.
Qed.
Lemma exp_nat n x : exp x ^ n = exp (INR n * x).
Proof. induction n as [|n IH]; [cbn; now rewrite Rmult_0_l, exp_0|]. rewrite S_INR. cbn [pow]. rewrite IH, <- exp_plus. f_equal. ring. Qed.
Lemma exp_26_low : 12 * 10 ^ 9 < exp 26.
Proof.
  assert (A : 21 <= (9 / 8) ^ 26) by lra. assert (B : (9 / 8) ^ 26 <= exp (13 / 4)).
  { replace (13 / 4) with (INR 26 * (1 / 8)) by (rewrite INR_IZR_INZ; change (Z.of_nat 26) with 26%Z; lra). rewrite <- exp_nat. apply pow_incr. split; [lra|]. assert (X := exp_ineq1 (1 / 8) ltac:(lra)). lra. }
  replace 26 with (INR 8 * (13 / 4)) by (rewrite INR_IZR_INZ; change (Z.of_nat 8) with 8%Z; lra). rewrite <- exp_nat. apply Rlt_le_trans with (21 ^ 8); [lra|]. apply pow_incr. lra.
Qed.
Lemma exp_26_high : exp 26 <= 3 ^ 26.
Proof.
  assert (E : exp 26 = exp 1 ^ 26) by (rewrite exp_nat; f_equal; rewrite INR_IZR_INZ; change (Z.of_nat 26) with 26%Z; lra). rewrite E. apply pow_incr. split; [left; apply exp_pos|exact exp_le_3].
Qed.
Lemma exp_m26 : exp (-26) = / exp 26.
Proof. rewrite <- exp_Ropp. f_equal. Qed.
Lemma exp_m53 : exp (-53) = / exp 53.
Proof. rewrite <- exp_Ropp. f_equal. Qed.
Lemma exp_m1 : exp (-1) = / exp 1.
Proof. rewrite <- exp_Ropp. f_equal. Qed.
Lemma exp_12_low : 125 < exp 12.
Proof. replace 12 with (4 + 4 + 4) by lra. rewrite !exp_plus. assert (X := exp_ineq1 4 ltac:(lra)). nra. Qed.
Lemma exp_53_low : 2 ^ 53 <= exp 53.
Proof.
  assert (E : exp 53 = exp 1 ^ 53) by (rewrite exp_nat; f_equal; rewrite INR_IZR_INZ; change (Z.of_nat 53) with 53%Z; lra). rewrite E. apply pow_incr. assert (X := exp_ineq1 1 ltac:(lra)). lra.
Qed.
(** the draws that a double below 1 can be *)
Definition a_draw (u : R) : Prop := 0 <= u <= 1 - / 2 ^ 53.
Lemma log_draw u : a_draw u -> 0 <= - ln (1 - u) <= 53.
Proof.
  intros [H1 H2]. assert (P : 0 < / 2 ^ 53) by (apply Rinv_0_lt_compat; lra). split.
  - assert (ln (1 - u) <= 0); [|lra]. rewrite <- ln_1. destruct (Req_dec u 0) as [->|N]; [right; f_equal; lra|left; apply ln_increasing; lra].
  - assert (L : -53 <= ln (1 - u)); [|lra]. rewrite <- (ln_exp (-53)). assert (G : exp (-53) <= 1 - u). { rewrite exp_m53. apply Rle_trans with (/ 2 ^ 53); [|lra]. apply Rinv_le_contravar; [lra|exact exp_53_low]. }
    destruct G as [G|G]; [left; apply ln_increasing; [apply exp_pos|exact G]|rewrite G; lra].
Qed.
Definition argument (T u : R) : R := - ln (1 - u) - h0 T.
Lemma argument_range T u : 1 / 10 <= T <= 1000 -> a_draw u -> exp (-26) < argument T u < exp 12.
Proof.
  intros HT Hu. assert (L := log_draw u Hu). unfold argument. assert (X : 1 / 1000 <= 1 / T <= 10). { split; [apply Rmult_le_reg_r with (1000 * T); [lra|]; field_simplify; lra|apply Rmult_le_reg_r with T; [lra|]; field_simplify; lra]. }
  replace (- ln (1 - u) - h0 T) with (- ln (1 - u) + gap (1 / T)) by (rewrite <- gap_h0; ring). split.
  - assert (G : 1 / 12 * (1 / 1000 * (1 / 1000) * (1 / 1000)) <= gap (1 / 1000)) by (apply gap_cube_low; lra).
    assert (M : gap (1 / 1000) <= gap (1 / T)). { destruct (Req_dec (1 / T) (1 / 1000)) as [->|N]; [lra|]. left. apply gap_rises; lra. }
    assert (E : exp (-26) < / (12 * 10 ^ 9)). { rewrite exp_m26. apply Rinv_lt_contravar; [|exact exp_26_low]. apply Rmult_lt_0_compat; [lra|apply exp_pos]. } lra.
  - assert (B := gap_below (1 / T) ltac:(lra)). assert (E := exp_12_low). lra.
Qed.
Definition place (T u : R) : R := (ln (argument T u) + 30) * (999 / (12 + 30)).
Lemma proposal_table T u : 1 / 10 <= T <= 1000 -> a_draw u -> 0 <= place T u < 999 /\ proposal T u = Ok (Some (T * exp (line (val lnInvH_tab) (place T u)))).
Proof.
  intros HT Hu. destruct (argument_range T u HT Hu) as [A B]. assert (P := exp_pos (-26)). apply ln_increasing in B; [|lra]. apply ln_increasing in A; [|exact P]. rewrite ln_exp in A, B.
  assert (X : 0 <= place T u < 999) by (unfold place; lra). split; [exact X|]. unfold proposal. fold (argument T u). cbv zeta. rewrite !rltb_f by lra. fold (place T u). rewrite interpolate_is by exact X. reflexivity.
Qed.
Lemma place_rises T u u' : 1 / 10 <= T <= 1000 -> a_draw u -> a_draw u' -> u < u' -> place T u < place T u'.
Proof.
  intros HT Hu Hu' L. destruct (argument_range T u HT Hu) as [A _]. assert (P := exp_pos (-26)). assert (Q : 0 < / 2 ^ 53) by (apply Rinv_0_lt_compat; lra). unfold place. assert (G : ln (argument T u) < ln (argument T u')); [|lra].
  apply ln_increasing; [lra|]. unfold argument. assert (ln (1 - u') < ln (1 - u)); [|lra]. destruct Hu, Hu'. apply ln_increasing; lra.
Qed.
(** From 0.1 to 1000 every draw proposes a number; it rises with the draw. *)
Theorem C180_proposal : forall T u, 1 / 10 <= T <= 1000 -> a_draw u -> exists g, proposal T u = Ok (Some g) /\ 0 < g <= T * exp (entry 12000143193835402400000).
Proof.
  intros T u HT Hu. destruct (proposal_table T u HT Hu) as [X E]. eexists. split; [exact E|]. destruct (line_range _ h_rises _ X) as [_ B]. set (z := line _ _) in *. clearbody z. assert (P := exp_pos z).
  split; [nra|]. apply Rmult_le_compat_l; [lra|]. change (entry 12000143193835402400000) with (val lnInvH_tab 999). destruct B as [B|B]; [left; now apply exp_increasing|right; now rewrite B].
Qed.
Theorem C180_proposal_rises : forall T u u', 1 / 10 <= T <= 1000 -> a_draw u -> a_draw u' -> u < u' -> exists g g', proposal T u = Ok (Some g) /\ proposal T u' = Ok (Some g') /\ g < g'.
Proof.
  intros T u u' HT Hu Hu' L. destruct (proposal_table T u HT Hu) as [X E]. destruct (proposal_table T u' HT Hu') as [X' E']. eexists _, _. split; [exact E|]. split; [exact E'|].
  apply Rmult_lt_compat_l; [lra|]. apply exp_increasing. apply (line_rises _ h_rises); [lra|now apply place_rises|lra].
Qed.
(** The rejection loop: it never reads outside of the table; what it returns is the energy of a proposal whose next draw is below the velocity (or that is below 1, where the code compares with a NaN),
    and all proposals before it were at least 1 and their next draws were not below their velocities. *)
Definition velocity (g : R) : R := sqrt (1 - 1 / (g * g)).
Lemma again_is g u : 0 < g -> again (Some g) u = true <-> 1 <= g /\ velocity g <= u.
Proof.
  intros P. unfold again, velocity. assert (I : 1 <= g <-> 0 <= 1 - 1 / (g * g)).
  { assert (E : 1 / (g * g) * (g * g) = 1) by (field; lra). assert (Y : 0 < 1 / (g * g)) by (apply Rdiv_lt_0_compat; nra). set (y := 1 / (g * g)) in *. clearbody y. split; intros H.
    - assert (1 <= g * g) by nra. destruct (Rle_or_lt y 1); [lra|]. nra.
    - destruct (Rle_or_lt 1 g) as [|N]; [assumption|]. assert (g * g < 1) by nra. nra. }
  destruct (Rle_or_lt 1 g) as [L|L].
  - rewrite rltb_f by now apply I. unfold rltb. destruct (Rlt_dec u (sqrt (1 - 1 / (g * g)))) as [V|V]; cbn [negb].
    + split; [discriminate|]. intros [_ W]. exfalso. apply (Rlt_irrefl u). eapply Rlt_le_trans; eassumption.
    + split; [|reflexivity]. intros _. split; [exact L|now apply Rnot_lt_le].
  - assert (N : 1 - 1 / (g * g) < 0) by (apply Rnot_le_lt; intros H; apply I in H; lra). rewrite rltb_t by exact N. split; [discriminate|lra].
Qed.
Theorem C180_loop : forall T d, 1 / 10 <= T <= 1000 -> (forall k, a_draw (d k)) -> forall fuel k,
  relativistic fuel T d k = Ok None \/
  exists n g, (n < fuel)%nat /\ relativistic fuel T d k = Ok (Some (Some (g - 1), (k + 2 * n + 2)%nat)) /\ proposal T (d (k + 2 * n)%nat) = Ok (Some g) /\ (g < 1 \/ d (S (k + 2 * n)) < velocity g) /\
    forall m, (m < n)%nat -> exists g', proposal T (d (k + 2 * m)%nat) = Ok (Some g') /\ 1 <= g' /\ velocity g' <= d (S (k + 2 * m)).
Proof.
  intros T d HT Hd fuel. induction fuel as [|fuel IH]; intros k; [now left|]. cbn [relativistic]. destruct (C180_proposal T (d k) HT (Hd k)) as (g & E & P & _). rewrite E. cbn [bind].
  destruct (again (Some g) (d (S k))) eqn:A.
  - apply again_is in A; [|exact P]. destruct (IH (S (S k))) as [H|(n & g2 & Hn & R & E2 & Ac & Bf)]; [now left|]. right. exists (S n), g2. split; [lia|].
    replace (k + 2 * S n)%nat with (S (S k) + 2 * n)%nat by lia. split; [exact R|]. split; [exact E2|]. split; [exact Ac|]. intros m Hm. destruct m as [|m].
    + rewrite Nat.mul_0_r, Nat.add_0_r. exists g. split; [exact E|exact A].
    + replace (k + 2 * S m)%nat with (S (S k) + 2 * m)%nat by lia. apply Bf. lia.
  - right. exists O, g. rewrite Nat.mul_0_r, Nat.add_0_r. split; [lia|]. split; [cbn [option_map]; do 3 f_equal; lia|]. split; [exact E|]. split; [|intros; lia].
    destruct (Rle_or_lt 1 g); [|now left]. right. apply Rnot_le_lt. intros V. assert (again (Some g) (d (S k)) = true) by (apply again_is; auto). congruence.
Qed.
(** Ten thousand and a small first draw: the energy is a NaN, whatever the second draw is. *)
Theorem C180_hot_refuted : forall d k fuel, d k = 1 / 10 ^ 13 -> relativistic (S fuel) 10000 d k = Ok (Some (None, S (S k))).
Proof.
  intros d k fuel E. cbn [relativistic]. rewrite E. set (u := 1 / 10 ^ 13). assert (Hu : u = 1 / 10 ^ 13) by reflexivity. clearbody u.
  assert (A : argument 10000 u < exp (-26)).
  { unfold argument. replace (- ln (1 - u) - h0 10000) with (- ln (1 - u) + gap (1 / 10000)) by (rewrite <- gap_h0; ring). assert (G := gap_cube_high (1 / 10000) ltac:(lra)).
    assert (L : - ln (1 - u) <= 2 * u). { rewrite <- ln_Rinv by lra. rewrite <- (ln_exp (2 * u)). assert (B : / (1 - u) < exp (2 * u)). { apply Rlt_trans with (1 + 2 * u); [|apply exp_ineq1; lra]. apply Rmult_lt_reg_r with (1 - u); [lra|]. rewrite Rinv_l by lra. rewrite Hu. lra. }
      left. apply ln_increasing; [apply Rinv_0_lt_compat; lra|exact B]. }
    assert (X : / 3 ^ 26 <= exp (-26)) by (rewrite exp_m26; apply Rinv_le_contravar; [apply exp_pos|exact exp_26_high]). assert (Y : 38 / 10 ^ 14 < / 3 ^ 26) by lra. rewrite Hu in L |- *. lra. }
  assert (P : 0 < argument 10000 u). { unfold argument. replace (- ln (1 - u) - h0 10000) with (- ln (1 - u) + gap (1 / 10000)) by (rewrite <- gap_h0; ring). assert (G := gap_pos (1 / 10000) ltac:(lra)).
    assert (ln (1 - u) < 0); [|lra]. rewrite <- ln_1. apply ln_increasing; rewrite Hu; lra. }
  unfold proposal. fold (argument 10000 u). cbv zeta. apply ln_increasing in A; [|exact P]. rewrite ln_exp in A. rewrite rltb_t by exact A. unfold pow_. rewrite rltb_t by (rewrite Hu; lra). reflexivity.
Qed.
(** Which case it is; below 0.1 one draw is used for each energy. *)
Theorem C180_cases : forall fuel T d k,
  (0 <= T < 1 / 10 -> 0 <= d k < 1 -> d k <> exp (- exp 2) -> exists e, sampled fuel T d k = Ok (Some (Some e, S k)) /\ classical T (d k) = Ok (Some e) /\ 0 <= e <= T * largest) /\
  (1 / 10 <= T -> sampled fuel T d k = relativistic fuel T d k).
Proof.
  intros fuel T d k. split.
  - intros HT Hd N. destruct (C180_classical T (d k) ltac:(lra) Hd N) as (e & E & B). exists e. unfold sampled. rewrite rltb_t by lra. rewrite E. auto.
  - intros HT. unfold sampled. now rewrite rltb_f by lra.
Qed.

(** ** what the tables mean *)
Lemma int_part_is i t : 0 <= t < 1 -> Int_part (IZR i + t) = i.
Proof. intros H. destruct (int_part (IZR i + t)) as [A B]. assert (C : IZR (Int_part (IZR i + t)) < IZR (i + 1)) by (rewrite plus_IZR; lra). assert (D : IZR i < IZR (Int_part (IZR i + t) + 1)) by (rewrite plus_IZR; lra). apply lt_IZR in C, D. lia. Qed.
Lemma line_is v i t : 0 <= t < 1 -> line v (IZR i + t) = (1 - t) * v i + t * v (i + 1)%Z.
Proof. intros H. unfold line. rewrite int_part_is by exact H. ring. Qed.
(** The entries of the first table belong to the double logarithms from -19 to 2 in 999 equal steps; between two of them the logarithm of the energy is interpolated. *)
Theorem C180_classical_nodes : forall T i t, (0 <= i < 999)%Z -> 0 <= t < 1 ->
  classical T (exp (- exp (-19 + 21 * ((IZR i + t) / 999)))) = Ok (Some (T * exp ((1 - t) * entry (nth (Z.to_nat i) lnInvF_tab 0%Z) + t * entry (nth (Z.to_nat (i + 1)) lnInvF_tab 0%Z)))).
Proof.
  intros T i t Hi Ht. assert (I : 0 <= IZR i <= 998) by (split; [apply IZR_le|apply IZR_le]; lia). set (a := -19 + 21 * ((IZR i + t) / 999)). assert (Ha : -19 <= a < 2) by (unfold a; lra).
  destruct (classical_table T (exp (- exp a))) as [_ ->].
  { split; [now apply dexp_lt|]. destruct (Req_dec a (-19)) as [->|N]; [lra|]. left. apply dexp_lt. lra. }
  rewrite lnln_exp. replace ((a + 19) * (999 / (2 + 19))) with (IZR i + t) by (unfold a; field). rewrite line_is by exact Ht. reflexivity.
Qed.
(** Those of the second one belong to the logarithms from -30 to 12. *)
Theorem C180_proposal_nodes : forall T u i t, 1 / 10 <= T <= 1000 -> a_draw u -> (0 <= i < 999)%Z -> 0 <= t < 1 ->
  - ln (1 - u) + (1 / T - ln (1 + 1 / T + 1 / T * (1 / T) / 2)) = exp (-30 + 42 * ((IZR i + t) / 999)) ->
  proposal T u = Ok (Some (T * exp ((1 - t) * entry (nth (Z.to_nat i) lnInvH_tab 0%Z) + t * entry (nth (Z.to_nat (i + 1)) lnInvH_tab 0%Z)))).
Proof.
  intros T u i t HT Hu Hi Ht E. destruct (proposal_table T u HT Hu) as [_ ->]. assert (A : argument T u = exp (-30 + 42 * ((IZR i + t) / 999))).
  { rewrite <- E. unfold argument, h0. cbv zeta. replace (1 / 2 * (1 / T) * (1 / T)) with (1 / T * (1 / T) / 2) by lra. ring. }
  unfold place. rewrite A, ln_exp. replace ((-30 + 42 * ((IZR i + t) / 999) + 30) * (999 / (12 + 30))) with (IZR i + t) by field. rewrite line_is by exact Ht. reflexivity.
Qed.
(** The smallest draws: 4/3 sqrt(pi) u^(2/3) temperatures. *)
Theorem C180_low : forall T u, 0 < u < exp (- exp 2) -> classical T u = Ok (Some (T * (4 / 3 * sqrt PI * Rpower u (2 / 3)))).
Proof.
  intros T u Hu. assert (D := dexp_in 2). assert (A : 2 < ln (- ln u)) by (rewrite <- (lnln_exp 2) at 1; apply dexp_inv; lra).
  unfold classical, inv_f. destruct (Req_EM_T u 0); [lra|]. rewrite rltb_t by exact A. unfold pow_. rewrite rltb_f by lra. destruct (Req_EM_T u 0); [lra|reflexivity].
Qed.
(** At exp(-e^2) the energy falls where it should rise: the smallest draws get 4/3 sqrt(pi) u^(2/3), where (3/4 sqrt(pi) u)^(2/3) would continue the table.  Just below, the energy is more than one and a half times that just above. *)
Lemma exp_low x : 0 < x < 1 -> exp x <= / (1 - x).
Proof. intros H. assert (E := exp_ineq1 (- x) ltac:(lra)). rewrite exp_Ropp in E. assert (P := exp_pos x). apply Rmult_le_reg_r with (1 - x); [lra|]. rewrite Rinv_l by lra. assert (exp x * / exp x = 1) by (apply Rinv_r; lra). nra. Qed.
Lemma exp_2_high : exp 2 <= 742 / 100.
Proof.
  assert (A : exp (1 / 512) <= 512 / 511) by (eapply Rle_trans; [apply exp_low; lra|]; right; field).
  assert (P := exp_pos (1 / 512)). assert (B : exp (1 / 16) <= 10646 / 10000).
  { replace (1 / 16) with (INR 32 * (1 / 512)) by (rewrite INR_IZR_INZ; change (Z.of_nat 32) with 32%Z; lra). rewrite <- exp_nat. apply Rle_trans with ((512 / 511) ^ 32); [apply pow_incr; lra|lra]. }
  assert (P2 := exp_pos (1 / 16)). replace 2 with (INR 32 * (1 / 16)) by (rewrite INR_IZR_INZ; change (Z.of_nat 32) with 32%Z; lra). rewrite <- exp_nat.
  apply Rle_trans with ((10646 / 10000) ^ 32); [apply pow_incr; lra|lra].
Qed.
Lemma low_factor : exp (3 / 4) < 4 / 3 * sqrt PI.
Proof.
  assert (A : exp (1 / 16) <= 16 / 15) by (eapply Rle_trans; [apply exp_low; lra|]; right; field). assert (P := exp_pos (1 / 16)).
  assert (B : exp (3 / 4) <= (16 / 15) ^ 12). { replace (3 / 4) with (INR 12 * (1 / 16)) by (rewrite INR_IZR_INZ; change (Z.of_nat 12) with 12%Z; lra). rewrite <- exp_nat. apply pow_incr. lra. }
  assert (C : 173 / 100 < sqrt PI). { replace (173 / 100) with (sqrt (173 / 100 * (173 / 100))) by (apply sqrt_square; lra). assert (Q := PI2_3_2). apply sqrt_lt_1; lra. } lra.
Qed.
Theorem C180_low_refuted : forall T, 0 < T -> exists u u' e e', 0 < u /\ u < u' /\ u' < 1 /\ classical T u = Ok (Some e) /\ classical T u' = Ok (Some e') /\ 3 / 2 * e' < e.
Proof.
  intros T HT. set (t := 19 / 20). set (a := -19 + 21 * ((IZR 998 + t) / 999)). assert (Ha : 19 / 10 < a < 2) by (unfold a, t; lra).
  assert (D := dexp_in (2 + 1 / 1000)). assert (D' := dexp_in a). assert (L1 : exp (- exp (2 + 1 / 1000)) < exp (- exp 2)) by (apply dexp_lt; lra). assert (L2 : exp (- exp 2) < exp (- exp a)) by (apply dexp_lt; lra).
  eexists (exp (- exp (2 + 1 / 1000))), (exp (- exp a)), _, _. split; [lra|]. split; [lra|]. split; [lra|]. split; [apply C180_low; lra|]. split; [apply C180_classical_nodes; [lia|unfold t; lra]|].
  rewrite <- Rmult_assoc, (Rmult_comm (3 / 2) T), Rmult_assoc. apply Rmult_lt_compat_l; [exact HT|]. unfold Rpower. rewrite ln_exp.
  match goal with |- 3 / 2 * exp ?x < _ => apply Rlt_trans with (exp (1 / 2) * exp x); [apply Rmult_lt_compat_r; [apply exp_pos|]; assert (H2 := exp_ineq1 (1 / 2) ltac:(lra)); lra|] end.
  apply Rlt_trans with (exp (3 / 4) * exp (2 / 3 * - exp (2 + 1 / 1000))).
  - rewrite <- !exp_plus. apply exp_increasing. rewrite exp_plus. assert (E := exp_2_high). assert (F : exp (1 / 1000) <= 1000 / 999) by (eapply Rle_trans; [apply exp_low; lra|]; right; field).
    assert (P := exp_pos 2). assert (P2 := exp_pos (1 / 1000)). assert (G : exp 2 * exp (1 / 1000) <= 743 / 100) by nra.
    match goal with |- _ + ((1 - t) * ?x + t * ?y) < _ => let x' := eval vm_compute in (nth (Z.to_nat 998) lnInvF_tab 0%Z) in let y' := eval vm_compute in (nth (Z.to_nat (998 + 1)) lnInvF_tab 0%Z) in
      change x with (entry x'); change y with (entry y') end.
    unfold entry, t. change (IZR (10 ^ 21)) with 1000000000000000000000. lra.
  - apply Rmult_lt_compat_r; [apply exp_pos|exact low_factor].
Qed.
(** the conditions on draws and temperatures can be met; at the temperatures of the sample configuration both cases occur *)
Example C180_ex : a_draw 0 /\ a_draw (1 / 2) /\ a_draw (1 - / 2 ^ 53) /\ (exists e, classical (9 / 100) (9 / 10) = Ok (Some e) /\ 0 <= e <= 9 / 100 * largest) /\
  (exists g, proposal 1 (1 / 2) = Ok (Some g) /\ 0 < g) /\ 0 < exp (- exp 2) < exp (- exp (-19)).
Proof.
  assert (Q : 0 < / 2 ^ 53 < 1 / 2) by (split; [apply Rinv_0_lt_compat|]; lra). unfold a_draw. split; [lra|]. split; [lra|]. split; [lra|]. split; [|split].
  - apply C180_classical; try lra. intros C. assert (X : exp (- exp 2) < exp (-1)) by (apply exp_increasing; assert (Y := exp_ineq1 2 ltac:(lra)); lra). rewrite exp_m1 in X. assert (Y := exp_ineq1 1 ltac:(lra)).
    assert (/ exp 1 < / 2) by (apply Rinv_lt_contravar; lra). lra.
  - destruct (C180_proposal 1 (1 / 2) ltac:(lra) ltac:(unfold a_draw; lra)) as (g & E & P). exists g. split; [exact E|apply P].
  - split; [apply exp_pos|]. apply dexp_lt. lra.
Qed.

Print Assumptions C180_classical.
Print Assumptions C180_classical_rises.
Print Assumptions C180_read_refuted.
Print Assumptions C180_top_refuted.
Print Assumptions C180_proposal.
Print Assumptions C180_proposal_rises.
Print Assumptions C180_loop.
Print Assumptions C180_hot_refuted.
Print Assumptions C180_classical_nodes.
Print Assumptions C180_proposal_nodes.
Print Assumptions C180_low.
Print Assumptions C180_low_refuted.
Print Assumptions C180_cases.
Print Assumptions C180_ex.
