(** C110-C113: the energies of the thermal distribution (src/math/maxwellJuettner.cpp). *)
From Coq Require Import Reals Lra.
From Verif Require Import Base RndUtil MjTable MjModel MjProofs.
Open Scope R_scope.

(** * C110: the tables are read inside their bounds *)
(** the draw for which [log (-log U)] is [x] *)
Definition draw_of (x : R) : R := exp (- exp x).
Lemma draw_of_range x : 0 < draw_of x < 1.
Proof.
  unfold draw_of. split; [apply exp_pos|]. rewrite <- exp_0 at 1. apply exp_increasing. assert (A := exp_pos x). lra.
Qed.
Lemma lnln_draw x : ln (- ln (draw_of x)) = x.
Proof. unfold draw_of. rewrite ln_exp, Ropp_involutive. apply ln_exp. Qed.
Lemma draw_lnln U : 0 < U < 1 -> draw_of (ln (- ln U)) = U.
Proof.
  intros H. unfold draw_of. assert (L : ln U < 0) by (rewrite <- ln_1; apply ln_increasing; lra).
  rewrite exp_ln by lra. rewrite Ropp_involutive. apply exp_ln. lra.
Qed.
Lemma draw_of_decr x y : x < y -> draw_of y < draw_of x.
Proof. intros H. unfold draw_of. apply exp_increasing. apply Ropp_lt_contravar, exp_increasing, H. Qed.
Lemma lnln_decr U V : 0 < U -> U <= V -> V < 1 -> ln (- ln V) <= ln (- ln U).
Proof.
  intros H1 H2 H3. destruct (Rle_lt_dec (ln (- ln V)) (ln (- ln U))) as [L|L]; [exact L|exfalso].
  apply draw_of_decr in L. rewrite !draw_lnln in L by lra. lra.
Qed.

Theorem C110_classical_partial : forall T U, 0 <= U < 1 -> U <> draw_of 2 -> exists e, classical_energy T U = Ok e.
Proof.
  intros T U HU N. unfold classical_energy. destruct (Req_EM_T U 0) as [E0|E0]; [eauto|]. cbv zeta.
  destruct (Rlt_dec 2 (ln (- ln U))) as [L|L]; [eauto|].
  destruct (Rlt_dec (ln (- ln U)) (- 19)) as [M|M]; [eauto|].
  assert (ln (- ln U) <> 2) by (intros E; apply N; rewrite <- (draw_lnln U) by lra; f_equal; exact E).
  rewrite interpolate_ok by lra. cbn [bind]. eauto.
Qed.
Theorem C110_classical_refuted : 0 < draw_of 2 < 1 /\ forall T, classical_energy T (draw_of 2) = UB.
Proof.
  split; [apply draw_of_range|]. intros T. unfold classical_energy.
  destruct (Req_EM_T (draw_of 2) 0) as [E|_]; [destruct (draw_of_range 2); lra|]. cbv zeta. rewrite lnln_draw.
  destruct (Rlt_dec 2 2) as [L|_]; [lra|]. destruct (Rlt_dec 2 (- 19)) as [L|_]; [lra|].
  replace ((2 + 19) * (999 / (2 + 19))) with 999 by field. rewrite interpolate_end. reflexivity.
Qed.

Lemma invT_range T : 1 / 10 <= T -> 0 < 1 / T <= 10.
Proof.
  intros HT. split; [apply Rmult_lt_0_compat; [lra|apply Rinv_0_lt_compat; lra]|].
  apply Rmult_le_reg_r with T; [lra|]. replace (1 / T * T) with 1 by (field; lra). lra.
Qed.
(** 1 / (1 + 3/a + 6/a^2 + 6/a^3) <= - H0 (1/x) for x >= a *)
Lemma H0_lower T a : 0 < T -> 0 < a -> a <= 1 / T -> / (1 + 3 / a + 6 / (a * a) + 6 / (a * a * a)) <= - H0 T.
Proof.
  intros HT Ha Hx. unfold H0. cbv zeta. set (x := 1 / T) in *. assert (Px : 0 < x) by lra. clearbody x.
  set (P := 1 + x + 1 / 2 * x * x).
  assert (PP : 0 < P) by (unfold P; nra).
  assert (E := exp_ge3 x ltac:(lra)).
  set (w := x * x * x / (6 * P)).
  assert (P2 : 0 < x * x) by nra. assert (P3 : 0 < x * x * x) by (apply Rmult_lt_0_compat; lra).
  assert (Pw : 0 < w) by (unfold w; apply Rmult_lt_0_compat; [exact P3|apply Rinv_0_lt_compat; lra]).
  assert (EW : P * (1 + w) <= exp x) by (unfold w; replace (P * (1 + x * x * x / (6 * P))) with (P + x * x * x / 6) by (field; lra); unfold P; lra).
  assert (L : ln (P * (1 + w)) <= x) by (apply Rle_trans with (ln (exp x)); [apply ln_mono; [nra|exact EW]|rewrite ln_exp; lra]).
  rewrite ln_mult in L by lra.
  assert (W : w / (1 + w) <= ln (1 + w)).
  { assert (K := ln_le1 (- (w / (1 + w)))).
    assert (Q : w / (1 + w) < 1) by (apply Rmult_lt_reg_r with (1 + w); [lra|]; unfold Rdiv; rewrite Rmult_assoc, Rinv_l by lra; lra).
    specialize (K ltac:(lra)). replace (1 + - (w / (1 + w))) with (/ (1 + w)) in K by (field; lra).
    rewrite ln_Rinv in K by lra. lra. }
  assert (F : / (1 + 3 / a + 6 / (a * a) + 6 / (a * a * a)) <= w / (1 + w)).
  { replace (w / (1 + w)) with (/ (1 + 3 / x + 6 / (x * x) + 6 / (x * x * x)))
      by (unfold w, P; field; repeat split; nra).
    assert (I : / x <= / a) by (apply Rinv_le_contravar; lra).
    assert (J : 0 < / x) by (apply Rinv_0_lt_compat; lra).
    replace (6 / (x * x)) with (6 * (/ x * / x)) by (field; lra). replace (6 / (x * x * x)) with (6 * (/ x * / x * / x)) by (field; lra).
    replace (6 / (a * a)) with (6 * (/ a * / a)) by (field; lra). replace (6 / (a * a * a)) with (6 * (/ a * / a * / a)) by (field; lra).
    assert (J2 : / x * / x <= / a * / a) by nra.
    assert (J3 : / x * / x * / x <= / a * / a * / a) by (apply Rmult_le_compat; nra).
    apply Rinv_le_contravar; [|unfold Rdiv; lra]. assert (0 < / x * / x) by nra. assert (0 < / x * / x * / x) by nra. unfold Rdiv. lra. }
  lra.
Qed.
Lemma H0_neg T : 1 / 10 <= T -> 0 < - H0 T <= 10.
Proof.
  intros HT. destruct (invT_range T HT) as [A B]. split.
  - assert (L := H0_lower T (1 / T) ltac:(lra) A ltac:(lra)).
    eapply Rlt_le_trans; [|exact L]. apply Rinv_0_lt_compat.
    assert (0 < 3 / (1 / T)) by (apply Rmult_lt_0_compat; [lra|apply Rinv_0_lt_compat; lra]).
    assert (0 < 6 / (1 / T * (1 / T))) by (apply Rmult_lt_0_compat; [lra|apply Rinv_0_lt_compat; nra]).
    assert (0 < 6 / (1 / T * (1 / T) * (1 / T))) by (apply Rmult_lt_0_compat; [lra|apply Rinv_0_lt_compat; apply Rmult_lt_0_compat; nra]).
    lra.
  - unfold H0. cbv zeta.
    assert (0 <= ln (1 + 1 / T + 1 / 2 * (1 / T) * (1 / T))) by (rewrite <- ln_1; apply ln_mono; nra).
    lra.
Qed.
(** the draws of a generator with 53 bits *)
Definition draw53 (u : R) : Prop := 0 <= u <= 1 - / 2 ^ 53.
Lemma ln_draw u : draw53 u -> 0 <= - ln (1 - u) <= 53.
Proof.
  intros [A B]. assert (P : 0 < / 2 ^ 53) by (apply Rinv_0_lt_compat, pow_lt; lra).
  split; [assert (K := ln_le1 (- u) ltac:(lra)); replace (1 + - u) with (1 - u) in K by ring; lra|].
  assert (L : ln (/ 2 ^ 53) <= ln (1 - u)) by (apply ln_mono; lra).
  rewrite ln_Rinv in L by (apply pow_lt; lra).
  assert (M : ln (2 ^ 53) <= 53).
  { apply Rle_trans with (ln (exp 53)); [|rewrite ln_exp; lra]. apply ln_mono; [apply pow_lt; lra|].
    replace 53 with (INR 53 * 1) by (rewrite INR_IZR_INZ; simpl; ring). rewrite exp_nat. apply pow_incr. assert (E := e_lower). lra. }
  lra.
Qed.
Lemma ln_63 x : 0 < x <= 63 -> ln x < 12.
Proof.
  intros H. apply Rle_lt_trans with (ln 63); [apply ln_mono; lra|]. rewrite <- (ln_exp 12). apply ln_increasing; [lra|].
  replace 12 with (INR 12 * 1) by (rewrite INR_IZR_INZ; simpl; ring). rewrite exp_nat.
  assert (E := e_lower). assert (A : 2 ^ 12 <= exp 1 ^ 12) by (apply pow_incr; lra). lra.
Qed.
Theorem C110_relativistic : forall T u, 1 / 10 <= T -> draw53 u -> exists g, rel_gamma T u = Ok g.
Proof.
  intros T u HT Hu. destruct (H0_neg T HT) as [A B]. destruct (ln_draw u Hu) as [C D].
  unfold rel_gamma. cbv zeta. destruct (Rlt_dec (- ln (1 - u) - H0 T) 0) as [L|_]; [lra|].
  destruct (Req_EM_T (- ln (1 - u) - H0 T) 0) as [L|_]; [lra|].
  destruct (Rlt_dec (ln (- ln (1 - u) - H0 T)) (- 26)) as [L|L]; [eauto|].
  assert (M := ln_63 (- ln (1 - u) - H0 T) ltac:(lra)).
  destruct (Rlt_dec 12 (ln (- ln (1 - u) - H0 T))) as [N|_]; [lra|].
  rewrite interpolate_ok by lra. cbn [bind]. eauto.
Qed.
Example C110_ex : draw53 (1 / 2) /\ (exists e, classical_energy (1 / 20) (draw_of 0) = Ok e).
Proof.
  split; [unfold draw53; split; [lra|]; assert (/ 2 ^ 53 <= / 2 ^ 1) by (apply Rinv_le_contravar; [lra|apply Rle_pow; [lra|lia]]); simpl in *; lra|].
  apply C110_classical_partial; [assert (A := draw_of_range 0); lra|].
  assert (A := draw_of_decr 0 2 ltac:(lra)). lra.
Qed.

(** * C111: a larger draw gives a larger energy *)
Lemma F_lin x : 0 <= x < 999 -> interpolate lnInvF x = Ok (exp (lin (entry lnInvF) x)).
Proof. apply interpolate_ok. Qed.
Lemma classical_table T U : draw_of 2 < U <= draw_of (- 19) ->
  classical_energy T U = Ok (T * exp (lin (entry lnInvF) ((ln (- ln U) + 19) * (999 / (2 + 19))))) /\
  0 <= (ln (- ln U) + 19) * (999 / (2 + 19)) < 999.
Proof.
  intros [H1 H2]. destruct (draw_of_range 2) as [P _]. destruct (draw_of_range (- 19)) as [_ Q]. assert (UU : 0 < U < 1) by lra.
  assert (L2 : ln (- ln U) < 2).
  { destruct (Rle_lt_dec 2 (ln (- ln U))) as [L|L]; [exfalso|exact L].
    destruct L as [L|L]; [apply draw_of_decr in L|]; [rewrite draw_lnln in L by lra; lra|].
    rewrite L, draw_lnln in H1 by lra. lra. }
  assert (L19 : - 19 <= ln (- ln U)).
  { destruct (Rle_lt_dec (- 19) (ln (- ln U))) as [L|L]; [exact L|exfalso].
    apply draw_of_decr in L. rewrite draw_lnln in L by lra. lra. }
  split; [|lra]. unfold classical_energy. destruct (Req_EM_T U 0) as [E|_]; [lra|]. cbv zeta.
  destruct (Rlt_dec 2 (ln (- ln U))) as [L|_]; [lra|]. destruct (Rlt_dec (ln (- ln U)) (- 19)) as [L|_]; [lra|].
  rewrite interpolate_ok by lra. reflexivity.
Qed.
Theorem C111_table_partial : forall T U V, 0 <= T -> draw_of 2 < U -> U <= V -> V <= draw_of (- 19) ->
  exists e f, classical_energy T U = Ok e /\ classical_energy T V = Ok f /\ e <= f.
Proof.
  intros T U V HT H1 H2 H3. destruct (classical_table T U ltac:(lra)) as [A A'].
  destruct (classical_table T V ltac:(lra)) as [B B']. eexists. eexists. split; [exact A|]. split; [exact B|].
  apply Rmult_le_compat_l; [exact HT|]. apply exp_mono, lin_decreasing.
  - intros i Hi. apply F_step, Hi.
  - lra.
  - destruct (draw_of_range 2). destruct (draw_of_range (- 19)).
    assert (L := lnln_decr U V ltac:(lra) H2 ltac:(lra)). apply Rmult_le_compat_r; lra.
  - lra.
Qed.
Lemma low_range T U : 0 < U < draw_of 2 -> classical_energy T U = Ok (T * low_branch U).
Proof.
  intros [H1 H2]. unfold classical_energy. destruct (Req_EM_T U 0) as [E|_]; [lra|]. cbv zeta.
  destruct (Rlt_dec 2 (ln (- ln U))) as [L|L]; [reflexivity|exfalso].
  destruct (draw_of_range 2). assert (UU : 0 < U < 1) by lra. assert (M : ln (- ln U) <= 2) by lra.
  destruct M as [M|M]; [apply draw_of_decr in M; rewrite draw_lnln in M by lra; lra|].
  rewrite <- M, draw_lnln in H2 by lra. lra.
Qed.
Theorem C111_low_partial : forall T U V, 0 <= T -> 0 < U -> U <= V -> V < draw_of 2 ->
  exists e f, classical_energy T U = Ok e /\ classical_energy T V = Ok f /\ e <= f.
Proof.
  intros T U V HT H1 H2 H3. rewrite !low_range by lra. eexists. eexists. split; [reflexivity|]. split; [reflexivity|].
  apply Rmult_le_compat_l; [exact HT|]. unfold low_branch. destruct (Req_EM_T U 0); [lra|]. destruct (Req_EM_T V 0); [lra|].
  apply Rmult_le_compat_l; [unfold THREE_OVER_4; apply Rmult_le_pos; [lra|apply sqrt_pos]|].
  apply Rle_Rpower_l; unfold TWO_OVER_3; lra.
Qed.
(** the largest draws get an energy nineteen times too small: less than that of smaller draws *)
Theorem C111_tail_refuted : forall T V, 0 < T -> draw_of (- 19) < V < 1 ->
  exists e f, classical_energy T (draw_of (- 19)) = Ok e /\ classical_energy T V = Ok f /\ 19 * f < e.
Proof.
  intros T V HT [H1 H2]. destruct (draw_of_range (- 19)) as [P Q].
  assert (R2 : draw_of 2 < draw_of (- 19)) by (apply draw_of_decr; lra).
  destruct (classical_table T (draw_of (- 19)) ltac:(lra)) as [A _]. rewrite lnln_draw in A.
  replace ((- 19 + 19) * (999 / (2 + 19))) with 0 in A by ring.
  eexists. exists (T * 1). split; [exact A|]. split.
  - unfold classical_energy. destruct (Req_EM_T V 0) as [E|_]; [lra|]. cbv zeta.
    assert (UU : 0 < V < 1) by lra.
    assert (L : ln (- ln V) < - 19).
    { destruct (Rle_lt_dec (- 19) (ln (- ln V))) as [L|L]; [exfalso|exact L].
      destruct L as [L|L]; [apply draw_of_decr in L; rewrite draw_lnln in L by lra; lra|].
      rewrite L, draw_lnln in H1 by lra. lra. }
    destruct (Rlt_dec 2 (ln (- ln V))); [lra|]. destruct (Rlt_dec (ln (- ln V)) (- 19)); [reflexivity|lra].
  - unfold lin. rewrite (Int_part_unique 0 0) by lra.
    replace (0 - 0) with 0 by ring. rewrite Rmult_0_l, Rplus_0_r.
    assert (E : 3 <= entry lnInvF 0) by (unfold entry; apply Rmult_le_reg_r with (10 ^ 21); [apply p21|];
      unfold Rdiv; rewrite Rmult_assoc, Rinv_l by (apply pow_nonzero; lra); cbn [nth Z.to_nat lnInvF]; lra).
    apply exp_mono in E. replace 3 with (INR 3 * 1) in E by (simpl; ring). rewrite exp_nat in E.
    assert (X := e_lower). assert (Y : (27 / 10) ^ 3 <= exp 1 ^ 3) by (apply pow_incr; lra). nra.
Qed.
(** just below the switch to the power law the energy is larger than just above it *)
Theorem C111_switch_refuted : forall T U, 0 < T -> draw_of (2001 / 1000) <= U < draw_of 2 ->
  U < draw_of (1999 / 1000) /\
  exists e f, classical_energy T U = Ok e /\ classical_energy T (draw_of (1999 / 1000)) = Ok f /\ 3 / 2 * f < e.
Proof.
  intros T U HT [H1 H2]. destruct (draw_of_range (2001 / 1000)) as [P _].
  assert (D1 : draw_of 2 < draw_of (1999 / 1000)) by (apply draw_of_decr; lra).
  assert (D2 : draw_of (1999 / 1000) < draw_of (- 19)) by (apply draw_of_decr; lra).
  split; [lra|]. rewrite low_range by lra.
  destruct (classical_table T (draw_of (1999 / 1000)) ltac:(lra)) as [A A']. rewrite lnln_draw in A, A'.
  eexists. eexists. split; [reflexivity|]. split; [exact A|].
  assert (Lf : lin (entry lnInvF) ((1999 / 1000 + 19) * (999 / (2 + 19))) <= - (4628 / 1000)).
  { destruct (lin_between (entry lnInvF) F_step ((1999 / 1000 + 19) * (999 / (2 + 19))) ltac:(lra)) as [_ L].
    rewrite (Int_part_unique _ 998) in L by lra. eapply Rle_trans; [exact L|].
    unfold entry. apply Rmult_le_reg_r with (10 ^ 21); [apply p21|].
    unfold Rdiv at 1. rewrite Rmult_assoc, Rinv_l by (apply pow_nonzero; lra).
    replace (nth (Z.to_nat 998) lnInvF 0%Z) with (-4629879064442645742000)%Z by (vm_compute; reflexivity). lra. }
  apply exp_mono in Lf.
  assert (Lu : Rpower (draw_of (2001 / 1000)) TWO_OVER_3 <= Rpower U TWO_OVER_3) by (apply Rle_Rpower_l; unfold TWO_OVER_3; lra).
  assert (E2 : exp (2001 / 1000) <= 7406 / 1000).
  { replace (2001 / 1000) with (1 + 1 + 1 / 1000) by field. rewrite !exp_plus.
    assert (X := e_upper). assert (Y := exp_pos 1).
    assert (Z1 : exp (1 / 1000) <= 1000 / 999).
    { assert (K := exp_ge1 (- (1 / 1000))). assert (K2 := exp_pos (1 / 1000)).
      assert (K3 : exp (1 / 1000) * exp (- (1 / 1000)) = 1) by (rewrite <- exp_plus; replace (1 / 1000 + - (1 / 1000)) with 0 by ring; apply exp_0). nra. }
    assert (Z2 : exp 1 * exp 1 <= 73985 / 10000) by nra. assert (0 < exp (1 / 1000)) by apply exp_pos.
    apply Rle_trans with (73985 / 10000 * (1000 / 999)); [apply Rmult_le_compat; nra|lra]. }
  assert (L0 : exp (- (4938 / 1000)) <= Rpower (draw_of (2001 / 1000)) TWO_OVER_3).
  { unfold Rpower, draw_of. rewrite ln_exp. apply exp_mono. unfold TWO_OVER_3. lra. }
  unfold low_branch. destruct (Req_EM_T U 0) as [E|_]; [lra|].
  assert (S : 173 / 100 < sqrt PI).
  { apply Rlt_le_trans with (sqrt 3); [|apply sqrt_le_1_alt; assert (K := PI2_3_2); lra].
    apply Rsqr_incrst_0; [rewrite Rsqr_sqrt by lra; unfold Rsqr; lra|lra|apply sqrt_pos]. }
  assert (G : exp (- (4628 / 1000)) <= 100 / 69 * exp (- (4938 / 1000))).
  { replace (- (4628 / 1000)) with (310 / 1000 + - (4938 / 1000)) by field. rewrite exp_plus.
    apply Rmult_le_compat_r; [apply Rlt_le, exp_pos|].
    assert (K := exp_ge1 (- (310 / 1000))). assert (K2 := exp_pos (310 / 1000)).
    assert (K3 : exp (310 / 1000) * exp (- (310 / 1000)) = 1) by (rewrite <- exp_plus; replace (310 / 1000 + - (310 / 1000)) with 0 by ring; apply exp_0). nra. }
  assert (PX := exp_pos (- (4938 / 1000))).
  replace (3 / 2 * (T * exp (lin (entry lnInvF) ((1999 / 1000 + 19) * (999 / (2 + 19))))))
    with (T * (3 / 2 * exp (lin (entry lnInvF) ((1999 / 1000 + 19) * (999 / (2 + 19)))))) by ring.
  apply Rmult_lt_compat_l; [exact HT|].
  assert (M : 173 / 100 * exp (- (4938 / 1000)) <= sqrt PI * Rpower U TWO_OVER_3) by (apply Rmult_le_compat; lra).
  replace (THREE_OVER_4 * sqrt PI * Rpower U TWO_OVER_3) with (4 / 3 * (sqrt PI * Rpower U TWO_OVER_3)) by (unfold THREE_OVER_4; ring).
  lra.
Qed.

(** the argument of the logarithm of line 377 *)
Definition rel_arg (T u : R) : R := - ln (1 - u) - H0 T.
Lemma rel_table T u : 1 / 10 <= T -> draw53 u -> exp (- 26) <= rel_arg T u ->
  rel_gamma T u = Ok (Some (T * exp (lin (entry lnInvH) ((ln (rel_arg T u) + 30) * (999 / (12 + 30)))))) /\
  0 <= (ln (rel_arg T u) + 30) * (999 / (12 + 30)) < 999.
Proof.
  intros HT Hu Hx. destruct (H0_neg T HT) as [A B]. destruct (ln_draw u Hu) as [C D].
  assert (L26 : - 26 <= ln (rel_arg T u)) by (rewrite <- (ln_exp (- 26)); apply ln_mono; [apply exp_pos|exact Hx]).
  unfold rel_gamma. cbv zeta. fold (rel_arg T u).
  assert (PX := exp_pos (- 26)).
  assert (M := ln_63 (rel_arg T u) ltac:(unfold rel_arg in *; lra)).
  split; [|lra]. destruct (Rlt_dec (rel_arg T u) 0) as [L|_]; [lra|].
  destruct (Req_EM_T (rel_arg T u) 0) as [L|_]; [lra|].
  destruct (Rlt_dec (ln (rel_arg T u)) (- 26)) as [L|_]; [lra|].
  destruct (Rlt_dec 12 (ln (rel_arg T u))) as [N|_]; [lra|].
  rewrite interpolate_ok by lra. reflexivity.
Qed.
Theorem C111_relativistic_partial : forall T u v, 1 / 10 <= T -> draw53 u -> draw53 v -> u <= v -> exp (- 26) <= rel_arg T u ->
  exists g h, rel_gamma T u = Ok (Some g) /\ rel_gamma T v = Ok (Some h) /\ 0 < g <= h.
Proof.
  intros T u v HT Hu Hv Huv Hx. destruct Hv as [V1 V2] eqn:EV. clear EV.
  assert (P53 : 0 < / 2 ^ 53) by (apply Rinv_0_lt_compat, pow_lt; lra).
  assert (X : rel_arg T u <= rel_arg T v).
  { unfold rel_arg. assert (ln (1 - v) <= ln (1 - u)) by (apply ln_mono; lra). lra. }
  destruct (rel_table T u HT Hu Hx) as [A A']. destruct (rel_table T v HT Hv ltac:(lra)) as [B B'].
  eexists. eexists. split; [exact A|]. split; [exact B|]. split; [apply Rmult_lt_0_compat; [lra|apply exp_pos]|].
  apply Rmult_le_compat_l; [lra|]. apply exp_mono.
  assert (L := lin_decreasing (fun i => - entry lnInvH i) ltac:(intros i Hi; assert (K := H_step i Hi); lra)
     ((ln (rel_arg T u) + 30) * (999 / (12 + 30))) ((ln (rel_arg T v) + 30) * (999 / (12 + 30))) ltac:(lra)
     ltac:(apply Rmult_le_compat_r; [lra|]; apply Rplus_le_compat_r, ln_mono; [assert (K := exp_pos (- 26)); lra|exact X]) ltac:(lra)).
  unfold lin in *. lra.
Qed.
Example C111_ex : draw_of 2 < draw_of 1 /\ draw_of 1 <= draw_of 0 /\ draw_of 0 <= draw_of (- 19) /\
  draw_of (2001 / 1000) <= draw_of (20005 / 10000) < draw_of 2.
Proof.
  repeat split; try (apply Rlt_le; apply draw_of_decr; lra); try (apply draw_of_decr; lra).
Qed.

(** * C112: small draws follow the Maxwell-Boltzmann distribution *)
(** For small energies (in units of the temperature) the fraction of particles below the energy x is
    4/(3 sqrt(pi)) x^(3/2). *)
Definition fraction_below (x : R) : R := 4 / (3 * sqrt PI) * Rpower x (3 / 2).
Theorem C112_shape_partial : forall T U, 0 < U -> 8 * U < draw_of 2 ->
  exists e f, classical_energy T U = Ok e /\ classical_energy T (8 * U) = Ok f /\ f = 4 * e.
Proof.
  intros T U H1 H2. rewrite !low_range by lra. eexists. eexists. split; [reflexivity|]. split; [reflexivity|].
  unfold low_branch. destruct (Req_EM_T (8 * U) 0); [lra|]. destruct (Req_EM_T U 0); [lra|].
  assert (E : Rpower (8 * U) TWO_OVER_3 = 4 * Rpower U TWO_OVER_3).
  { rewrite <- Rpower_mult_distr by lra. f_equal. replace 8 with (Rpower 2 3).
    - rewrite Rpower_mult. unfold TWO_OVER_3. replace (3 * (2 / 3)) with (INR 2) by (simpl; field). rewrite Rpower_pow by lra. simpl. ring.
    - replace 3 with (INR 3) by (simpl; ring). rewrite Rpower_pow by lra. simpl. ring. }
  rewrite E. ring.
Qed.
Theorem C112_named_refuted : THREE_OVER_4 <> 3 / 4.
Proof. unfold THREE_OVER_4. lra. Qed.
Theorem C112_fraction_refuted : forall T U, 0 < T -> 0 < U < draw_of 2 ->
  exists x, classical_energy T U = Ok (T * x) /\ 26 / 10 * U < fraction_below x.
Proof.
  intros T U HT HU. rewrite low_range by lra. exists (low_branch U). split; [reflexivity|].
  unfold low_branch, fraction_below. destruct (Req_EM_T U 0); [lra|].
  assert (S : 173 / 100 < sqrt PI).
  { apply Rlt_le_trans with (sqrt 3); [|apply sqrt_le_1_alt; assert (K := PI2_3_2); lra].
    apply Rsqr_incrst_0; [rewrite Rsqr_sqrt by lra; unfold Rsqr; lra|lra|apply sqrt_pos]. }
  set (y := THREE_OVER_4 * sqrt PI). assert (Y : 23 / 10 < y) by (unfold y, THREE_OVER_4; lra).
  assert (PU : 0 < Rpower U TWO_OVER_3) by apply exp_pos.
  rewrite <- (Rpower_mult_distr y) by lra. rewrite Rpower_mult.
  replace (TWO_OVER_3 * (3 / 2)) with 1 by (unfold TWO_OVER_3; field). rewrite (Rpower_1 U) by lra.
  replace (3 / 2) with (1 + / 2) by field. rewrite Rpower_plus, Rpower_1, Rpower_sqrt by lra.
  assert (Q : 15 / 10 < sqrt y).
  { apply Rsqr_incrst_0; [rewrite Rsqr_sqrt by lra; unfold Rsqr; lra|lra|apply sqrt_pos]. }
  replace (4 / (3 * sqrt PI) * (y * sqrt y * U)) with (16 / 9 * sqrt y * U)
    by (unfold y, THREE_OVER_4; field; lra).
  apply Rmult_lt_compat_r; lra.
Qed.
Example C112_ex : 0 < draw_of 3 < draw_of 2.
Proof. split; [apply draw_of_range|apply draw_of_decr; lra]. Qed.

(** * C113: every sampled energy is a number *)
Lemma e26 : / (1 + 3 / (1 / 3000) + 6 / (1 / 3000 * (1 / 3000)) + 6 / (1 / 3000 * (1 / 3000) * (1 / 3000))) >= exp (- 26).
Proof.
  replace (- 26) with (Ropp 26) by lra. rewrite exp_Ropp. apply Rle_ge, Rinv_le_contravar; [field_simplify; lra|].
  replace 26 with (INR 26 * 1) by (rewrite INR_IZR_INZ; simpl; ring). rewrite exp_nat.
  assert (A : (27 / 10) ^ 26 <= exp 1 ^ 26) by (apply pow_incr; assert (E := e_lower); lra).
  eapply Rle_trans; [|exact A]. lra.
Qed.
Theorem C113_gamma_partial : forall T u, 1 / 10 <= T <= 3000 -> draw53 u -> exists g, rel_gamma T u = Ok (Some g) /\ 0 < g.
Proof.
  intros T u [HT HT2] Hu. destruct (ln_draw u Hu) as [C D].
  assert (I : 1 / 3000 <= 1 / T) by (unfold Rdiv; rewrite !Rmult_1_l; apply Rinv_le_contravar; lra).
  assert (L := H0_lower T (1 / 3000) ltac:(lra) ltac:(lra) I). assert (E := e26).
  destruct (rel_table T u HT Hu ltac:(unfold rel_arg; lra)) as [A _].
  eexists. split; [exact A|]. apply Rmult_lt_0_compat; [lra|apply exp_pos].
Qed.
Theorem C113_energy_partial : forall T draws, 1 / 10 <= T <= 3000 -> Forall (fun d => draw53 (fst d)) draws ->
  rel_energy T draws = Ok Running \/ exists e, rel_energy T draws = Ok (Stored (Some e)) /\ - 1 < e.
Proof.
  intros T draws HT. induction draws as [|[u1 u2] l IH]; intros F; [left; reflexivity|].
  apply Forall_cons_iff in F as [F1 F2]. cbn [fst] in F1.
  destruct (C113_gamma_partial T u1 HT F1) as (g & E & P). cbn [rel_energy]. rewrite E. cbn [bind].
  destruct (Rlt_dec (g * g) 1); [right; exists (g - 1); split; [reflexivity|lra]|].
  destruct (Rle_dec (sqrt (1 - 1 / (g * g))) u2); [apply IH, F2|]. right. exists (g - 1). split; [reflexivity|lra].
Qed.
(** at 10 keV the draws up to 10^-12 give NaN, whatever follows *)
Theorem C113_nan_refuted : forall u1 u2 draws, 0 < u1 <= / 10 ^ 12 -> rel_energy (10 ^ 4) ((u1, u2) :: draws) = Ok (Stored None).
Proof.
  intros u1 u2 draws [H1 H2]. cbn [rel_energy].
  assert (P12 : / 10 ^ 12 = 1 / 1000000000000) by (simpl; field).
  assert (HT : 1 / 10 <= 10 ^ 4) by lra.
  destruct (H0_neg (10 ^ 4) HT) as [A _].
  assert (X0 : - H0 (10 ^ 4) <= 1 / 1000000000000).
  { unfold H0. cbv zeta. assert (L := ln_ge2 (1 / 10 ^ 4 + 1 / 2 * (1 / 10 ^ 4) * (1 / 10 ^ 4)) ltac:(lra)).
    rewrite <- Rplus_assoc in L. lra. }
  assert (X1 : 0 <= - ln (1 - u1) <= 2 / 1000000000000).
  { split; [assert (K := ln_le1 (- u1) ltac:(lra)); replace (1 + - u1) with (1 - u1) in K by ring; lra|].
    assert (K := ln_le1 (u1 / (1 - u1))).
    assert (Q : 0 <= u1 / (1 - u1) <= 2 * u1).
    { split; [apply Rmult_le_pos; [lra|apply Rlt_le, Rinv_0_lt_compat; lra]|].
      apply Rmult_le_reg_r with (1 - u1); [lra|]. unfold Rdiv. rewrite Rmult_assoc, Rinv_l by lra. nra. }
    specialize (K ltac:(lra)). replace (1 + u1 / (1 - u1)) with (/ (1 - u1)) in K by (field; lra).
    rewrite ln_Rinv in K by lra. lra. }
  assert (L : ln (- ln (1 - u1) - H0 (10 ^ 4)) < - 26).
  { rewrite <- (ln_exp (- 26)). apply ln_increasing; [lra|].
    apply Rle_lt_trans with (4 / 1000000000000); [lra|]. replace (- 26) with (Ropp 26) by lra. rewrite exp_Ropp.
    replace 26 with (INR 26 * 1) by (rewrite INR_IZR_INZ; simpl; ring). rewrite exp_nat.
    assert (B : exp 1 ^ 26 <= (272 / 100) ^ 26) by (apply pow_incr; assert (E := e_upper); assert (E' := exp_pos 1); lra).
    assert (C : / (272 / 100) ^ 26 <= / exp 1 ^ 26) by (apply Rinv_le_contravar; [apply pow_lt, exp_pos|exact B]).
    eapply Rlt_le_trans; [|exact C]. apply Rmult_lt_reg_r with ((272 / 100) ^ 26); [apply pow_lt; lra|].
    rewrite Rinv_l by (apply pow_nonzero; lra). lra. }
  unfold rel_gamma. cbv zeta. destruct (Rlt_dec (- ln (1 - u1) - H0 (10 ^ 4)) 0); [lra|].
  destruct (Req_EM_T (- ln (1 - u1) - H0 (10 ^ 4)) 0); [lra|].
  destruct (Rlt_dec (ln (- ln (1 - u1) - H0 (10 ^ 4))) (- 26)); [|contradiction].
  destruct (Req_EM_T u1 0); [lra|]. reflexivity.
Qed.
Example C113_ex : 1 / 10 <= 100 <= 3000 /\ Forall (fun d : R * R => draw53 (fst d)) [(1 / 2, 1 / 2)] /\ 0 < / 10 ^ 13 <= / 10 ^ 12.
Proof.
  split; [lra|]. split.
  - constructor; [|constructor]. apply C110_ex.
  - split; [apply Rinv_0_lt_compat, pow_lt; lra|]. apply Rinv_le_contravar; [apply pow_lt; lra|]. apply Rle_pow; [lra|lia].
Qed.

Print Assumptions C110_classical_partial. Print Assumptions C110_classical_refuted. Print Assumptions C110_relativistic.
Print Assumptions C111_table_partial. Print Assumptions C111_low_partial. Print Assumptions C111_tail_refuted.
Print Assumptions C111_switch_refuted. Print Assumptions C111_relativistic_partial.
Print Assumptions C112_shape_partial. Print Assumptions C112_named_refuted. Print Assumptions C112_fraction_refuted.
Print Assumptions C113_gamma_partial. Print Assumptions C113_energy_partial. Print Assumptions C113_nan_refuted.
