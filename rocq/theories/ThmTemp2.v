(** C142, continued: a plasma of 0.1 eV and more.  The energies are drawn by rejection (maxwellJuettner.cpp:371-395), with the
    temperature in eV in the place of the temperature in units of m c^2. *)
From Coq Require Import Reals Lra.
From Verif Require Import Base RndUtil PushModel ParticleModel InitModel MjTable MjModel MjProofs ThmMj ExpFix ThmTemp.
Local Open Scope list_scope.
Open Scope R_scope.

(** ** Specification *)
(** with the first draw [u] the round ends with the energy [e] with probability [a], else there is another round *)
Definition round_ends (T u a e : R) : Prop :=
  0 <= a <= 1 /\ forall u2, 0 <= u2 < 1 ->
    (u2 < a -> rel_energy T [(u, u2)] = Ok (Stored (Some e))) /\ (a <= u2 -> rel_energy T [(u, u2)] = Ok Running).
(** the largest draw *)
Definition top_draw : R := 1 - / 2 ^ 53.
(** the mean of [g e] over the energies at which the rounds end is between [lo] and [hi]: the quotient of the mean of [a g(e)] and
    the mean of [a], for the first draw evenly from [0, top_draw] *)
Definition mean_ended (T : R) (g : R -> R) (lo hi : R) : Prop :=
  exists a e : R -> R, (forall u, 0 <= u <= top_draw -> round_ends T u (a u) (e u)) /\
    exists l h l' h', sums (fun u => Ok (a u * g (e u))) 0 top_draw l h /\ sums (fun u => Ok (a u)) 0 top_draw l' h' /\
      0 <= l /\ 0 < l' /\ lo <= l / h' /\ h / l' <= hi.

(** ** The factor gamma and the probability of acceptance *)
Definition gam (T u : R) : R := match rel_gamma T u with Ok (Some g) => g | _ => 0 end.
Definition acc (T u : R) : R := if Rlt_dec (gam T u * gam T u) 1 then 1 else sqrt (1 - 1 / (gam T u * gam T u)).
Lemma acc_range T u : 0 <= acc T u <= 1.
Proof.
  unfold acc. destruct (Rlt_dec (gam T u * gam T u) 1) as [L|L]; [lra|]. split; [apply sqrt_pos|].
  replace 1 with (sqrt 1) at 3 by apply sqrt_1. 
  assert (0 < 1 / (gam T u * gam T u)) by (apply Rmult_lt_0_compat; [lra|apply Rinv_0_lt_compat; lra]).
  apply sqrt_le_1_alt. lra.
Qed.
Lemma ends T u : 1 / 10 <= T <= 3000 -> 0 <= u <= top_draw -> round_ends T u (acc T u) (gam T u - 1).
Proof.
  intros HT HU. split; [apply acc_range|]. destruct (C113_gamma_partial T u HT HU) as (g & E & P).
  assert (G : gam T u = g) by (unfold gam; rewrite E; reflexivity).
  intros u2 H2. cbn [rel_energy]. rewrite E. cbn [bind]. unfold acc. rewrite G.
  destruct (Rlt_dec (g * g) 1) as [L|L]; [split; [reflexivity|lra]|].
  destruct (Rle_dec (sqrt (1 - 1 / (g * g))) u2) as [K|K]; split; intros; try reflexivity; lra.
Qed.
(** a larger factor is accepted with a larger probability *)
Definition beta (g : R) : R := sqrt (1 - 1 / (g * g)).
Lemma beta_mono g h : 1 <= g -> g <= h -> beta g <= beta h.
Proof.
  intros G H. apply sqrt_le_1_alt. assert (g * g <= h * h) by nra. assert (0 < g * g) by nra.
  assert (1 / (h * h) <= 1 / (g * g)); [|lra]. unfold Rdiv. rewrite !Rmult_1_l. apply Rinv_le_contravar; lra.
Qed.

(** ** Interpolation in the increasing table *)
Definition hlin (x : R) : R := lin (entry lnInvH) x.
Lemma H_opp i : (0 <= i < 999)%Z -> - entry lnInvH (i + 1) < - entry lnInvH i.
Proof. intros I. assert (K := H_step i I). lra. Qed.
Lemma hlin_mono x y : 0 <= x -> x <= y -> y < 999 -> hlin x <= hlin y.
Proof. intros A B C. assert (L := lin_decreasing (fun i => - entry lnInvH i) H_opp x y A B C). unfold hlin, lin in *. lra. Qed.

(** ** The distribution function of the first draw *)
Definition surv (T y : R) : R := exp (- exp y - H0 T).
Lemma arg_between T y z u : 0 <= u <= top_draw -> 1 - surv T y < u < 1 - surv T z -> exp y < rel_arg T u < exp z.
Proof.
  intros HU [A B]. unfold top_draw in HU. assert (P : 0 < / 2 ^ 53) by (apply Rinv_0_lt_compat, pow_lt; lra).
  assert (Sy := exp_pos (- exp y - H0 T)). assert (Sz := exp_pos (- exp z - H0 T)). fold (surv T y) in Sy. fold (surv T z) in Sz.
  assert (LA : ln (1 - u) < ln (surv T y)) by (apply ln_increasing; lra).
  assert (LB : ln (surv T z) < ln (1 - u)) by (apply ln_increasing; lra).
  unfold surv in LA, LB. rewrite ln_exp in LA, LB. unfold rel_arg. lra.
Qed.
Section Q.
(** every cell of the table is divided into [q] parts; [j] counts the parts *)
Variable q : Z.
Hypothesis q_pos : (0 < q)%Z.
Definition at_y (j : Z) : R := IZR (42 * j - 29970 * q) / IZR (999 * q).
Definition at_i (j : Z) : R := IZR j / IZR q.
Lemma at_y_i j : (at_y j + 30) * (999 / (12 + 30)) = at_i j.
Proof using q_pos. assert (Q : 0 < IZR q) by (apply IZR_lt; exact q_pos). unfold at_y, at_i. rewrite minus_IZR, !mult_IZR. field. lra. Qed.
Lemma gam_between T j k u : 1 / 10 <= T -> 0 <= u <= top_draw -> (96 * q <= j)%Z -> (k < 999 * q)%Z ->
  1 - surv T (at_y j) < u < 1 - surv T (at_y k) -> T * exp (hlin (at_i j)) <= gam T u <= T * exp (hlin (at_i k)).
Proof using q_pos.
  intros HT HU J K B. destruct (arg_between T _ _ u HU B) as [A1 A2]. assert (Q : 0 < IZR q) by (apply IZR_lt; exact q_pos).
  assert (Y26 : -26 <= at_y j).
  { unfold at_y. apply Rmult_le_reg_r with (IZR (999 * q)); [apply IZR_lt; lia|].
    replace (IZR (42 * j - 29970 * q) / IZR (999 * q) * IZR (999 * q)) with (IZR (42 * j - 29970 * q)) by (field; apply IZR_neq; lia).
    rewrite <- mult_IZR. apply IZR_le. lia. }
  assert (E26 := exp_mono _ _ Y26).
  destruct (rel_table T u HT HU ltac:(lra)) as [E X]. unfold gam. rewrite E.
  set (x := (ln (rel_arg T u) + 30) * (999 / (12 + 30))) in *.
  assert (PY := exp_pos (at_y j)).
  assert (L1 : at_y j < ln (rel_arg T u)) by (rewrite <- (ln_exp (at_y j)); apply ln_increasing; [apply exp_pos|lra]).
  assert (L2 : ln (rel_arg T u) < at_y k) by (rewrite <- (ln_exp (at_y k)); apply ln_increasing; lra).
  assert (X1 : at_i j <= x) by (rewrite <- at_y_i; unfold x; apply Rmult_le_compat_r; lra).
  assert (X2 : x <= at_i k) by (rewrite <- (at_y_i k); unfold x; apply Rmult_le_compat_r; lra).
  assert (I0 : 0 <= at_i j) by (unfold at_i; apply Rmult_le_pos; [apply IZR_le; lia|apply Rlt_le, Rinv_0_lt_compat, Q]).
  assert (I9 : at_i k < 999).
  { unfold at_i. apply Rmult_lt_reg_r with (IZR q); [exact Q|]. replace (IZR k / IZR q * IZR q) with (IZR k) by (field; lra).
    rewrite <- mult_IZR. apply IZR_lt. lia. }
  split; (apply Rmult_le_compat_l; [lra|]; apply exp_mono, hlin_mono; lra).
Qed.

(** ** Fixed-point bounds; the temperature is [tn / td] *)
Variables tn td : Z.
Definition ylo (j : Z) : Z := ((42 * j - 29970 * q) * one_z / (999 * q))%Z.
Definition it : Z := (td * one_z / tn)%Z.
Definition den : Z := (2 * tn * tn + 2 * tn * td + td * td)%Z.
Definition slo (j : Z) : Z := (elo (- ehi (ylo j + 1) + it) * (2 * tn * tn) / den)%Z.
Definition shi (j : Z) : Z := (ehi (- elo (ylo j) + (it + 1)) * (2 * tn * tn) / den + 1)%Z.
Definition topz : Z := (one_z - 2 ^ 9)%Z.
Definition clampz (z : Z) : Z := Z.max 0 (Z.min topz z).
Definition vlo (j : Z) : Z := clampz (one_z - shi j).
Definition vhi (j : Z) : Z := clampz (one_z - slo j).
Definition hz (j : Z) : Z := 
  ((q * nth (Z.to_nat (j / q)) lnInvH 0 + (j mod q) * (nth (Z.to_nat (j / q + 1)) lnInvH 0 - nth (Z.to_nat (j / q)) lnInvH 0)) * one_z / (q * 10 ^ 21))%Z.
Definition glo (j : Z) : Z := (elo (hz j) * tn / td)%Z.
Definition ghi (j : Z) : Z := (ehi (hz j + 1) * tn / td + 1)%Z.
Definition point_ok (j : Z) : bool := ((0 <? elo (- (ylo j + 1))) && (0 <? elo (- (- elo (ylo j) + (it + 1)))) && (0 <? elo (- (hz j + 1))) && (0 <? glo j))%Z.
(** the bounds on the piece from [j - 1] to [j], with the bounds [g] and [g'] of the factor gamma *)
Definition wl (g : Z) : Z := (if one_z <=? g then Z.sqrt (Z.max 0 (one_z - (one_z * one_z * one_z / (g * g) + 1)) * one_z) else 0)%Z.
Definition wh (g g' : Z) : Z := (if one_z <=? g then Z.sqrt ((one_z - one_z * one_z * one_z / (g' * g')) * one_z) + 1 else one_z)%Z.
Definition nl (g : Z) : Z := (if one_z <=? g then (g - one_z) * wl g / one_z else Z.min 0 (g - one_z))%Z.
Definition nh (g g' : Z) : Z := (if one_z <=? g then (g' - one_z) * wh g g' / one_z + 1 else Z.max 0 (g' - one_z))%Z.
Definition wlo (j : Z) : Z := wl (glo (j - 1)).
Definition whi (j : Z) : Z := wh (glo (j - 1)) (ghi j).
Definition nlo (j : Z) : Z := nl (glo (j - 1)).
Definition nhi (j : Z) : Z := nh (glo (j - 1)) (ghi j).
Definition top_ok (j : Z) : bool := ((0 <=? whi j) && (0 <=? nhi j))%Z.
End Q.
Local Opaque elo ehi one_z.
Section Bounds.
Variables q tn td : Z.
Hypothesis q_pos : (0 < q)%Z.
Hypothesis tn_pos : (0 < tn)%Z.
Hypothesis td_pos : (0 < td)%Z.
Let T : R := IZR tn / IZR td.
Lemma rv_frac a m d : (0 < d)%Z -> rv (a * m / d) <= rv a * (IZR m / IZR d) <= rv (a * m / d + 1).
Proof using.
  intros D. assert (O1 := one_pos). assert (DD : 0 < IZR d) by (apply IZR_lt; exact D).
  replace (rv a * (IZR m / IZR d)) with (IZR (a * m) / IZR d / IZR one_z) by (unfold rv; rewrite mult_IZR; field; lra).
  unfold rv. split; (apply Rmult_le_compat_r; [apply Rlt_le, Rinv_0_lt_compat, O1|]); [apply quo_le, D|apply quo_gt, D].
Qed.
Lemma den_pos : (0 < den tn td)%Z.
Proof using tn_pos td_pos. unfold den. nia. Qed.
Lemma T_inv : IZR td / IZR tn = 1 / T.
Proof using tn_pos td_pos. unfold T. assert (0 < IZR tn) by (apply IZR_lt; exact tn_pos). assert (0 < IZR td) by (apply IZR_lt; exact td_pos). field. lra. Qed.
Lemma surv_eq y : surv T y = exp (- exp y + 1 / T) * (IZR (2 * tn * tn) / IZR (den tn td)).
Proof using tn_pos td_pos.
  assert (A : 0 < IZR tn) by (apply IZR_lt; exact tn_pos). assert (B : 0 < IZR td) by (apply IZR_lt; exact td_pos).
  assert (TP : 0 < 1 / T) by (rewrite <- T_inv; apply Rmult_lt_0_compat; [exact B|apply Rinv_0_lt_compat, A]).
  unfold surv, H0. cbv zeta. set (P := 1 + 1 / T + 1 / 2 * (1 / T) * (1 / T)).
  assert (PP : 0 < P) by (unfold P; nra).
  replace (- exp y - (- (1 / T) + ln P)) with ((- exp y + 1 / T) + - ln P) by ring. rewrite exp_plus, exp_Ropp, exp_ln by exact PP.
  f_equal. unfold P. rewrite <- T_inv. unfold den. rewrite !plus_IZR, !mult_IZR. field.
  assert (N : 0 < IZR tn * IZR tn) by nra. assert (N2 : 0 < IZR tn * IZR td) by nra. repeat split; apply Rgt_not_eq; nra.
Qed.
Lemma surv_bounds j : point_ok q tn td j = true -> rv (slo q tn td j) <= surv T (at_y q j) <= rv (shi q tn td j).
Proof using q_pos tn_pos td_pos.
  intros K. unfold point_ok in K. apply andb_prop in K as [K _]. apply andb_prop in K as [K _]. apply andb_prop in K as [K1 K2]. apply Z.ltb_lt in K1, K2.
  destruct (rv_quo (42 * j - 29970 * q) (999 * q) ltac:(lia)) as [L H]. fold (ylo q j) in L, H. fold (at_y q j) in L, H.
  destruct (rv_quo td tn tn_pos) as [L1 H1]. fold (it tn td) in L1, H1. rewrite T_inv in L1, H1.
  assert (D := den_pos). assert (DD : 0 < IZR (den tn td)) by (apply IZR_lt; exact D).
  assert (F : 0 <= IZR (2 * tn * tn) / IZR (den tn td)) by (apply Rmult_le_pos; [apply IZR_le; lia|apply Rlt_le, Rinv_0_lt_compat, DD]).
  rewrite surv_eq. unfold slo, shi. split.
  - eapply Rle_trans; [apply (rv_frac _ _ _ D)|]. apply Rmult_le_compat_r; [exact F|].
    eapply Rle_trans; [apply elo_spec|]. apply exp_mono. rewrite rv_plus, rv_opp.
    assert (X := ehi_spec _ K1). assert (Y := exp_mono _ _ H). lra.
  - eapply Rle_trans; [|apply (rv_frac _ _ _ D)]. apply Rmult_le_compat_r; [exact F|].
    eapply Rle_trans; [|apply ehi_spec, K2]. apply exp_mono. rewrite rv_plus, rv_opp.
    assert (X := elo_spec (ylo q j)). assert (Y := exp_mono _ _ L). lra.
Qed.
Definition clamp (x : R) : R := Rmax 0 (Rmin top_draw x).
Lemma rv_top : rv topz = top_draw.
Proof using.
  unfold topz. rewrite rv_minus, rv_one. unfold top_draw. f_equal.
  unfold rv. change (IZR one_z) with (IZR (2 ^ 9 * 2 ^ 53)). rewrite mult_IZR, (pow_IZR 2 53). change (Z.of_nat 53) with 53%Z.
  assert (P : 0 < IZR (2 ^ 53)) by (apply IZR_lt; reflexivity). assert (P9 : 0 < IZR (2 ^ 9)) by (apply IZR_lt; reflexivity).
  set (p := IZR (2 ^ 53)) in *. set (p9 := IZR (2 ^ 9)) in *. clearbody p p9. field. lra.
Qed.
Lemma topz_ge : (0 <= topz)%Z.
Proof using. apply Z.leb_le. vm_cast_no_check (eq_refl true). Qed.
Lemma rv_zero : rv 0 = 0.
Proof using. unfold rv. field. apply Rgt_not_eq, one_pos. Qed.
Lemma clamp_mono x y : x <= y -> clamp x <= clamp y.
Proof using. intros H. unfold clamp. apply Rle_max_compat_l, Rle_min_compat_l, H. Qed.
Lemma rv_clamp z : rv (clampz z) = clamp (rv z).
Proof using.
  unfold clampz, clamp. rewrite <- rv_top, <- rv_zero.
  destruct (Z.min_spec topz z) as [[A ->]|[A ->]].
  - rewrite Rmin_left by (apply rv_le; lia). destruct (Z.max_spec 0 topz) as [[B ->]|[B ->]]; [rewrite Rmax_right by (apply rv_le; lia)|rewrite Rmax_left by (apply rv_le; lia)]; reflexivity.
  - rewrite Rmin_right by (apply rv_le; lia). destruct (Z.max_spec 0 z) as [[B ->]|[B ->]]; [rewrite Rmax_right by (apply rv_le; lia)|rewrite Rmax_left by (apply rv_le; lia)]; reflexivity.
Qed.
Definition cut (j : Z) : R := clamp (1 - surv T (at_y q j)).
Lemma cut_bounds j : point_ok q tn td j = true -> rv (vlo q tn td j) <= cut j <= rv (vhi q tn td j).
Proof using q_pos tn_pos td_pos.
  intros K. destruct (surv_bounds j K) as [L H]. unfold vlo, vhi, cut. rewrite !rv_clamp, !rv_minus, rv_one.
  split; apply clamp_mono; lra.
Qed.
Lemma clamp_inside x y u : clamp x < u < clamp y -> x < u < y /\ 0 <= u <= top_draw.
Proof using.
  intros [A B]. unfold clamp in *.
  assert (A1 := Rmax_l 0 (Rmin top_draw x)). assert (A2 := Rmax_r 0 (Rmin top_draw x)).
  assert (TP : 0 <= top_draw) by (rewrite <- rv_top; apply rv_ge, topz_ge).
  assert (U : u < Rmin top_draw y) by (unfold Rmax in B; destruct (Rle_dec 0 (Rmin top_draw y)); lra).
  assert (M1 := Rmin_l top_draw y). assert (M2 := Rmin_r top_draw y).
  assert (A3 : Rmin top_draw x < u) by lra.
  assert (X : x < u) by (unfold Rmin in A3; destruct (Rle_dec top_draw x); lra). lra.
Qed.
Lemma hlin_eq j : (0 <= j)%Z -> hlin (at_i q j) =
  IZR (q * nth (Z.to_nat (j / q)) lnInvH 0%Z + (j mod q) * (nth (Z.to_nat (j / q + 1)) lnInvH 0%Z - nth (Z.to_nat (j / q)) lnInvH 0%Z)) / IZR (q * 10 ^ 21).
Proof using q_pos.
  intros J. assert (Q : 0 < IZR q) by (apply IZR_lt; exact q_pos). unfold hlin, lin.
  assert (M := Z.mod_pos_bound j q q_pos). assert (D := Z.div_mod j q ltac:(lia)).
  assert (DR : IZR j = IZR q * IZR (j / q) + IZR (j mod q)) by (rewrite <- mult_IZR, <- plus_IZR; f_equal; lia).
  assert (M1 : 0 <= IZR (j mod q)) by (apply IZR_le; lia). assert (M2 : IZR (j mod q) < IZR q) by (apply IZR_lt; lia).
  assert (E : at_i q j = IZR (j / q) + IZR (j mod q) / IZR q) by (unfold at_i; rewrite DR; field; lra).
  assert (F1 : 0 <= IZR (j mod q) / IZR q) by (apply Rmult_le_pos; [exact M1|apply Rlt_le, Rinv_0_lt_compat, Q]).
  assert (F2 : IZR (j mod q) / IZR q < 1) by (apply Rmult_lt_reg_r with (IZR q); [exact Q|]; replace (IZR (j mod q) / IZR q * IZR q) with (IZR (j mod q)) by (field; lra); lra).
  rewrite (Int_part_unique (at_i q j) (j / q)) by lra. rewrite E. unfold entry. rewrite plus_IZR, !mult_IZR, minus_IZR, (pow_IZR 10 21).
  change (Z.of_nat 21) with 21%Z. assert (P : 0 < IZR (10 ^ 21)) by (apply IZR_lt; reflexivity). set (p := IZR (10 ^ 21)) in *. clearbody p. field. lra.
Qed.
Lemma g_bounds j : (0 <= j)%Z -> point_ok q tn td j = true -> rv (glo q tn td j) <= T * exp (hlin (at_i q j)) <= rv (ghi q tn td j) /\ (0 < glo q tn td j)%Z.
Proof using q_pos tn_pos td_pos.
  intros J K. unfold point_ok in K. apply andb_prop in K as [K K4]. apply andb_prop in K as [K K3]. apply Z.ltb_lt in K3, K4.
  split; [|exact K4].
  destruct (rv_quo (q * nth (Z.to_nat (j / q)) lnInvH 0%Z + (j mod q) * (nth (Z.to_nat (j / q + 1)) lnInvH 0%Z - nth (Z.to_nat (j / q)) lnInvH 0%Z)) (q * 10 ^ 21) ltac:(lia)) as [L H].
  fold (hz q j) in L, H. rewrite <- hlin_eq in L, H by exact J.
  assert (TP : 0 <= T) by (unfold T; apply Rmult_le_pos; [apply IZR_le; lia|apply Rlt_le, Rinv_0_lt_compat, IZR_lt, td_pos]).
  unfold glo, ghi. rewrite (Rmult_comm T). split.
  - eapply Rle_trans; [apply (rv_frac _ _ _ td_pos)|]. apply Rmult_le_compat_r; [exact TP|]. eapply Rle_trans; [apply elo_spec|]. apply exp_mono, L.
  - eapply Rle_trans; [|apply (rv_frac _ _ _ td_pos)]. apply Rmult_le_compat_r; [exact TP|]. eapply Rle_trans; [|apply ehi_spec, K3]. apply exp_mono, H.
Qed.
Lemma inv_sq g : (0 < g)%Z -> rv (one_z * one_z * one_z / (g * g)) <= 1 / (rv g * rv g) <= rv (one_z * one_z * one_z / (g * g) + 1).
Proof using.
  intros G. assert (O1 := one_pos). assert (GG : 0 < IZR g) by (apply IZR_lt; exact G).
  destruct (rv_frac (one_z * one_z) one_z (g * g) ltac:(nia)) as [L H].
  replace (1 / (rv g * rv g)) with (rv (one_z * one_z) * (IZR one_z / IZR (g * g))); [split; assumption|].
  unfold rv. rewrite !mult_IZR. field. lra.
Qed.
Lemma rv_sqrt z : (0 <= z)%Z -> rv (Z.sqrt (z * one_z)) <= sqrt (rv z) <= rv (Z.sqrt (z * one_z) + 1).
Proof using.
  intros Z0. assert (O1 := one_pos). assert (OZ : (0 < one_z)%Z) by reflexivity.
  assert (P : (0 <= z * one_z)%Z) by nia. destruct (Z.sqrt_spec (z * one_z) P) as [A B]. assert (S0 := Z.sqrt_nonneg (z * one_z)).
  set (s := Z.sqrt (z * one_z)) in *. clearbody s. unfold Z.succ in B.
  assert (E : rv2 (z * one_z) = rv z) by (rewrite rv2_mult, rv_one; ring).
  assert (A' : rv s * rv s <= rv z) by (rewrite <- rv2_mult, <- E; apply rv2_le; lia).
  assert (B' : rv z <= rv (s + 1) * rv (s + 1)) by (rewrite <- rv2_mult, <- E; apply rv2_le; lia).
  assert (V := rv_ge s S0). assert (W := rv_ge (s + 1) ltac:(lia)). split.
  - rewrite <- (sqrt_square (rv s) V). apply sqrt_le_1_alt, A'.
  - rewrite <- (sqrt_square (rv (s + 1)) W). apply sqrt_le_1_alt, B'.
Qed.
Lemma rv_inj a b : rv a <= rv b -> (a <= b)%Z.
Proof using.
  intros H. apply le_IZR. assert (O1 := one_pos). unfold rv in H. apply Rmult_le_reg_r with (/ IZR one_z); [apply Rinv_0_lt_compat, O1|exact H].
Qed.
Lemma rv_prod a w : rv (a * w / one_z) <= rv a * rv w <= rv (a * w / one_z + 1).
Proof using. apply (rv_frac a w one_z). reflexivity. Qed.
Lemma values g g' x : (0 < g)%Z -> rv g <= x <= rv g' ->
  (forall a, a = (if Rlt_dec (x * x) 1 then 1 else sqrt (1 - 1 / (x * x))) ->
   rv (wl g) <= a <= rv (wh g g') /\ rv (nl g) <= a * (x - 1) <= rv (nh g g')).
Proof using.
  intros G [X1 X2] a A. assert (GR : 0 < rv g) by (unfold rv; apply Rmult_lt_0_compat; [apply IZR_lt, G|apply Rinv_0_lt_compat, one_pos]).
  unfold nl, nh, wl, wh. destruct (Z.leb_spec one_z g) as [O|O].
  - assert (O' := rv_le _ _ O). rewrite rv_one in O'.
    destruct (Rlt_dec (x * x) 1) as [L|_]; [nra|]. change (sqrt (1 - 1 / (x * x))) with (beta x) in A.
    destruct (inv_sq g G) as [I1 I2].
    assert (G' : (0 < g')%Z) by (assert (K := rv_inj g g' ltac:(lra)); lia). destruct (inv_sq g' G') as [J1 J2].
    set (z := Z.max 0 (one_z - (one_z * one_z * one_z / (g * g) + 1))). set (z' := (one_z - one_z * one_z * one_z / (g' * g'))%Z).
    assert (B1 : 0 <= 1 - 1 / (rv g * rv g)).
    { assert (1 / (rv g * rv g) <= 1); [|lra]. unfold Rdiv. rewrite Rmult_1_l, <- Rinv_1. apply Rinv_le_contravar; nra. }
    assert (B2 : 0 <= 1 - 1 / (rv g' * rv g')).
    { assert (1 / (rv g' * rv g') <= 1); [|lra]. unfold Rdiv. rewrite Rmult_1_l, <- Rinv_1. apply Rinv_le_contravar; nra. }
    assert (Z1 : rv z <= 1 - 1 / (rv g * rv g)) by (apply rv_max; [rewrite rv_minus, rv_one; lra|exact B1]).
    assert (Z2 : 1 - 1 / (rv g' * rv g') <= rv z') by (unfold z'; rewrite rv_minus, rv_one; lra).
    assert (Z0 : (0 <= z)%Z) by (unfold z; lia). assert (Z0' : (0 <= z')%Z) by (apply rv_inj; rewrite rv_zero; lra).
    destruct (rv_sqrt z Z0) as [S1 _]. destruct (rv_sqrt z' Z0') as [_ S2].
    assert (W1 : rv (Z.sqrt (z * one_z)) <= a).
    { apply Rle_trans with (1 := S1). apply Rle_trans with (beta (rv g)); [apply sqrt_le_1_alt, Z1|]. rewrite A. apply beta_mono; lra. }
    assert (W2 : a <= rv (Z.sqrt (z' * one_z) + 1)).
    { apply Rle_trans with (2 := S2). apply Rle_trans with (beta (rv g')); [|apply sqrt_le_1_alt, Z2]. rewrite A. apply beta_mono; lra. }
    split; [split; assumption|].
    destruct (rv_prod (g - one_z) (Z.sqrt (z * one_z))) as [P1 _]. destruct (rv_prod (g' - one_z) (Z.sqrt (z' * one_z) + 1)) as [_ P2].
    rewrite rv_minus, rv_one in P1, P2.
    assert (V := rv_ge _ (Z.sqrt_nonneg (z * one_z))). assert (V' : 0 <= a) by (rewrite A; apply sqrt_pos). split.
    + apply Rle_trans with (1 := P1). rewrite Rmult_comm. apply Rmult_le_compat; lra.
    + apply Rle_trans with (2 := P2). rewrite Rmult_comm. apply Rmult_le_compat; lra.
  - assert (R01 : 0 <= a <= 1).
    { rewrite A. destruct (Rlt_dec (x * x) 1) as [L|L]; [lra|]. split; [apply sqrt_pos|].
      assert (0 < 1 / (x * x)) by (apply Rmult_lt_0_compat; [lra|apply Rinv_0_lt_compat; lra]).
      rewrite <- sqrt_1 at 3. apply sqrt_le_1_alt. lra. }
    rewrite rv_zero, rv_one. split; [exact R01|]. split.
    + destruct (Z.min_spec 0 (g - one_z)) as [[K ->]|[K ->]]; [lia|]. rewrite rv_minus, rv_one.
      assert (D : rv g - 1 <= 0) by (assert (E := rv_le g one_z ltac:(lia)); rewrite rv_one in E; lra). nra.
    + destruct (Rle_lt_dec x 1) as [X|X].
      * apply Rle_trans with 0; [nra|]. apply rv_ge. lia.
      * apply Rle_trans with (rv (g' - one_z)); [rewrite rv_minus, rv_one; nra|apply rv_le; lia].
Qed.
Lemma piece_values j u : 1 / 10 <= T -> (96 * q < j)%Z -> (j < 999 * q)%Z -> point_ok q tn td (j - 1) = true -> point_ok q tn td j = true ->
  cut (j - 1) < u < cut j ->
  rv (wlo q tn td j) <= acc T u <= rv (whi q tn td j) /\ rv (nlo q tn td j) <= acc T u * (gam T u - 1) <= rv (nhi q tn td j).
Proof using q_pos tn_pos td_pos.
  intros HT J1 J2 K1 K2 H. destruct (clamp_inside _ _ _ H) as [B U].
  assert (G := gam_between q q_pos T (j - 1) j u HT U ltac:(lia) J2 B).
  destruct (g_bounds (j - 1) ltac:(lia) K1) as [[G1 _] P1]. destruct (g_bounds j ltac:(lia) K2) as [[_ G2] _].
  apply (values (glo q tn td (j - 1)) (ghi q tn td j) (gam T u) P1 ltac:(lra)). reflexivity.
Qed.
Definition all_points (J : Z) (n : nat) : bool :=
  forallb (fun i => point_ok q tn td (J - Z.of_nat i)) (seq 0 (S n)) && forallb (fun i => top_ok q tn td (J - Z.of_nat i)) (seq 0 n) &&
  ((topz <=? vlo q tn td J) && (vhi q tn td (J - Z.of_nat n) <=? 0) && (J <? 999 * q) && (96 * q <=? J - Z.of_nat n))%Z.
Definition back (g : Z -> Z) (J : Z) (i : nat) : Z := g (J - Z.of_nat i)%Z.
Definition sum_lo (g : Z -> Z) (J : Z) (n : nat) : Z := low_sum (back (vlo q tn td) J) (back (vhi q tn td) J) (back g J) n.
Definition sum_hi (g : Z -> Z) (J : Z) (n : nat) : Z := high_sum (back (vlo q tn td) J) (back (vhi q tn td) J) (back g J) n.
Lemma clamp_range x : 0 <= clamp x <= top_draw.
Proof using.
  assert (TP : 0 <= top_draw) by (rewrite <- rv_top; apply rv_ge, topz_ge). unfold clamp. split; [apply Rmax_l|].
  apply Rmax_lub; [exact TP|apply Rmin_l].
Qed.
Lemma rel_sums J n : 1 / 10 <= T -> all_points J n = true ->
  exists l h l' h', sums (fun u => Ok (acc T u * (gam T u - 1))) 0 top_draw l h /\ sums (fun u => Ok (acc T u)) 0 top_draw l' h' /\
    rv2 (sum_lo (nlo q tn td) J n) <= l /\ h <= rv2 (sum_hi (nhi q tn td) J n) /\
    rv2 (sum_lo (wlo q tn td) J n) <= l' /\ h' <= rv2 (sum_hi (whi q tn td) J n).
Proof using q_pos tn_pos td_pos.
  intros HT H. unfold all_points in H. apply andb_prop in H as [H H3]. apply andb_prop in H as [H1 H2].
  apply andb_prop in H3 as [H3 B4]. apply andb_prop in H3 as [H3 B3]. apply andb_prop in H3 as [B1 B2].
  apply Z.leb_le in B1, B2, B4. apply Z.ltb_lt in B3. rewrite forallb_forall in H1, H2.
  assert (OK : forall i, (i <= n)%nat -> point_ok q tn td (J - Z.of_nat i) = true) by (intros i I; apply H1, in_seq; lia).
  assert (TOP : forall i, (i < n)%nat -> (0 <= whi q tn td (J - Z.of_nat i))%Z /\ (0 <= nhi q tn td (J - Z.of_nat i))%Z).
  { intros i I. specialize (H2 i ltac:(apply in_seq; lia)). unfold top_ok in H2. apply andb_prop in H2 as [X Y]. apply Z.leb_le in X, Y. split; assumption. }
  set (u := fun i : nat => cut (J - Z.of_nat i)).
  assert (U0 : u O = top_draw).
  { unfold u. replace (J - Z.of_nat 0)%Z with J by lia. destruct (cut_bounds J) as [L _]; [specialize (OK 0%nat ltac:(lia)); replace (J - Z.of_nat 0)%Z with J in OK by lia; exact OK|].
    assert (R := clamp_range (1 - surv T (at_y q J))). fold (cut J) in R. apply rv_le in B1. rewrite rv_top in B1. lra. }
  assert (UN : u n = 0).
  { unfold u. destruct (cut_bounds (J - Z.of_nat n) (OK n ltac:(lia))) as [_ L].
    assert (R := clamp_range (1 - surv T (at_y q (J - Z.of_nat n)))). fold (cut (J - Z.of_nat n)) in R. apply rv_le in B2. rewrite rv_zero in B2. lra. }
  assert (DEC : forall i, (i < n)%nat -> u (S i) <= u i).
  { intros i I. unfold u, cut. apply clamp_mono.
    assert (Y : at_y q (J - Z.of_nat (S i)) <= at_y q (J - Z.of_nat i)).
    { unfold at_y. apply Rmult_le_compat_r; [apply Rlt_le, Rinv_0_lt_compat, IZR_lt; lia|apply IZR_le; lia]. }
    apply exp_mono in Y. assert (Z : surv T (at_y q (J - Z.of_nat i)) <= surv T (at_y q (J - Z.of_nat (S i)))) by (apply exp_mono; lra). lra. }
  assert (BND : forall i, (i <= n)%nat -> rv (back (vlo q tn td) J i) <= u i <= rv (back (vhi q tn td) J i)) by (intros i I; apply cut_bounds, OK, I).
  assert (VAL : forall i x, (i < n)%nat -> u (S i) < x < u i ->
    rv (wlo q tn td (J - Z.of_nat i)) <= acc T x <= rv (whi q tn td (J - Z.of_nat i)) /\
    rv (nlo q tn td (J - Z.of_nat i)) <= acc T x * (gam T x - 1) <= rv (nhi q tn td (J - Z.of_nat i))).
  { intros i x I X. apply piece_values; [exact HT|lia|lia| |apply OK; lia|].
    - replace (J - Z.of_nat i - 1)%Z with (J - Z.of_nat (S i))%Z by lia. apply OK. lia.
    - replace (J - Z.of_nat i - 1)%Z with (J - Z.of_nat (S i))%Z by lia. exact X. }
  destruct (build (back (vlo q tn td) J) (back (vhi q tn td) J) (back (nlo q tn td) J) (back (nhi q tn td) J)
    (fun u => Ok (acc T u * (gam T u - 1))) u n DEC BND) as (l & h & S1 & L1 & L2).
  { intros i I. apply (TOP i I). }
  { intros i I x X. eexists. split; [reflexivity|]. apply (VAL i x I X). }
  destruct (build (back (vlo q tn td) J) (back (vhi q tn td) J) (back (wlo q tn td) J) (back (whi q tn td) J)
    (fun u => Ok (acc T u)) u n DEC BND) as (l' & h' & S2 & L3 & L4).
  { intros i I. apply (TOP i I). }
  { intros i I x X. eexists. split; [reflexivity|]. apply (VAL i x I X). }
  rewrite U0, UN in S1, S2. exists l, h, l', h'. split; [exact S1|]. split; [exact S2|]. split; [exact L1|]. split; [exact L2|]. split; assumption.
Qed.
End Bounds.

Lemma sums_lh f a b l h : sums f a b l h -> l <= h.
Proof.
  induction 1 as [a|a b c m M lo hi [AB|<-] P S IH]; [lra| |lra].
  destruct (P ((a + b) / 2) ltac:(lra)) as (e & _ & L & H). nra.
Qed.
(** ** The end of the check: the mean energy is between [lo / 1000] and [hi / 1000] *)
Definition quotient (nl nh wl wh lo hi : Z) : bool := ((0 <=? nl) && (0 <? wl) && (lo * wh <=? 1000 * nl) && (1000 * nh <=? hi * wl) && (0 <=? lo) && (0 <=? hi))%Z.
Lemma quotient_spec nl nh wl wh lo hi l h l' h' : quotient nl nh wl wh lo hi = true -> rv2 nl <= l -> h <= rv2 nh -> rv2 wl <= l' -> h' <= rv2 wh -> l' <= h' ->
  0 <= l /\ 0 < l' /\ IZR lo / 1000 <= l / h' /\ h / l' <= IZR hi / 1000.
Proof.
  unfold quotient. intros Q A B C D E. apply andb_prop in Q as [Q Q6]. apply andb_prop in Q as [Q Q5]. apply andb_prop in Q as [Q Q4]. apply andb_prop in Q as [Q Q3]. apply andb_prop in Q as [Q1 Q2].
  apply Z.leb_le in Q1, Q3, Q4, Q5, Q6. apply Z.ltb_lt in Q2. assert (O1 := one_pos).
  assert (RZ : forall k z, rv2 (k * z) = IZR k * rv2 z) by (intros k z; unfold rv2, rv; rewrite mult_IZR; field; lra).
  apply rv2_le in Q1, Q3, Q4. rewrite !RZ in Q3, Q4. apply IZR_le in Q5, Q6.
  assert (Z2 : rv2 0 = 0) by (unfold rv2; rewrite rv_zero; field; lra). rewrite Z2 in Q1.
  assert (W : 0 < rv2 wl) by (unfold rv2, rv; apply Rmult_lt_0_compat; [apply Rmult_lt_0_compat; [apply IZR_lt, Q2|]|]; apply Rinv_0_lt_compat, O1).
  split; [lra|]. split; [lra|]. split.
  - apply Rmult_le_reg_r with h'; [lra|]. replace (l / h' * h') with l by (field; lra). nra.
  - apply Rmult_le_reg_r with l'; [lra|]. replace (h / l' * l') with h by (field; lra). nra.
Qed.
Definition check (q tn td J : Z) (n : nat) (lo hi : Z) : bool :=
  all_points q tn td J n &&
  quotient (sum_lo q tn td (nlo q tn td) J n) (sum_hi q tn td (nhi q tn td) J n) (sum_lo q tn td (wlo q tn td) J n) (sum_hi q tn td (whi q tn td) J n) lo hi.
Lemma check_spec q tn td J n lo hi k : (0 < q)%Z -> (0 < tn)%Z -> (0 < td)%Z -> 1 / 10 <= IZR tn / IZR td <= 3000 -> check q tn td J n lo hi = true -> 0 <= k ->
  mean_ended (IZR tn / IZR td) (fun e => k * e) (k * (IZR lo / 1000)) (k * (IZR hi / 1000)).
Proof.
  intros Q TN TD HT C K. unfold check in C. apply andb_prop in C as [C1 C2].
  destruct (rel_sums q tn td Q TN TD J n ltac:(lra) C1) as (l & h & l' & h' & S1 & S2 & A & B & C & D).
  exists (acc (IZR tn / IZR td)), (fun u => gam (IZR tn / IZR td) u - 1). split; [intros u U; apply ends; assumption|].
  destruct (quotient_spec _ _ _ _ _ _ l h l' h' C2 A B C D (sums_lh _ _ _ _ _ S2)) as (E1 & E2 & E3 & E4). assert (E5 := sums_lh _ _ _ _ _ S2).
  exists (k * l), (k * h), l', h'. split; [|split; [exact S2|]].
  - refine (sums_scale _ _ k K _ 0 top_draw l h S1). intros u e E. injection E as <-. f_equal. ring.
  - split; [nra|]. split; [exact E2|]. unfold Rdiv in *. split; rewrite Rmult_assoc; apply Rmult_le_compat_l; assumption.
Qed.
(** the same check with every number computed once *)
Definition point2 (q tn td J : Z) (i : nat) : Z * Z * Z * Z * bool :=
  (let j := J - Z.of_nat i in let y := ylo q j in let h := hz q j in let b := 2 * tn * tn in let d := den tn td in let t := it tn td in
   let a := elo (- (y + 1)) in let c := elo (- (- elo y + (t + 1))) in let e := elo (- (h + 1)) in let g := elo h * tn / td in
   (clampz (one_z - ((one_z * one_z / c + 1) * b / d + 1)), clampz (one_z - elo (- (one_z * one_z / a + 1) + t) * b / d),
    g, (one_z * one_z / e + 1) * tn / td + 1, (0 <? a) && (0 <? c) && (0 <? e) && (0 <? g)))%Z.
Definition piece2 (p q : Z * Z * Z * Z * bool) : Z * Z * Z * Z * bool :=
  match p, q with (u, v, _, g', _), (u', v', g, _, _) =>
    let s := Z.max 0 (u - v') in let l := v - u' in let w := wl g in let w' := wh g g' in
    let n := if one_z <=? g then (g - one_z) * w / one_z else Z.min 0 (g - one_z) in
    let n' := if one_z <=? g then (g' - one_z) * w' / one_z + 1 else Z.max 0 (g' - one_z) in
    (lowt n s l, n' * l, lowt w s l, w' * l, (0 <=? w') && (0 <=? n'))
  end%Z.
Definition n_low (p : Z * Z * Z * Z * bool) : Z := fst (fst (fst (fst p))).
Definition n_high (p : Z * Z * Z * Z * bool) : Z := snd (fst (fst (fst p))).
Definition w_low (p : Z * Z * Z * Z * bool) : Z := snd (fst (fst p)).
Definition w_high (p : Z * Z * Z * Z * bool) : Z := snd (fst p).
Definition fin2 (q J : Z) (n : nat) (lo hi : Z) (p : Z * Z * Z * Z * bool) (ps ts : list (Z * Z * Z * Z * bool)) : bool :=
  (forallb snd ts && ((topz <=? n_low p) && (n_high (last ps p) <=? 0) && (J <? 999 * q) && (96 * q <=? J - Z.of_nat n))%Z) &&
  quotient (zsum n_low ts) (zsum n_high ts) (zsum w_low ts) (zsum w_high ts) lo hi.
Definition check2 (q tn td J : Z) (n : nat) (lo hi : Z) : bool := points (point2 q tn td J) n snd piece2 (fin2 q J n lo hi).
Lemma point2_eq q tn td J i : point2 q tn td J i =
  (back (vlo q tn td) J i, back (vhi q tn td) J i, glo q tn td (J - Z.of_nat i), ghi q tn td (J - Z.of_nat i), point_ok q tn td (J - Z.of_nat i)).
Proof. unfold back, vlo, vhi, slo, shi, point_ok, glo, ghi, point2. cbv zeta. rewrite !ehi_eq. reflexivity. Qed.
Lemma piece2_eq q tn td J i : piece2 (point2 q tn td J i) (point2 q tn td J (S i)) =
  (low_term (back (vlo q tn td) J) (back (vhi q tn td) J) (back (nlo q tn td) J) i, high_term (back (vlo q tn td) J) (back (vhi q tn td) J) (back (nhi q tn td) J) i,
   low_term (back (vlo q tn td) J) (back (vhi q tn td) J) (back (wlo q tn td) J) i, high_term (back (vlo q tn td) J) (back (vhi q tn td) J) (back (whi q tn td) J) i,
   top_ok q tn td (J - Z.of_nat i)).
Proof.
  rewrite !point2_eq. unfold low_term, high_term, top_ok, back, wlo, whi, nlo, nhi. replace (J - Z.of_nat i - 1)%Z with (J - Z.of_nat (S i))%Z by lia. reflexivity.
Qed.
Lemma last_map {A B : Type} (f : A -> B) l p : last (map f l) (f p) = f (last l p).
Proof. induction l as [|a [|b l] IH]; [reflexivity..|]. exact IH. Qed.
Lemma last_seq n : last (seq 1 n) O = n.
Proof. destruct n as [|n]; [reflexivity|]. rewrite seq_S, last_last. lia. Qed.
Lemma check2_sound q tn td J n lo hi : check2 q tn td J n lo hi = true -> check q tn td J n lo hi = true.
Proof.
  intros H. destruct (points_spec _ _ _ _ _ H) as [H1 H2]. unfold fin2 in H2. apply andb_prop in H2 as [H2 H4]. apply andb_prop in H2 as [H2 H3].
  unfold check, all_points. apply andb_true_intro. split; [apply andb_true_intro; split; [apply andb_true_intro; split|]|].
  - rewrite forallb_forall. intros i I. apply in_seq in I. specialize (H1 i ltac:(lia)). rewrite point2_eq in H1. exact H1.
  - rewrite forallb_map, forallb_forall in H2. rewrite forallb_forall. intros i I. specialize (H2 i I). rewrite piece2_eq in H2. exact H2.
  - rewrite (last_map (point2 q tn td J)), last_seq, !point2_eq in H3. unfold n_low, n_high, back in H3. cbn [fst snd] in H3.
    replace (J - Z.of_nat 0)%Z with J in H3 by lia. exact H3.
  - unfold sum_lo, sum_hi. set (t := fun i => piece2 (point2 q tn td J i) (point2 q tn td J (S i))) in *.
    rewrite (low_list _ _ (back (nlo q tn td) J) n_low t), (high_list _ _ (back (nhi q tn td) J) n_high t),
      (low_list _ _ (back (wlo q tn td) J) w_low t), (high_list _ _ (back (whi q tn td) J) w_high t); [exact H4|..]; intros i; unfold t; rewrite piece2_eq; reflexivity.
Qed.
Local Transparent elo ehi one_z.
Lemma check_1 : check 1 1 1 801 147 2315 2425 = true.
Proof. apply check2_sound. vm_cast_no_check (eq_refl true). Qed.
Lemma check_01 : check 4 1 10 3212 190 155 181 = true.
Proof. apply check2_sound. vm_cast_no_check (eq_refl true). Qed.
Lemma high_entry : (point_ok 1 1 1 814 && (ghi 1 1 1 814 <=? 80 * one_z) && (63 * one_z <=? elo (ylo 1 814)))%Z = true.
Proof. vm_cast_no_check (eq_refl true). Qed.
Local Opaque elo ehi one_z.
Lemma energies_below T u : 1 / 10 <= T <= 3000 -> 0 <= u <= top_draw -> gam T u - 1 <= 80 * T.
Proof.
  intros HT HU. assert (Q := high_entry). apply andb_prop in Q as [Q Q3]. apply andb_prop in Q as [Q1 Q2]. apply Z.leb_le in Q2, Q3.
  destruct (H0_neg T ltac:(lra)) as [A B]. destruct (ln_draw u HU) as [C D].
  destruct (C113_gamma_partial T u HT HU) as (g & E & P).
  assert (I : 1 / 3000 <= 1 / T) by (unfold Rdiv; rewrite !Rmult_1_l; apply Rinv_le_contravar; lra).
  assert (L := H0_lower T (1 / 3000) ltac:(lra) ltac:(lra) I). assert (E26 := e26).
  destruct (rel_table T u ltac:(lra) HU ltac:(unfold rel_arg; lra)) as [G X]. unfold gam. rewrite G.
  set (x := (ln (rel_arg T u) + 30) * (999 / (12 + 30))) in *.
  assert (O1 := one_pos).
  assert (R63 : forall k, rv (k * one_z) = IZR k) by (intros k; unfold rv; rewrite mult_IZR; field; lra).
  assert (EY : 63 <= exp (at_y 1 814)).
  { apply rv_le in Q3. rewrite R63 in Q3. apply Rle_trans with (1 := Q3). eapply Rle_trans; [apply elo_spec|]. apply exp_mono.
    destruct (rv_quo (42 * 814 - 29970 * 1) (999 * 1) ltac:(lia)) as [Y _]. exact Y. }
  assert (PX := exp_pos (- 26)).
  assert (LX : ln (rel_arg T u) <= at_y 1 814).
  { rewrite <- (ln_exp (at_y 1 814)). apply ln_mono; unfold rel_arg in *; lra. }
  assert (XI : x <= at_i 1 814) by (rewrite <- (at_y_i 1 ltac:(lia)); unfold x; apply Rmult_le_compat_r; lra).
  assert (I814 : at_i 1 814 < 999) by (unfold at_i; lra).
  assert (HM := hlin_mono x (at_i 1 814) ltac:(lra) XI I814).
  destruct (g_bounds 1 1 1 ltac:(lia) ltac:(lia) ltac:(lia) 814 ltac:(lia) Q1) as [[_ GB] _].
  apply rv_le in Q2. rewrite R63 in Q2. apply exp_mono in HM. fold (hlin x).
  assert (M80 : exp (hlin x) <= 80) by lra. assert (T * exp (hlin x) <= T * 80) by (apply Rmult_le_compat_l; lra). lra.
Qed.
(** ** The mean kinetic energy of a plasma of at least 0.1 eV.  (Energies below zero, C113, would give velocities that are not
    numbers; they count here with the mean of the others.) *)
Definition mean_kinetic_hot (c lim mass T lo hi : R) : Prop :=
  exists g, (forall e, 0 <= e <= 80 * T -> mean3 (fun d0 d1 d2 => kinetic mass (thermal_velocity c lim mass e d0 d1 d2)) (g e)) /\
            (forall u u2 e, 0 <= u <= top_draw -> rel_energy T [(u, u2)] = Ok (Stored (Some e)) -> e <= 80 * T) /\
            mean_ended T g lo hi.
Lemma hot c lim mass T lo hi q tn td J n lo' hi' : 0 < c -> 0 < mass -> (0 < q)%Z -> (0 < tn)%Z -> (0 < td)%Z -> T = IZR tn / IZR td -> 1 / 10 <= T <= 3000 ->
  80 * T * EL_CHARGE / (mass * c) <= lim -> check q tn td J n lo' hi' = true ->
  lo <= half * EL_CHARGE * (IZR lo' / 1000) -> half * EL_CHARGE * (IZR hi' / 1000) <= hi -> mean_kinetic_hot c lim mass T lo hi.
Proof.
  intros HC M Q TN TD ET HT L CH A B. assert (P := el_pos). assert (HV := half_value). exists (fun e => half * EL_CHARGE * e). split; [|split].
  - intros e HE. replace (half * EL_CHARGE * e) with (half * (e * EL_CHARGE)) by ring. apply C142_energy; [exact M|lra|].
    apply Rle_trans with (2 := L). unfold Rdiv. apply Rmult_le_compat_r; [apply Rlt_le, Rinv_0_lt_compat, Rmult_lt_0_compat; assumption|].
    apply Rmult_le_compat_r; lra.
  - intros u u2 e HU E. assert (G := energies_below T u HT HU). destruct (C113_gamma_partial T u HT HU) as (g & EG & _).
    unfold gam in G. rewrite EG in G. cbn [rel_energy] in E. rewrite EG in E. cbn [bind] in E.
    destruct (Rlt_dec (g * g) 1); [injection E as <-; exact G|]. destruct (Rle_dec (sqrt (1 - 1 / (g * g))) u2); [discriminate E|injection E as <-; exact G].
  - assert (K : 0 <= half * EL_CHARGE) by (apply Rmult_le_pos; lra).
    destruct (check_spec q tn td J n lo' hi' (half * EL_CHARGE) Q TN TD ltac:(rewrite <- ET; exact HT) CH K) as (a & e & R1 & l & h & l' & h' & S1 & S2 & P1 & P2 & P3 & P4).
    rewrite <- ET in *. exists a, e. split; [exact R1|]. exists l, h, l', h'. split; [exact S1|]. split; [exact S2|]. split; [exact P1|]. split; [exact P2|]. split; lra.
Qed.
(** the electrons of the default configuration, 1 eV: about 79% of the energy of the temperature *)
Theorem C142_electrons_refuted : forall c lim mass, 0 < c -> 0 < mass -> 80 * EL_CHARGE / (mass * c) <= lim ->
  mean_kinetic_hot c lim mass 1 (77 / 100 * (3 / 2 * EL_CHARGE)) (81 / 100 * (3 / 2 * EL_CHARGE)).
Proof.
  intros c lim mass HC M L. assert (P := el_pos). assert (HV := half_value). assert (HV' : 1 / 2 - 1 / 100000 <= half) by lra.
  apply (hot c lim mass 1 _ _ 1 1 1 801 147 2315 2425); try lia; try lra; try exact check_1; try assumption.
  - assert (X : 77 / 100 * (3 / 2) <= half * (2315 / 1000)) by lra. apply (Rmult_le_compat_l EL_CHARGE) in X; lra.
  - assert (X : half * (2425 / 1000) <= 81 / 100 * (3 / 2)) by lra. apply (Rmult_le_compat_l EL_CHARGE) in X; lra.
Qed.
(** the ions of the default configuration, 0.1 eV: about 55% *)
Theorem C142_ions_refuted : forall c lim mass, 0 < c -> 0 < mass -> 8 * EL_CHARGE / (mass * c) <= lim ->
  mean_kinetic_hot c lim mass (1 / 10) (51 / 100 * (3 / 2 * (1 / 10 * EL_CHARGE))) (61 / 100 * (3 / 2 * (1 / 10 * EL_CHARGE))).
Proof.
  intros c lim mass HC M L. assert (P := el_pos). assert (HV := half_value). assert (HV' : 1 / 2 - 1 / 100000 <= half) by lra.
  apply (hot c lim mass (1 / 10) _ _ 4 1 10 3212 190 155 181); try lia; try lra; try exact check_01; try assumption.
  - assert (X : 51 / 100 * (3 / 2 * (1 / 10)) <= half * (155 / 1000)) by lra. apply (Rmult_le_compat_l EL_CHARGE) in X; lra.
  - assert (X : half * (181 / 1000) <= 61 / 100 * (3 / 2 * (1 / 10))) by lra. apply (Rmult_le_compat_l EL_CHARGE) in X; lra.
Qed.
Example C142_default_ex :
  mean_kinetic_hot (3 * 10 ^ 8) (15 * 10 ^ 6) (91 / 10 ^ 32) 1 (77 / 100 * (3 / 2 * EL_CHARGE)) (81 / 100 * (3 / 2 * EL_CHARGE)) /\
  mean_kinetic_hot (3 * 10 ^ 8) (15 * 10 ^ 6) (167 / 10 ^ 29) (1 / 10) (51 / 100 * (3 / 2 * (1 / 10 * EL_CHARGE))) (61 / 100 * (3 / 2 * (1 / 10 * EL_CHARGE))).
Proof. split; [apply C142_electrons_refuted|apply C142_ions_refuted]; unfold EL_CHARGE; lra. Qed.

Print Assumptions C142_electrons_refuted.
Print Assumptions C142_ions_refuted.
Print Assumptions C142_default_ex.
