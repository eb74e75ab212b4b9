(** Theorems about the velocity of the waves of the field solver and about the start of a run: properties C140 and C141. *)
From Coq Require Import ZifyBool Reals Lra Psatz.
From Verif Require Import Base RndUtil CfgModel ThmCfg GridModel GridProofs OverlayModel YeeModel YeeProofs ThmYee ConstModel.
Open Scope Z_scope.

(** the state of a wave along z: E_r and H_phi fall with 1/r, their values along z are [e] and [h] (in units of E); E_z is zero.
    Only the cells i in [p, q), k in [a, b) are looked at. *)
Definition holds_wave (g : geo) (imp : R) (e h : Z -> R) (p q a b : Z) (y : yee) : Prop :=
  forall i k, p <= i < q -> a <= k < b ->
    (lv (c_r (y_e y)) i k = e k / (2 * IZR (i + g_d0 g) + 1) /\ lv (c_z (y_e y)) i k = 0 /\
     lv (c_phi (y_t y)) i k = h k / imp / (2 * IZR (i + g_d0 g) + 1))%R.
(** the cells lie inside the domain, away from the axis; no losses, one material *)
Definition vacuum (g : geo) (eps0 : R) (eps sg : grid R) (p q a b : Z) : Prop :=
  1 <= p + g_d0 g /\ (if g_w0 g then 1 else 0) <= p /\ q <= (if g_w2 g then g_nr g - 1 else g_nr g) /\
  (if g_w1 g then 1 else 0) <= a /\ b <= (if g_w3 g then g_nz g - 1 else g_nz g) /\
  forall i k, p <= i < q -> a <= k < b -> lv eps i k = eps0 /\ lv sg i k = 0%R.
Definition no_current (g : geo) (p q a b : Z) (j : grid3 R) : Prop :=
  forall i k, p <= i < q -> a <= k < b -> lv (c_r j) i k = 0%R /\ lv (c_z j) i k = 0%R.
(** one step of the equations of a wave along z on a line; S: cells per step *)
Definition line_wave (S : R) (e h : nat -> Z -> R) : Prop :=
  forall n k, (e (Datatypes.S n) k = e n k - S * (h n k - h n (k - 1)%Z) /\ h (Datatypes.S n) k = h n k - S * (e (Datatypes.S n) (k + 1)%Z - e (Datatypes.S n) k))%R.

Section Window.
Variables (mu eps0 : R) (g : geo) (eps sg : grid R).
Hypothesis HG : geo_ok g.
Hypothesis Hmu : (0 < mu)%R.
Hypothesis Heps : (0 < eps0)%R.
Hypothesis Hdr : (0 < g_dr g)%R.
Hypothesis Hdz : (0 < g_dz g)%R.
Hypothesis F1 : fits2 (g_nr g) (g_nz g) eps.
Hypothesis F2 : fits2 (g_nr g) (g_nz g) sg.
Let imp : R := sqrt (mu / eps0).
Let cour : R := (g_dt g / (g_dz g * sqrt (eps0 * mu)))%R.

Lemma imp_pos : (0 < imp)%R.
Proof using Hmu Heps. unfold imp. apply sqrt_lt_R0. apply Rdiv_lt_0_compat; assumption. Qed.
Lemma cour_imp : (g_dt g / eps0 / g_dz g / imp = cour)%R /\ (g_dt g / mu / g_dz g * imp = cour)%R.
Proof using Hmu Heps Hdz.
  unfold cour, imp. assert (0 < sqrt eps0)%R by now apply sqrt_lt_R0. assert (0 < sqrt mu)%R by now apply sqrt_lt_R0.
  rewrite sqrt_div_alt by assumption. rewrite sqrt_mult by lra.
  assert (E1 : (sqrt eps0 * sqrt eps0 = eps0)%R) by (apply sqrt_sqrt; lra). assert (E2 : (sqrt mu * sqrt mu = mu)%R) by (apply sqrt_sqrt; lra).
  split.
  - rewrite <- E1 at 1. field. repeat split; lra.
  - rewrite <- E2 at 1. field. repeat split; lra.
Qed.
Lemma ring_pos i : 0 <= i + g_d0 g -> (0 < 2 * IZR (i + g_d0 g) + 1)%R.
Proof using. intros H. apply IZR_le in H. lra. Qed.

Lemma window_step j y y' e h n p q a b : line_wave cour e h -> vacuum g eps0 eps sg p q a b -> no_current g p q a b j ->
  fits3 (g_nr g) (g_nz g) j -> yee_fits g y ->
  holds_wave g imp (e n) (h n) p q a b y -> yee_step mu g eps sg j y = Ok y' ->
  holds_wave g imp (e (S n)) (h (S n)) (p + 1) (q - 1) (a + 1) (b - 1) y'.
Proof using HG Hmu Heps Hdr Hdz F1 F2.
  intros HL (V1 & V2 & V3 & V4 & V5 & V6) NC Fj (Fe & Fh & Ft) HW E. destruct HG as [G1 G2]. unfold yee_step in E.
  assert (V2' : 0 <= p) by (destruct (g_w0 g); lia). assert (V3' : q <= g_nr g) by (destruct (g_w2 g); lia).
  assert (V4' : 0 <= a) by (destruct (g_w1 g); lia). assert (V5' : b <= g_nz g) by (destruct (g_w3 g); lia).
  destruct (calc_field_e_spec g (y_t y) j eps sg Ft Fj F1 F2 (y_e y) Fe G1 G2) as (e1 & Ee & Fe1 & Ve & _). rewrite Ee in E. cbn [bind] in E.
  destruct (calc_field_h_spec mu g e1 Fe1 (y_h y) (y_t y) Fh Ft G1) as (h1 & t1 & Eh & Fh1 & Ft1 & Vh & _). rewrite Eh in E. cbn [bind] in E. injection E as <-.
  destruct cour_imp as [C1 C2]. pose proof imp_pos as IP.
  (* the new electric field *)
  assert (NE : forall i k, p + 1 <= i < q -> a + 1 <= k < b ->
    (lv (c_r e1) i k = e (S n) k / (2 * IZR (i + g_d0 g) + 1) /\ lv (c_z e1) i k = 0)%R).
  { intros i k Hi Hk. pose proof (Ve Cr i k ltac:(lia) ltac:(lia)) as Q1. pose proof (Ve Cz i k ltac:(lia) ltac:(lia)) as Q2. cbn [getc] in Q1, Q2.
    unfold e_cell, lo_r, lo_z, hi_r, hi_z in Q1, Q2.
    replace (((if g_w0 g then 1 else 0) <=? i) && (i <? (if g_w2 g then g_nr g - 1 else g_nr g)) &&
      ((if g_w1 g then 1 else 0) <=? k) && (k <? (if g_w3 g then g_nz g - 1 else g_nz g))) with true in Q1, Q2 by lia.
    cbn [new_reg getc] in Q1, Q2. destruct (V6 i k ltac:(lia) ltac:(lia)) as [U1 U2]. destruct (NC i k ltac:(lia) ltac:(lia)) as [J1 J2].
    destruct (HW i k ltac:(lia) ltac:(lia)) as (W1 & W2 & W3). destruct (HW i (k - 1) ltac:(lia) ltac:(lia)) as (_ & _ & W4).
    destruct (HW (i - 1) k ltac:(lia) ltac:(lia)) as (_ & _ & W5). destruct (HL n k) as [L1 _].
    pose proof (ring_pos i ltac:(lia)) as R1. pose proof (ring_pos (i - 1) ltac:(lia)) as R2.
    assert (KE : ke g eps sg i k = 1%R) by (unfold ke; rewrite U1, U2; field; lra).
    assert (KH : kh g eps sg i k = (g_dt g / eps0)%R) by (unfold kh; rewrite U1, U2; field; lra).
    unfold e_upd in Q1, Q2. rewrite KE, KH in Q1, Q2. unfold rot_r in Q1. unfold rot_z in Q2. rewrite J1, W1, W3, W4 in Q1. rewrite J2, W2, W3, W5 in Q2.
    split.
    - rewrite Q1, L1, <- C1. field. repeat split; lra.
    - rewrite Q2. replace (i - 1 + g_d0 g) with (i + g_d0 g - 1) by lia. rewrite minus_IZR.
      assert (1 <= IZR (i + g_d0 g))%R by (apply (IZR_le 1); lia).
      field. repeat split; try lra. }
  intros i k Hi Hk. cbn [y_e y_t]. destruct (NE i k ltac:(lia) ltac:(lia)) as [N1 N2]. split; [exact N1|]. split; [exact N2|].
  destruct (Vh i k ltac:(lia) ltac:(lia)) as (_ & Q & _). rewrite Q. unfold alpha_phi. destruct (NE (i + 1) k ltac:(lia) ltac:(lia)) as [_ N3].
  destruct (NE i (k + 1) ltac:(lia) ltac:(lia)) as [N4 _]. destruct (HW i k ltac:(lia) ltac:(lia)) as (_ & _ & W3). destruct (HL n k) as [_ L2].
  pose proof (ring_pos i ltac:(lia)) as R1. rewrite N1, N2, N3, N4, W3, L2, <- C2. field. repeat split; lra.
Qed.

Lemma window_run e h : line_wave cour e h -> forall js y y' n p q a b, vacuum g eps0 eps sg p q a b -> Forall (no_current g p q a b) js ->
  Forall (fits3 (g_nr g) (g_nz g)) js -> yee_fits g y -> holds_wave g imp (e n) (h n) p q a b y -> yee_run mu g eps sg js y = Ok y' ->
  holds_wave g imp (e (n + length js)%nat) (h (n + length js)%nat) (p + Z.of_nat (length js)) (q - Z.of_nat (length js))
    (a + Z.of_nat (length js)) (b - Z.of_nat (length js)) y'.
Proof using HG Hmu Heps Hdr Hdz F1 F2.
  intros HL js. induction js as [|j js IH]; intros y y' n p q a b V NC Fj Fy HW E; cbn [yee_run] in E.
  - injection E as <-. cbn [length]. rewrite Nat.add_0_r. change (Z.of_nat 0) with 0. rewrite !Z.add_0_r, !Z.sub_0_r. exact HW.
  - inversion NC; subst. inversion Fj; subst. destruct (yee_step_ok mu g eps sg j y HG F1 F2 H3 Fy) as (y1 & E1 & Fy1). rewrite E1 in E. cbn [bind] in E.
    pose proof (window_step j y y1 e h n p q a b HL V H1 H3 Fy HW E1) as W1.
    assert (V' : vacuum g eps0 eps sg (p + 1) (q - 1) (a + 1) (b - 1)).
    { destruct V as (V1 & V2 & V3 & V4 & V5 & V6). repeat split; try lia; apply V6; lia. }
    specialize (IH y1 y' (S n) (p + 1) (q - 1) (a + 1) (b - 1) V').
    assert (NC' : Forall (no_current g (p + 1) (q - 1) (a + 1) (b - 1)) js).
    { eapply Forall_impl; [|exact H2]. intros j' N i k Hi Hk. apply N; lia. }
    specialize (IH NC' H4 Fy1 W1 E). cbn [length]. rewrite Nat2Z.inj_succ.
    replace (n + S (length js))%nat with (S n + length js)%nat by lia.
    replace (p + Z.succ (Z.of_nat (length js))) with (p + 1 + Z.of_nat (length js)) by lia.
    replace (q - Z.succ (Z.of_nat (length js))) with (q - 1 - Z.of_nat (length js)) by lia.
    replace (a + Z.succ (Z.of_nat (length js))) with (a + 1 + Z.of_nat (length js)) by lia.
    replace (b - Z.succ (Z.of_nat (length js))) with (b - 1 - Z.of_nat (length js)) by lia. exact IH.
Qed.
End Window.

(** ** waves on a line *)
Lemma line_shift (f : Z -> R) : line_wave 1 (fun n k => f (k - Z.of_nat n)) (fun n k => f (k - Z.of_nat n)).
Proof.
  intros n k. rewrite Nat2Z.inj_succ. replace (k - Z.succ (Z.of_nat n)) with (k - 1 - Z.of_nat n) by lia.
  replace (k + 1 - Z.succ (Z.of_nat n)) with (k - Z.of_nat n) by lia. split; ring.
Qed.
Lemma cos_diff a b : (cos (a + b) - cos (a - b) = - (2 * sin a * sin b))%R.
Proof. rewrite cos_plus, cos_minus. ring. Qed.
Definition harm_e (w kap : R) (n : nat) (k : Z) : R := cos (kap * IZR k - w * INR n).
Definition harm_h (w kap : R) (n : nat) (k : Z) : R := cos (kap * (IZR k + /2) - w * (INR n + /2)).
Lemma line_harmonic S w kap : (sin (w / 2) = S * sin (kap / 2))%R -> line_wave S (harm_e w kap) (harm_h w kap).
Proof.
  intros H n k. unfold harm_e, harm_h. rewrite S_INR, minus_IZR, plus_IZR. split.
  - set (A := (kap * IZR k - w * INR n - w / 2)%R).
    replace (kap * IZR k - w * (INR n + 1))%R with (A - w / 2)%R by (unfold A; field).
    replace (kap * IZR k - w * INR n)%R with (A + w / 2)%R by (unfold A; field).
    replace (kap * (IZR k + / 2) - w * (INR n + / 2))%R with (A + kap / 2)%R by (unfold A; field).
    replace (kap * (IZR k - 1 + / 2) - w * (INR n + / 2))%R with (A - kap / 2)%R by (unfold A; field).
    pose proof (cos_diff A (w / 2)) as D1. pose proof (cos_diff A (kap / 2)) as D2. rewrite H in D1. rewrite D2. lra.
  - set (A := (kap * (IZR k + /2) - w * (INR n + 1))%R).
    replace (kap * (IZR k + / 2) - w * (INR n + 1 + / 2))%R with (A - w / 2)%R by (unfold A; field).
    replace (kap * (IZR k + / 2) - w * (INR n + / 2))%R with (A + w / 2)%R by (unfold A; field).
    replace (kap * (IZR k + 1) - w * (INR n + 1))%R with (A + kap / 2)%R by (unfold A; field).
    replace (kap * IZR k - w * (INR n + 1))%R with (A - kap / 2)%R by (unfold A; field).
    pose proof (cos_diff A (w / 2)) as D1. pose proof (cos_diff A (kap / 2)) as D2. rewrite H in D1. rewrite D2. lra.
Qed.
(** sin is concave *)
Lemma sin_scale S x : (0 < S < 1)%R -> (0 < x <= PI / 2)%R -> (S * sin x <= sin (S * x))%R.
Proof.
  intros HS Hx. pose proof PI_RGT_0. assert (0 < S * x < x)%R by nra.
  destruct (MVT_cor2 sin cos 0 (S * x)) as (c1 & E1 & B1); [lra|intros; apply derivable_pt_lim_sin|].
  destruct (MVT_cor2 sin cos (S * x) x) as (c2 & E2 & B2); [lra|intros; apply derivable_pt_lim_sin|].
  rewrite sin_0 in E1. assert (cos c2 <= cos c1)%R by (left; apply cos_decreasing_1; lra).
  assert ((1 - S) * x * cos c2 <= (1 - S) * x * cos c1)%R by (apply Rmult_le_compat_l; [nra|assumption]).
  assert (sin x - sin (S * x) <= (1 - S) * x * cos c1)%R by lra.
  assert (sin (S * x) = S * x * cos c1)%R by lra. nra.
Qed.
(** the frequency of every wave length and its phase velocity *)
Lemma frequency S kap : (0 < S <= 1)%R -> (0 < kap <= PI)%R -> exists w, (0 < w <= S * kap)%R /\ (sin (w / 2) = S * sin (kap / 2))%R.
Proof.
  intros HS Hk. pose proof PI_RGT_0. assert (P : (0 < sin (kap / 2) <= 1)%R) by (split; [apply sin_gt_0; lra|apply SIN_bound]).
  assert (Q : (0 < S * sin (kap / 2) <= 1)%R) by (split; nra).
  exists (2 * asin (S * sin (kap / 2)))%R. replace (2 * asin (S * sin (kap / 2)) / 2)%R with (asin (S * sin (kap / 2))) by field.
  rewrite sin_asin by lra. split; [|reflexivity].
  pose proof (asin_bound (S * sin (kap / 2))) as B. pose proof (sin_asin (S * sin (kap / 2)) ltac:(lra)) as SA.
  assert (0 < asin (S * sin (kap / 2)))%R.
  { apply Rnot_le_lt. intros N. destruct (Req_dec (asin (S * sin (kap / 2))) 0) as [Z|Z]; [rewrite Z, sin_0 in SA; lra|].
    pose proof (sin_lt_0_var (asin (S * sin (kap / 2))) ltac:(lra) ltac:(lra)). lra. }
  split; [lra|]. assert (asin (S * sin (kap / 2)) <= S * (kap / 2))%R; [|lra].
  assert (L : (S * sin (kap / 2) <= sin (S * (kap / 2)))%R).
  { destruct (Req_dec S 1) as [->|N]; [rewrite !Rmult_1_l; lra|]. apply sin_scale; lra. }
  apply Rnot_lt_le. intros N. assert (0 < S * (kap / 2) <= PI / 2)%R by (split; nra).
  pose proof (sin_increasing_1 (S * (kap / 2)) (asin (S * sin (kap / 2))) ltac:(lra) ltac:(lra) ltac:(lra) ltac:(lra) N). lra.
Qed.

(** * C140 *)
(** With the time step dz * sqrt(eps * mu) every wave along z moves by one cell per step: its velocity is 1 / sqrt(eps * mu). *)
Theorem C140_shift : forall mu eps0 g eps sg (f : Z -> R) js y p q a b,
  geo_ok g -> (0 < mu)%R -> (0 < eps0)%R -> (0 < g_dr g)%R -> (0 < g_dz g)%R -> g_dt g = (g_dz g * sqrt (eps0 * mu))%R ->
  fits2 (g_nr g) (g_nz g) eps -> fits2 (g_nr g) (g_nz g) sg -> Forall (fits3 (g_nr g) (g_nz g)) js -> yee_fits g y ->
  vacuum g eps0 eps sg p q a b -> Forall (no_current g p q a b) js ->
  holds_wave g (sqrt (mu / eps0)) f f p q a b y ->
  let n := Z.of_nat (length js) in
  exists y', yee_run mu g eps sg js y = Ok y' /\
    holds_wave g (sqrt (mu / eps0)) (fun k => f (k - n)) (fun k => f (k - n)) (p + n) (q - n) (a + n) (b - n) y'.
Proof.
  intros mu eps0 g eps sg f js y p q a b HG Hmu Heps Hdr Hdz Hdt F1 F2 Fj Fy V NC HW n.
  destruct (C38_run_defined mu g eps sg js y HG F1 F2 Fj Fy) as (y' & E & Fy'). exists y'. split; [exact E|].
  assert (C : (g_dt g / (g_dz g * sqrt (eps0 * mu)) = 1)%R).
  { rewrite Hdt. field. assert (0 < sqrt (eps0 * mu))%R by (apply sqrt_lt_R0; nra). lra. }
  pose proof (line_shift f) as L. rewrite <- C in L.
  assert (W0 : holds_wave g (sqrt (mu / eps0)) (fun k => f (k - Z.of_nat 0)) (fun k => f (k - Z.of_nat 0)) p q a b y).
  { intros i k Hi Hk. change (Z.of_nat 0) with 0. rewrite !Z.sub_0_r. apply HW; assumption. }
  exact (window_run mu eps0 g eps sg HG Hmu Heps Hdr Hdz F1 F2 _ _ L js y y' 0%nat p q a b V NC Fj Fy W0 E).
Qed.
(** With smaller time steps every harmonic wave along z is a solution; no one is faster than 1 / sqrt(eps * mu). *)
Theorem C140_phase_velocity : forall mu eps0 g eps sg kap js y p q a b,
  geo_ok g -> (0 < mu)%R -> (0 < eps0)%R -> (0 < g_dr g)%R -> (0 < g_dz g)%R -> (0 < g_dt g <= g_dz g * sqrt (eps0 * mu))%R ->
  fits2 (g_nr g) (g_nz g) eps -> fits2 (g_nr g) (g_nz g) sg -> Forall (fits3 (g_nr g) (g_nz g)) js -> yee_fits g y ->
  vacuum g eps0 eps sg p q a b -> Forall (no_current g p q a b) js -> (0 < kap <= PI)%R ->
  exists w, (0 < w / g_dt g / (kap / g_dz g) <= / sqrt (eps0 * mu))%R /\
    (holds_wave g (sqrt (mu / eps0)) (fun k => cos (kap * IZR k)) (fun k => cos (kap * (IZR k + /2) - w / 2)) p q a b y ->
     let n := Z.of_nat (length js) in
     exists y', yee_run mu g eps sg js y = Ok y' /\
       holds_wave g (sqrt (mu / eps0)) (fun k => cos (kap * IZR k - w * IZR n)) (fun k => cos (kap * (IZR k + /2) - w * (IZR n + /2)))
         (p + n) (q - n) (a + n) (b - n) y').
Proof.
  intros mu eps0 g eps sg kap js y p q a b HG Hmu Heps Hdr Hdz Hdt F1 F2 Fj Fy V NC Hk.
  assert (Q : (0 < sqrt (eps0 * mu))%R) by (apply sqrt_lt_R0; nra). set (sq := sqrt (eps0 * mu)) in *.
  set (S := (g_dt g / (g_dz g * sq))%R). assert (D : (0 < g_dz g * sq)%R) by nra.
  assert (HS : (0 < S <= 1)%R).
  { unfold S. split; [apply Rdiv_lt_0_compat; lra|]. apply (Rmult_le_reg_r (g_dz g * sq)); [exact D|]. unfold Rdiv. rewrite Rmult_assoc, Rinv_l; lra. }
  destruct (frequency S kap HS Hk) as (w & Hw & E). exists w. split.
  - split; [repeat apply Rdiv_lt_0_compat; lra|].
    replace (w / g_dt g / (kap / g_dz g))%R with (w / (S * kap) * / sq)%R by (unfold S; field; repeat split; lra).
    rewrite <- (Rmult_1_l (/ sq)) at 2. apply Rmult_le_compat_r; [left; now apply Rinv_0_lt_compat|].
    assert (0 < S * kap)%R by nra. apply (Rmult_le_reg_r (S * kap)); [assumption|]. unfold Rdiv. rewrite Rmult_assoc, Rinv_l; lra.
  - intros HW n. destruct (C38_run_defined mu g eps sg js y HG F1 F2 Fj Fy) as (y' & Er & Fy'). exists y'. split; [exact Er|].
    pose proof (line_harmonic S w kap E) as L.
    assert (W0 : holds_wave g (sqrt (mu / eps0)) (harm_e w kap 0) (harm_h w kap 0) p q a b y).
    { intros i k Hi Hk'. destruct (HW i k Hi Hk') as (W1 & W2 & W3). unfold harm_e, harm_h. cbn [INR]. rewrite Rmult_0_r, Rminus_0_r.
      replace (w * (0 + / 2))%R with (w / 2)%R by field. auto. }
    pose proof (window_run mu eps0 g eps sg HG Hmu Heps Hdr Hdz F1 F2 _ _ L js y y' 0%nat p q a b V NC Fj Fy W0 Er) as W.
    intros i k Hi Hk'. destruct (W i k Hi Hk') as (W1 & W2 & W3). unfold harm_e, harm_h in W1, W3. cbn [Nat.add] in W1, W3. unfold n. rewrite <- INR_IZR_INZ. auto.
Qed.
(** The constants do not fit: in vacuum no wave along z reaches 2.995e8 m/s, the velocity of light of the pushers is 3e8 m/s, and an
    electron with the Lorentz factor 17 is faster than all of them. *)
Theorem C140_refuted : (/ sqrt (EPSILON0 * MAGN_CONST) < 2995 * 10 ^ 5 < LIGHT_VEL)%R /\
  (EPSILON0 * MAGN_CONST * LIGHT_VEL ^ 2 = 100359 / 100000)%R /\
  forall v gamma, (0 <= v < LIGHT_VEL)%R -> (gamma * sqrt (1 - v ^ 2 / LIGHT_VEL ^ 2) = 1)%R -> (17 <= gamma)%R -> (/ sqrt (EPSILON0 * MAGN_CONST) < v)%R.
Proof.
  assert (EM : (EPSILON0 * MAGN_CONST = 11151 / 10 ^ 21)%R) by (unfold EPSILON0, MAGN_CONST; field).
  assert (P : (0 < EPSILON0 * MAGN_CONST)%R) by (rewrite EM; lra). assert (Q : (0 < sqrt (EPSILON0 * MAGN_CONST))%R) by now apply sqrt_lt_R0.
  assert (SS : (sqrt (EPSILON0 * MAGN_CONST) * sqrt (EPSILON0 * MAGN_CONST) = 11151 / 10 ^ 21)%R) by (rewrite sqrt_sqrt, EM; lra).
  assert (K : forall u, (0 < u)%R -> (1 < u * u * (11151 / 10 ^ 21))%R -> (/ sqrt (EPSILON0 * MAGN_CONST) < u)%R).
  { intros u Hu H. apply (Rmult_lt_reg_r (sqrt (EPSILON0 * MAGN_CONST))); [exact Q|]. rewrite Rinv_l by lra.
    apply Rnot_le_lt. intros N. set (s := sqrt (EPSILON0 * MAGN_CONST)) in *. rewrite <- SS in H. assert (0 < u * s)%R by nra. nra. }
  split; [split; [apply K; lra|unfold LIGHT_VEL; lra]|]. split; [rewrite EM; unfold LIGHT_VEL; field|].
  intros v gamma Hv Hg G. assert (L2 : (LIGHT_VEL ^ 2 = 9 * 10 ^ 16)%R) by (unfold LIGHT_VEL; ring). rewrite L2 in Hg.
  set (x := (1 - v ^ 2 / (9 * 10 ^ 16))%R) in *.
  assert (Hx : (0 <= x)%R).
  { unfold x. assert (v ^ 2 <= 9 * 10 ^ 16)%R; [|lra]. rewrite <- L2. simpl. rewrite !Rmult_1_r. nra. }
  assert (S1 : (sqrt x <= / 17)%R).
  { pose proof (sqrt_pos x). apply Rnot_lt_le. intros N. nra. }
  assert (S2 : (x <= / 289)%R).
  { rewrite <- (sqrt_sqrt x Hx). pose proof (sqrt_pos x). nra. }
  assert (V2 : (v * v >= 9 * 10 ^ 16 * (288 / 289))%R) by (unfold x in S2; simpl in S2; rewrite Rmult_1_r in S2; lra).
  assert (0 < v)%R by (destruct Hv as [[Hv|<-] _]; [exact Hv|lra]).
  apply K; [assumption|]. lra.
Qed.
(** a domain of 6 x 6 cells with the profile k: a wave in the cells 1 to 4, one step *)
Definition wave_geo : geo := mkGeo 6 6 0 0 1 1 true true true true 1.
Definition wave_state : yee :=
  let f := new_grid 6 6 2 (fun x y => (IZR (y - 2) / (2 * IZR (x - 2) + 1))%R) in let z := new_grid 6 6 2 (fun _ _ => 0%R) in
  mkYee (mkGrid3 f z z) (mkGrid3 z z z) (mkGrid3 z f z).
Example C140_ex :
  geo_ok wave_geo /\ g_dt wave_geo = (g_dz wave_geo * sqrt (1 * 1))%R /\
  fits2 6 6 (new_grid 6 6 2 (fun _ _ => 1%R)) /\ yee_fits wave_geo wave_state /\
  vacuum wave_geo 1 (new_grid 6 6 2 (fun _ _ => 1%R)) (new_grid 6 6 2 (fun _ _ => 0%R)) 1 5 1 5 /\
  holds_wave wave_geo (sqrt (1 / 1)) IZR IZR 1 5 1 5 wave_state.
Proof.
  assert (FG : forall f, fits2 6 6 (new_grid 6 6 2 f)) by (intros f; split; [apply new_grid_wf; lia|]; repeat split).
  split; [split; cbn; lia|]. split; [cbn [g_dt g_dz wave_geo]; replace (1 * 1)%R with 1%R by ring; rewrite sqrt_1; ring|]. split; [apply FG|].
  split; [split; [|split]; intros []; apply FG|]. split.
  - unfold vacuum. cbn. repeat split; lia.
  - intros i k Hi Hk. unfold wave_state, lv. cbn [y_e y_t c_r c_z c_phi new_grid cell os]. cbn [g_d0 wave_geo].
    replace (k + 2 - 2) with k by lia. replace (i + 2 - 2) with i by lia. rewrite Z.add_0_r.
    replace (1 / 1)%R with 1%R by field. rewrite sqrt_1. split; [reflexivity|]. split; [reflexivity|]. now replace (IZR k / 1)%R with (IZR k) by field.
Qed.

(** * C141 *)
(** with start 0 the steps are those at all multiples of the step from start to end *)
Theorem C141_partial : forall tend dt fuel, (0 < dt)%R -> (0 <= tend)%R -> (steps_exact tend dt <= fuel)%nat ->
  exists l, timed_run (init_time 0 tend dt) fuel = Some l /\
    (forall ph t, In (ph, t) l -> (t_start (init_time 0 tend dt) <= t <= tend)%R) /\
    (forall k, (INR k * dt <= tend)%R -> forall ph, In (ph, (INR k * dt)%R) l).
Proof.
  intros tend dt fuel Hdt Ht Hf. unfold timed_run, init_time. cbn [t_end t_step t_current t_start].
  pose proof (C59_main_loop tend dt fuel Hdt Hf) as E. unfold main_loop in E. exists (flat_map (step_events dt) (seq 0 (steps_exact tend dt))).
  split; [exact E|]. assert (SE : forall k, In k (seq 0 (steps_exact tend dt)) <-> (INR k * dt <= tend)%R).
  { intros k. rewrite in_seq. pose proof (C59_step_count tend dt Hdt Ht) as SC. destruct (base_Int_part (tend / dt)) as [B1 B2].
    assert (TD : (tend / dt * dt = tend)%R) by (field; lra). split.
    - intros [_ H]. assert (IZR (Z.of_nat k) <= IZR (Int_part (tend / dt)))%R by (apply IZR_le; lia). rewrite <- INR_IZR_INZ in H0. nra.
    - intros H. split; [lia|]. assert (Z.of_nat k < Int_part (tend / dt) + 1); [|lia]. apply lt_IZR. rewrite plus_IZR, <- INR_IZR_INZ.
      assert (INR k <= tend / dt)%R; [|lra]. apply (Rmult_le_reg_r dt); [lra|]. lra. }
  split.
  - intros ph t H. apply in_flat_map in H as (k & H1 & H2). apply SE in H1. pose proof (pos_INR k).
    assert (t = (INR k * dt)%R) as -> by (unfold step_events in H2; cbn in H2; intuition congruence). split; [nra|exact H1].
  - intros k H ph. apply in_flat_map. exists k. split; [now apply SE|]. unfold step_events. destruct ph; cbn; tauto.
Qed.
(** a later start is read and ignored: the first step is at time 0 *)
Theorem C141_refuted : forall start tend dt fuel l, (0 < start <= tend)%R ->
  timed_run (init_time start tend dt) fuel = Some l ->
  timed_run (init_time start tend dt) fuel = timed_run (init_time 0 tend dt) fuel /\
  exists t l', l = (Inject, t) :: l' /\ (t < t_start (init_time start tend dt))%R.
Proof.
  intros start tend dt fuel l H E. split; [reflexivity|]. unfold timed_run, init_time in E. cbn [t_end t_step t_current t_start] in *.
  destruct fuel as [|fuel]; cbn [main_from] in E; (destruct (Rle_dec 0 tend) as [|N]; [|lra]); [discriminate|].
  destruct (main_from _ _ _ _ _) as [l1|] in E; [|discriminate]. injection E as <-. unfold CfgModel.pass. cbn [app]. eexists _, _. split; [reflexivity|]. cbn. lra.
Qed.
Example C141_ex : (0 < 1 <= 2)%R /\ (steps_exact 2 1 <= 3)%nat /\ exists l, timed_run (init_time 1 2 1) 3 = Some l /\ In (Push, 0%R) l.
Proof.
  assert (S3 : steps_exact 2 1 = 3%nat) by (unfold steps_exact; replace (2 / 1)%R with (IZR 2) by lra; now rewrite Int_part_IZR).
  split; [lra|]. split; [lia|]. destruct (C141_partial 2 1 3 ltac:(lra) ltac:(lra) ltac:(lia)) as (l & E & _ & H). exists l. split; [exact E|].
  specialize (H 0%nat ltac:(cbn; lra) Push). cbn [INR] in H. now rewrite Rmult_0_l in H.
Qed.

Print Assumptions C140_shift.
Print Assumptions C140_phase_velocity.
Print Assumptions C140_refuted.
Print Assumptions C141_partial.
Print Assumptions C141_refuted.
