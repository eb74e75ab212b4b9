(** C130: the angles of the collisions are drawn with the variance of Coulomb scattering. *)
From Coq Require Import Reals List Lra Psatz.
From Verif Require Import Base PushModel CollOpModel CollOpProofs ThmPush ThmColl2 ThmColl3.
Import ListNotations.
Open Scope R_scope.

Definition swapped {A} (x : A * A) : A * A := (snd x, fst x).

Lemma sq_gt_0 x : x <> 0 -> 0 < x ^ 2.
Proof. intros N. replace (x ^ 2) with (Rsqr x) by (unfold Rsqr; ring). now apply Rsqr_pos_lt. Qed.

(** ** TA77S: the order of the two particles does not matter *)
Lemma variance_sym eps0 hbar step ma mb qa qb va vb na nb debye : ma + mb <> 0 ->
  ta77_variance eps0 hbar step mb ma qb qa vb va nb na debye = ta77_variance eps0 hbar step ma mb qa qb va vb na nb debye.
Proof.
  intros N. unfold ta77_variance. cbv zeta.
  assert (U : vx (vsub vb va) * vx (vsub vb va) + vy (vsub vb va) * vy (vsub vb va) + vz (vsub vb va) * vz (vsub vb va) =
              vx (vsub va vb) * vx (vsub va vb) + vy (vsub va vb) * vy (vsub va vb) + vz (vsub va vb) * vz (vsub va vb)) by (unfold vsub; cbn; ring).
  rewrite U. assert (M : mb * ma / (mb + ma) = ma * mb / (ma + mb)) by (field; lra). unfold coulomb_logarithm. rewrite M.
  rewrite (Rmin_comm nb na). rewrite (Rmult_comm (qb ^ 2) (qa ^ 2)). reflexivity.
Qed.
Theorem C130_order : forall eps0 hbar step ma mb qa qb pa pb na nb debye normal phi dzeta,
  0 < ma -> 0 < mb -> 0 < weight pa -> 0 < weight pb -> weight pa <> weight pb ->
  ta77_draw eps0 hbar step mb ma qb qa pb pa nb na debye normal phi dzeta =
  swapped (ta77_draw eps0 hbar step ma mb qa qb pa pb na nb debye normal phi dzeta).
Proof.
  intros eps0 hbar step ma mb qa qb pa pb na nb debye normal phi dzeta Ha Hb Wa Wb N.
  unfold ta77_draw. rewrite !(variance_sym eps0 hbar step ma mb) by lra.
  assert (I : forall (b : bool) (x : R), (if b then x else x) = x) by (now intros []). rewrite !I. clear I.
  set (d := normal _). clearbody d. unfold ta77_single. cbv zeta. destruct (Rlt_le_dec (weight pa) (weight pb)) as [L|L].
  - rewrite rlt_t, rlt_f.
    + replace (1 / (weight pb / weight pa)) with (weight pa / weight pb) by (field; lra).
      destruct (ta77_sorted ma mb (weight pa / weight pb) (velocity pa) (velocity pb) d phi dzeta). reflexivity.
    + apply Rmult_le_reg_r with (weight pb); [lra|]. unfold Rdiv. rewrite Rmult_assoc, Rinv_l by lra. lra.
    + apply Rmult_lt_reg_r with (weight pa); [lra|]. unfold Rdiv. rewrite Rmult_assoc, Rinv_l by lra. lra.
  - rewrite rlt_f, rlt_t.
    + replace (1 / (weight pa / weight pb)) with (weight pb / weight pa) by (field; lra).
      destruct (ta77_sorted mb ma (weight pb / weight pa) (velocity pb) (velocity pa) d phi dzeta). reflexivity.
    + apply Rmult_lt_reg_r with (weight pb); [lra|]. unfold Rdiv. rewrite Rmult_assoc, Rinv_l by lra. lra.
    + apply Rmult_le_reg_r with (weight pa); [lra|]. unfold Rdiv. rewrite Rmult_assoc, Rinv_l by lra. lra.
Qed.

(** ** The three operators *)
(** how the frequency of Coulomb collisions scales: linear in the density and the logarithm, with the squares of both charges,
    with the third power of the inverse speed; it is positive *)
Theorem C130_scaling : forall eps0 ea eb n L p v k, eps0 <> 0 -> p <> 0 -> v <> 0 ->
  collision_frequency eps0 (k * ea) eb n L p v = k ^ 2 * collision_frequency eps0 ea eb n L p v /\
  collision_frequency eps0 ea (k * eb) n L p v = k ^ 2 * collision_frequency eps0 ea eb n L p v /\
  collision_frequency eps0 ea eb (k * n) L p v = k * collision_frequency eps0 ea eb n L p v /\
  collision_frequency eps0 ea eb n (k * L) p v = k * collision_frequency eps0 ea eb n L p v /\
  (k <> 0 -> collision_frequency eps0 ea eb n L (k * p) (k * v) = collision_frequency eps0 ea eb n L p v / k ^ 3) /\
  (ea <> 0 -> eb <> 0 -> 0 < n -> 0 < L -> 0 < v -> 0 < collision_frequency eps0 ea eb n L p v).
Proof.
  intros eps0 ea eb n L p v k E P V. assert (Pi := PI_RGT_0). unfold collision_frequency.
  split; [field; lra|]. split; [field; lra|]. split; [field; lra|]. split; [field; lra|]. split; [intros K; field; lra|].
  intros Ea Eb Hn HL Hv. apply Rdiv_lt_0_compat.
  - assert (0 < (ea * eb) ^ 2) by (apply sq_gt_0; now apply Rmult_integral_contrapositive_currified). apply Rmult_lt_0_compat; [|assumption]. now apply Rmult_lt_0_compat.
  - assert (0 < eps0 ^ 2) by now apply sq_gt_0. assert (0 < p ^ 2) by now apply sq_gt_0.
    apply Rmult_lt_0_compat; [|assumption]. apply Rmult_lt_0_compat; [|assumption]. apply Rmult_lt_0_compat; [lra|assumption].
Qed.
Definition reduced (ma mb : R) : R := ma * mb / (ma + mb).
(** TA77S: the frequency for the reduced mass, the relative speed and the lower density *)
Theorem C130_ta77 : forall eps0 hbar step ma mb qa qb va vb na nb debye, eps0 <> 0 -> 0 < ma -> 0 < mb -> va <> vb ->
  let u := vlen (vsub va vb) in
  ta77_variance eps0 hbar step ma mb qa qb va vb na nb debye =
  collision_frequency eps0 qa qb (Rmin na nb) (coulomb_logarithm hbar ma mb debye u) (reduced ma mb * u) u * step.
Proof.
  intros eps0 hbar step ma mb qa qb va vb na nb debye E Ha Hb N u. unfold ta77_variance, collision_frequency. cbv zeta.
  change (sqrt (vx (vsub va vb) * vx (vsub va vb) + vy (vsub va vb) * vy (vsub va vb) + vz (vsub va vb) * vz (vsub va vb))) with u.
  assert (U : u <> 0).
  { unfold u, vlen. intros Z. apply N. apply sqrt_eq_0 in Z; [|apply len2_nonneg]. apply len2_zero in Z.
    destruct va as [a1 a2 a3], vb as [b1 b2 b3]. unfold vsub, zero3 in Z. cbn [vx vy vz] in Z. injection Z as Z1 Z2 Z3. f_equal; lra. }
  fold (reduced ma mb). assert (M : reduced ma mb <> 0).
  { unfold reduced. apply Rgt_not_eq. apply Rdiv_lt_0_compat; [nra|lra]. }
  assert (Pi := PI_RGT_0). clearbody u. field. repeat split; lra.
Qed.
(** P12, slow pairs that are not limited by the density: twice the variance of the half angle, with the higher density *)
Theorem C130_p12 : forall c eps0 lim step ma mb qa qb va vb pa na nb L ga gb x,
  eps0 <> 0 -> 0 < ma -> 0 < mb -> 0 < na -> 0 < nb -> cm_vrel x <> 0 ->
  rlt (lim * lim) (len2 va) = false -> rlt (lim * lim) (len2 vb) = false -> 1000000 <= cm_vrel x ->
  p12_s c eps0 lim step ma mb qa qb va vb pa na nb L ga gb x =
  2 * (collision_frequency eps0 qa qb (Rmax na nb) L (reduced ma mb * cm_vrel x) (cm_vrel x) * step).
Proof.
  intros c eps0 lim step ma mb qa qb va vb pa na nb L ga gb x E Ha Hb Na Nb V La Lb Lv. unfold p12_s. cbv zeta.
  rewrite La, Lb. cbn [orb]. rewrite (rlt_f (cm_vrel x)) by exact Lv. cbn [andb]. unfold collision_frequency. fold (reduced ma mb).
  assert (M : reduced ma mb <> 0).
  { unfold reduced. apply Rgt_not_eq. apply Rdiv_lt_0_compat; [nra|lra]. }
  assert (D : na * nb / Rmin na nb = Rmax na nb).
  { destruct (Rle_lt_dec na nb); [rewrite Rmin_left, Rmax_right by lra|rewrite Rmin_right, Rmax_left by lra]; field; lra. }
  rewrite D. assert (Pi := PI_RGT_0). field. repeat split; lra.
Qed.
(** SK98: the momentum of the pair is taken with the mass of the second particle.  The variance is that for the momentum of
    the first particle in the rest frame of the second one, times the square of the ratio of masses *)
Theorem C130_sk98_refuted : forall c eps0 ma mb qa qb va vb n L x, eps0 <> 0 -> 0 < ma -> 0 < mb ->
  to_cm c ma mb va vb = Ok (Some x) -> cm_prel x <> 0 ->
  collision_frequency eps0 qa qb n L (cm_prel x) (cm_vrel x) =
  (ma / mb) ^ 2 * collision_frequency eps0 qa qb n L (cm_grel x * ma * cm_vrel x) (cm_vrel x).
Proof.
  intros c eps0 ma mb qa qb va vb n L x E Ha Hb H N.
  assert (P : cm_prel x = cm_grel x * mb * cm_vrel x).
  { unfold to_cm in H. destruct (momentum_0 c ma va); try discriminate. destruct (momentum_0 c mb vb); try discriminate.
    destruct (momentum c ma va); try discriminate. destruct (momentum c mb vb); try discriminate. cbn [bind] in H.
    match type of H with bind ?m _ = _ => destruct m end; try discriminate. cbn [bind] in H.
    destruct (req _ 0) in H; [discriminate|]. cbv zeta in H.
    match type of H with bind ?m _ = _ => destruct m end; try discriminate. cbn [bind] in H. injection H as <-. reflexivity. }
  unfold collision_frequency. rewrite P in *. assert (Pi := PI_RGT_0).
  assert (cm_grel x <> 0) by (intros Z; apply N; rewrite Z; ring). assert (cm_vrel x <> 0) by (intros Z; apply N; rewrite Z; ring).
  field. repeat split; lra.
Qed.

(** SK98 and P12: in the center-of-mass frame the particles have opposite velocities of lengths a and b, their relative speed
    is (a + b) / (1 + a b / c^2).  The code takes the difference of the lengths *)
Theorem C130_speed_refuted : forall c ma mb va vb, 0 < c -> 0 < ma -> 0 < mb -> subluminal c va -> subluminal c vb ->
  ~ head_on c ma mb va vb -> cm_momentum c ma mb va vb <> zero3 ->
  exists x, to_cm c ma mb va vb = Ok (Some x) /\
  let a := vlen (cm_va x) in let b := vlen (cm_vb x) in
  cm_vrel x = (a - b) / (1 + a * b / (c * c)) /\ Rabs (cm_vrel x) < (a + b) / (1 + a * b / (c * c)).
Proof.
  intros c ma mb va vb Hc Ha Hb Sa Sb HO N. assert (B : len2 (cm_velocity c ma mb va vb) <> 0).
  { intros Z. apply HO. now apply (head_on_beta c Hc). }
  exists (cm_val c ma mb va vb). split; [now apply to_cm_eq|]. cbv zeta. unfold cm_val. cbn [cm_va cm_vb cm_vrel].
  assert (D := cm_dot c Hc ma mb va vb Ha Hb Sa Sb). assert (Dn := cm_denominator c Hc ma mb va vb Ha Hb Sa Sb).
  assert (La := va_cm_len c Hc ma mb va vb Ha Hb Sa Sb). assert (Lb := vb_cm_len c Hc ma mb va vb Ha Hb Sa Sb).
  assert (P := p0a_pos c Hc ma mb va vb Ha Hb Sa Sb). assert (Q := p0b_pos c Hc ma mb va vb Ha Hb Sa Sb).
  unfold cm_vrel_val. rewrite D in *.
  assert (L : 0 < vlen (cm_momentum c ma mb va vb)) by (apply sqrt_lt_R0, len2_pos; exact N).
  match type of La with vlen ?v = _ => set (a := vlen v) in * end. match type of Lb with vlen ?v = _ => set (b := vlen v) in * end.
  assert (A0 : 0 < a) by (rewrite La; apply Rmult_lt_0_compat; [apply Rdiv_lt_0_compat; assumption|assumption]).
  assert (B0 : 0 < b) by (rewrite Lb; apply Rmult_lt_0_compat; [apply Rdiv_lt_0_compat; assumption|assumption]).
  replace (1 - - (a * b) / (c * c)) with (1 + a * b / (c * c)) in * by (field; lra).
  split; [reflexivity|]. unfold Rdiv at 1. rewrite Rabs_mult. rewrite (Rabs_right (/ _)).
  - apply Rmult_lt_compat_r; [apply Rinv_0_lt_compat; lra|]. unfold Rabs. destruct (Rcase_abs (a - b)); lra.
  - apply Rle_ge. left. apply Rinv_0_lt_compat. lra.
Qed.
(** particles of different weights and masses; the pair of C80_ex has a relative speed in the center-of-mass frame *)
Example C130_ex : 0 < weight (Part 1 fast) /\ weight (Part 1 fast) <> weight (Part 2 zero3) /\ fast <> zero3 /\
  ~ head_on 1 1 2 fast zero3 /\ cm_momentum 1 1 2 fast zero3 <> zero3.
Proof.
  cbn [weight]. split; [lra|]. split; [lra|]. split; [intros E; apply (f_equal vx) in E; cbn in E; lra|].
  split; [apply ex_not_head_on|]. apply off_z_nonzero, ex_off_z.
Qed.

Print Assumptions C130_order.
Print Assumptions C130_scaling.
Print Assumptions C130_ta77.
Print Assumptions C130_p12.
Print Assumptions C130_sk98_refuted.
Print Assumptions C130_speed_refuted.
