(** Theorems about the particles of a beam: properties C143 (density) and C144 (places). *)
From Coq Require Import Reals Lra Psatz.
From Verif Require Import Base RndUtil TimeModel ThmTime ParticleModel ParticleProofs BeamModel ThmBeam.
Open Scope R_scope.

(** ** Specification *)
(** [s] is the integral of [f] from [a] to [b] *)
Definition integral (f : R -> R) (a b s : R) : Prop :=
  exists F, (forall x, a <= x <= b -> derivable_pt_lim F x (f x)) /\ F b - F a = s.
(** [m] is the number of real particles to be expected between the radii [r1] and [r2] when [M] macro-particles are put at the
    radius [rad u] with the weight [w (rad u)], each for a number [u] drawn evenly from [0, 1) *)
Definition expected (M : R) (rad w : R -> R) (r1 r2 m : R) : Prop :=
  exists u1 u2 s, 0 <= u1 <= u2 /\ u2 <= 1 /\ (forall u, 0 <= u < 1 -> (r1 <= rad u < r2 <-> u1 <= u < u2)) /\
    integral (fun u => w (rad u)) u1 u2 s /\ m = M * s.
(** the same for a column of domains, each with its own share *)
Fixpoint expected_all (M : nat -> R) (rad w : nat -> R -> R) (n : nat) (r1 r2 m : R) : Prop :=
  match n with
  | O => m = 0
  | S k => exists m1 m2, expected_all M rad w k r1 r2 m1 /\ expected (M k) (rad k) (w k) r1 r2 m2 /\ m = m1 + m2
  end.
(** what the configuration asks for: the number of particles of a bunch between two radii *)
Definition configured (b : beam) (n r1 r2 : R) : R := n * (PI * (r2 * r2 - r1 * r1) * b_length b).

(** what the program does: radius for a draw, in domain [d] *)
Definition radius_of (b : beam) (d : bdom) (u : R) : R := let '(r, _, _, _) := injected_particle b d 1 1 u 0 in r.
Lemma radius_any b d dz dt u v : let '(r, _, _, _) := injected_particle b d dz dt u v in r = radius_of b d u.
Proof. reflexivity. Qed.

(** ** One domain *)
Definition clamp (lo hi x : R) : R := Rmax lo (Rmin x hi).
Lemma clamp_range lo hi x : lo <= hi -> lo <= clamp lo hi x <= hi.
Proof. intros H. unfold clamp, Rmax, Rmin. destruct (Rle_dec x hi); repeat destruct (Rle_dec _ _); lra. Qed.
Lemma clamp_mono lo hi x y : x <= y -> clamp lo hi x <= clamp lo hi y.
Proof. intros H. unfold clamp, Rmax, Rmin. destruct (Rle_dec x hi), (Rle_dec y hi); repeat destruct (Rle_dec _ _); lra. Qed.
Lemma clamp_glue lo mid hi x : lo <= mid <= hi ->
  clamp lo mid x * clamp lo mid x + clamp mid hi x * clamp mid hi x = clamp lo hi x * clamp lo hi x + mid * mid.
Proof.
  intros H. unfold clamp, Rmax, Rmin. destruct (Rle_dec x mid), (Rle_dec x hi); repeat destruct (Rle_dec _ _); try lra;
  try (replace x with mid by lra; lra); try (replace hi with mid by lra; lra); try (replace x with lo by lra; lra).
Qed.
(** the weight is proportional to the radius, also on the first half of the cell at the axis where it is used at its end only *)
Lemma weight_linear b d n dz r : sane b -> (1 <= b_macro b)%nat -> 0 < d_dr d -> 0 < dz -> d_dr d / 2 <= r ->
  injected_weight b d n dz r = n * (2 * PI * b_radius b * b_length b * INR (b_bunches b) / INR (b_macro b)) * r.
Proof.
  intros (_ & L & _ & _ & R & _) M D Z H. unfold injected_weight. cbv zeta.
  assert (P := PI_RGT_0). assert (M' : 0 < INR (b_macro b)) by (apply lt_0_INR; lia).
  destruct (Rltb (d_dr d / 2) r) eqn:E.
  - field. repeat split; lra.
  - apply Rltb_false in E. assert (r = d_dr d / 2) as -> by lra. field. repeat split; lra.
Qed.
Lemma expected_none rad w r1 r2 : (forall u v, rad u = rad v) -> expected 0 rad w r1 r2 0.
Proof.
  intros K. destruct (Rle_dec r1 (rad 0)) as [A|A]; [destruct (Rlt_dec (rad 0) r2) as [B|B]|].
  - exists 0, 1, (w (rad 0)). repeat split; try lra; try (rewrite (K u 0); lra).
    exists (fun u => w (rad 0) * u). split; [|lra]. intros x _. rewrite (K x 0).
    replace (w (rad 0)) with (w (rad 0) * 1) at 1 by ring. apply (derivable_pt_lim_scal (fun u => u)), derivable_pt_lim_id.
  - exists 0, 0, 0. repeat split; try lra; try (rewrite (K u 0) in *; lra).
    exists (fun u => w (rad 0) * u). split; [|lra]. intros x _. rewrite (K x 0).
    replace (w (rad 0)) with (w (rad 0) * 1) at 1 by ring. apply (derivable_pt_lim_scal (fun u => u)), derivable_pt_lim_id.
  - exists 0, 0, 0. repeat split; try lra; try (rewrite (K u 0) in *; lra).
    exists (fun u => w (rad 0) * u). split; [|lra]. intros x _. rewrite (K x 0).
    replace (w (rad 0)) with (w (rad 0) * 1) at 1 by ring. apply (derivable_pt_lim_scal (fun u => u)), derivable_pt_lim_id.
Qed.
Lemma expected_line M D r0 K rad w r1 r2 : 0 < D -> r1 <= r2 -> (forall u, rad u = D * u + r0) ->
  (forall u, 0 <= u <= 1 -> w (D * u + r0) = K * (D * u + r0)) ->
  let x1 := clamp r0 (r0 + D) r1 in let x2 := clamp r0 (r0 + D) r2 in
  expected M rad w r1 r2 (M * (K / (2 * D) * (x2 * x2 - x1 * x1))).
Proof.
  intros HD H12 ER W x1 x2. assert (X1 := clamp_range r0 (r0 + D) r1 ltac:(lra)). assert (X2 := clamp_range r0 (r0 + D) r2 ltac:(lra)).
  assert (X12 := clamp_mono r0 (r0 + D) r1 r2 H12). fold x1 in X1, X12. fold x2 in X2, X12.
  assert (U : forall x, r0 <= x <= r0 + D -> 0 <= (x - r0) / D <= 1).
  { intros x X. split; [apply Rmult_le_pos; [lra|left; now apply Rinv_0_lt_compat]|apply (Rmult_le_reg_r D); [lra|]; unfold Rdiv; rewrite Rmult_assoc, Rinv_l by lra; lra]. }
  assert (B : forall x, D * ((x - r0) / D) + r0 = x) by (intros; field; lra).
  exists ((x1 - r0) / D), ((x2 - r0) / D), (K / (2 * D) * (x2 * x2 - x1 * x1)).
  assert (U1 := U x1 X1). assert (U2 := U x2 X2).
  split; [split; [lra|]|split; [lra|split; [|split; [|reflexivity]]]].
  - apply Rmult_le_compat_r; [left; now apply Rinv_0_lt_compat|lra].
  - intros u Hu. rewrite ER.
    assert (Q : forall x, (x - r0) / D <= u <-> x <= D * u + r0).
    { intros x. split; intros H; [rewrite <- (B x); nra|]. apply (Rmult_le_reg_l D); [lra|]. rewrite <- (B x) in H. lra. }
    assert (Q' : (u < (x2 - r0) / D) <-> D * u + r0 < x2).
    { split; intros H; [rewrite <- (B x2); nra|]. apply (Rmult_lt_reg_l D); [lra|]. rewrite <- (B x2) in H. lra. }
    rewrite Q, Q'. subst x1 x2. clear - Hu HD H12. unfold clamp, Rmax, Rmin.
    assert (0 <= D * u < D) by nra.
    destruct (Rle_dec r1 (r0 + D)), (Rle_dec r2 (r0 + D)); repeat destruct (Rle_dec _ _); lra.
  - exists (fun u => K / (2 * D) * ((D * u + r0) * (D * u + r0))). split.
    + intros u Hu. rewrite ER, W by lra.
      replace (K * (D * u + r0)) with (K / (2 * D) * (((D * 1 + 0) * (D * u + r0)) + (D * u + r0) * (D * 1 + 0))) by (field; lra).
      apply (derivable_pt_lim_scal (fun u => (D * u + r0) * (D * u + r0))).
      assert (DD : derivable_pt_lim (fun u => D * u + r0) u (D * 1 + 0)).
      { apply (derivable_pt_lim_plus (fun u => D * u) (fun _ => r0)); [apply (derivable_pt_lim_scal (fun u => u)), derivable_pt_lim_id|apply derivable_pt_lim_const]. }
      exact (derivable_pt_lim_mult _ _ u _ _ DD DD).
    + rewrite !B. ring.
Qed.

(** ** C143 *)
Section Column.
Variable b : beam.
Variable c : Z.
Variable dr : R.
Let dom := column_dom c dr.
Definition share (k : nat) : R := bunch_macro_amount b (dom k).
Definition rad (k : nat) (u : R) : R := radius_of b (dom k) u.
Definition wgt (n dz : R) (k : nat) (r : R) : R := injected_weight b (dom k) n dz r.
End Column.

(** the upper end of what [k] domains inject *)
Definition upto (b : beam) (c : Z) (dr : R) (k : nat) : R := Rmin (b_radius b) (INR k * IZR c * dr) + dr / 2.

Lemma column_radius b c dr k : 0 < dr -> (0 < c)%Z ->
  domain_radius b (column_dom c dr k) = upto b c dr (S k) - upto b c dr k /\
  dr / 2 + IZR (Z.of_nat k * c) * dr = INR k * IZR c * dr + dr / 2 /\ 0 <= INR k * IZR c * dr /\ 0 < IZR c * dr.
Proof.
  intros D C. apply IZR_lt in C. assert (C0 : 0 < IZR c * dr) by (apply Rmult_lt_0_compat; lra). assert (K := pos_INR k).
  assert (0 <= INR k * IZR c * dr) by nra.
  split; [|rewrite mult_IZR, <- INR_IZR_INZ; lra].
  unfold domain_radius, column_dom, upto. cbn [d_left d_top d_bot d_dr d_size Z.ltb Z.compare].
  rewrite !mult_IZR, plus_IZR, <- INR_IZR_INZ, S_INR.
  destruct (Rltb ((INR k + 1) * IZR c * dr) (b_radius b)) eqn:E1; [apply Rltb_true in E1|apply Rltb_false in E1].
  - rewrite !Rmin_right by lra. ring.
  - rewrite (Rmin_left (b_radius b) ((INR k + 1) * IZR c * dr)) by lra.
    destruct (Rltb (INR k * IZR c * dr) (b_radius b)) eqn:E2; [apply Rltb_true in E2|apply Rltb_false in E2].
    + rewrite Rmin_right by lra. ring.
    + rewrite Rmin_left by lra. ring.
Qed.

Lemma expected_column b c dr n dz k r1 r2 : sane b -> (0 < c)%Z -> 0 < dr -> 0 < dz -> r1 <= r2 ->
  (b_bunches b * (b_macro b / b_bunches b) = b_macro b)%nat ->
  let lo := upto b c dr k in let hi := upto b c dr (S k) in
  expected (share b c dr k) (rad b c dr k) (wgt b c dr n dz k) r1 r2
    (n * (PI * b_length b) * (clamp lo hi r2 * clamp lo hi r2 - clamp lo hi r1 * clamp lo hi r1)).
Proof.
  intros S C D Z H12 HM lo hi. assert (Sb := S). destruct Sb as (_ & L & _ & _ & R & B1 & B2).
  destruct (column_radius b c dr k D C) as (E & F & K0 & C0). fold lo hi in E.
  assert (LH : lo <= hi).
  { unfold lo, hi, upto. rewrite S_INR. apply Rplus_le_compat_r. apply Rle_min_compat_l. nra. }
  assert (M0 : 0 < INR (b_macro b)) by (apply lt_0_INR; lia).
  assert (B0 : 0 < INR (b_bunches b)) by (apply lt_0_INR; lia).
  destruct (Rle_lt_or_eq_dec _ _ LH) as [LT|EQ].
  - assert (KR : INR k * IZR c * dr < b_radius b).
    { unfold lo, hi, upto, Rmin in LT. rewrite S_INR in LT. destruct (Rle_dec _ _), (Rle_dec _ _) in LT; lra. }
    assert (lo = INR k * IZR c * dr + dr / 2) by (unfold lo, upto; rewrite Rmin_right; lra).
    set (Kw := n * (2 * PI * b_radius b * b_length b * INR (b_bunches b) / INR (b_macro b))).
    assert (X : expected (share b c dr k) (rad b c dr k) (wgt b c dr n dz k) r1 r2 (share b c dr k * (Kw / (2 * (hi - lo)) * (clamp lo (lo + (hi - lo)) r2 * clamp lo (lo + (hi - lo)) r2 - clamp lo (lo + (hi - lo)) r1 * clamp lo (lo + (hi - lo)) r1)))).
    { apply expected_line; [lra|exact H12|..].
      - intros u. unfold rad, radius_of, injected_particle. rewrite E. cbn [column_dom d_dr d_bot]. lra.
      - intros u U. unfold wgt. apply weight_linear; [exact S|lia|exact D|exact Z|cbn [column_dom d_dr]; nra]. }
    replace (lo + (hi - lo)) with hi in X by ring.
    eapply eq_ind; [exact X|]. unfold share, bunch_macro_amount. rewrite E. unfold Kw.
    replace (INR (b_macro b)) with (INR (b_bunches b) * INR (b_macro b / b_bunches b)) by (rewrite <- mult_INR; now rewrite HM).
    assert (0 < INR (b_macro b / b_bunches b)).
    { apply lt_0_INR. apply Nat.div_str_pos. lia. }
    field. repeat split; lra.
  - assert (E0 : domain_radius b (column_dom c dr k) = 0) by (rewrite E; lra).
    replace (share b c dr k) with 0 by (unfold share, bunch_macro_amount; rewrite E0; unfold Rdiv; ring).
    rewrite <- EQ. replace (n * _ * _) with 0.
    + apply expected_none. intros u v. unfold rad, radius_of, injected_particle. rewrite E0. ring.
    + replace (clamp lo lo r2) with (clamp lo lo r1); [ring|].
      assert (A := clamp_range lo lo r1 ltac:(lra)). assert (A' := clamp_range lo lo r2 ltac:(lra)). lra.
Qed.
Lemma expected_column_all b c dr n dz N r1 r2 : sane b -> (0 < c)%Z -> 0 < dr -> 0 < dz -> r1 <= r2 ->
  (b_bunches b * (b_macro b / b_bunches b) = b_macro b)%nat ->
  let lo := dr / 2 in let hi := upto b c dr N in
  expected_all (share b c dr) (rad b c dr) (wgt b c dr n dz) N r1 r2
    (n * (PI * b_length b) * (clamp lo hi r2 * clamp lo hi r2 - clamp lo hi r1 * clamp lo hi r1)).
Proof.
  intros S C D Z H12 HM. cbv zeta. induction N as [|N IH].
  - cbn [expected_all]. assert (upto b c dr 0 = dr / 2) as ->.
    { destruct S as (_ & _ & _ & _ & R & _). unfold upto. cbn [INR]. rewrite !Rmult_0_l, Rmin_right by lra. lra. }
    replace (clamp (dr / 2) (dr / 2) r2) with (clamp (dr / 2) (dr / 2) r1); [ring|].
    assert (A := clamp_range (dr / 2) (dr / 2) r1 ltac:(lra)). assert (A' := clamp_range (dr / 2) (dr / 2) r2 ltac:(lra)). lra.
  - cbn [expected_all]. do 2 eexists. split; [exact IH|]. split; [exact (expected_column b c dr n dz N r1 r2 S C D Z H12 HM)|].
    assert (O : dr / 2 <= upto b c dr N <= upto b c dr (Datatypes.S N)).
    { destruct S as (_ & _ & _ & _ & R & _). apply IZR_lt in C. assert (K := pos_INR N). assert (0 < IZR c * dr) by (apply Rmult_lt_0_compat; lra).
      unfold upto. rewrite S_INR. unfold Rmin. destruct (Rle_dec _ _), (Rle_dec _ _); split; nra. }
    assert (G2 := clamp_glue _ _ _ r2 O). assert (G1 := clamp_glue _ _ _ r1 O).
    rewrite <- Rmult_plus_distr_l. f_equal. lra.
Qed.

(** between half a cell off the axis and half a cell outside the beam, the bunch has the configured density in every ring *)
Theorem C143_density_partial : forall b c dr n dz N r1 r2, sane b -> (0 < c)%Z -> 0 < dr -> 0 < dz ->
  (b_bunches b * (b_macro b / b_bunches b) = b_macro b)%nat -> b_radius b <= INR N * IZR c * dr ->
  dr / 2 <= r1 <= r2 -> r2 <= b_radius b + dr / 2 ->
  expected_all (share b c dr) (rad b c dr) (wgt b c dr n dz) N r1 r2 (configured b n r1 r2).
Proof.
  intros b c dr n dz N r1 r2 S C D Z HM HR H1 H2. assert (X := expected_column_all b c dr n dz N r1 r2 S C D Z ltac:(lra) HM). cbv zeta in X.
  unfold upto in X. rewrite Rmin_left in X by exact HR.
  replace (clamp (dr / 2) (b_radius b + dr / 2) r1) with r1 in X by (unfold clamp; rewrite Rmin_left, Rmax_right; lra).
  replace (clamp (dr / 2) (b_radius b + dr / 2) r2) with r2 in X by (unfold clamp; rewrite Rmin_left, Rmax_right; lra).
  eapply eq_ind; [exact X|]. unfold configured. ring.
Qed.
(** there is nothing closer to the axis and nothing further out *)
Theorem C143_hollow_refuted : forall b c dr n dz N r1 r2, sane b -> (0 < c)%Z -> 0 < dr -> 0 < dz ->
  (b_bunches b * (b_macro b / b_bunches b) = b_macro b)%nat -> b_radius b <= INR N * IZR c * dr ->
  r1 <= r2 -> (r2 <= dr / 2 \/ b_radius b + dr / 2 <= r1) ->
  expected_all (share b c dr) (rad b c dr) (wgt b c dr n dz) N r1 r2 0.
Proof.
  intros b c dr n dz N r1 r2 S C D Z HM HR H1 H2. assert (X := expected_column_all b c dr n dz N r1 r2 S C D Z ltac:(lra) HM). cbv zeta in X.
  unfold upto in X. rewrite Rmin_left in X by exact HR.
  assert (B : 0 < b_radius b) by (now destruct S as (_ & _ & _ & _ & R & _)).
  replace (clamp (dr / 2) (b_radius b + dr / 2) r1) with (clamp (dr / 2) (b_radius b + dr / 2) r2) in X.
  - eapply eq_ind; [exact X|]. ring.
  - unfold clamp, Rmin, Rmax. destruct (Rle_dec r1 _), (Rle_dec r2 _); repeat destruct (Rle_dec _ _); lra.
Qed.
(** so that a bunch has dr/R more particles than configured *)
Theorem C143_total_refuted : forall b c dr n dz N, sane b -> (0 < c)%Z -> 0 < dr -> 0 < dz ->
  (b_bunches b * (b_macro b / b_bunches b) = b_macro b)%nat -> b_radius b <= INR N * IZR c * dr ->
  forall r1 r2, r1 <= dr / 2 -> b_radius b + dr / 2 <= r2 ->
  expected_all (share b c dr) (rad b c dr) (wgt b c dr n dz) N r1 r2 ((1 + dr / b_radius b) * configured b n 0 (b_radius b)).
Proof.
  intros b c dr n dz N S C D Z HM HR r1 r2 H1 H2. assert (B : 0 < b_radius b) by (now destruct S as (_ & _ & _ & _ & R & _)).
  assert (X := expected_column_all b c dr n dz N r1 r2 S C D Z ltac:(lra) HM). cbv zeta in X.
  unfold upto in X. rewrite Rmin_left in X by exact HR.
  replace (clamp (dr / 2) (b_radius b + dr / 2) r1) with (dr / 2) in X by (unfold clamp, Rmin, Rmax; repeat destruct (Rle_dec _ _); lra).
  replace (clamp (dr / 2) (b_radius b + dr / 2) r2) with (b_radius b + dr / 2) in X by (unfold clamp, Rmin, Rmax; repeat destruct (Rle_dec _ _); lra).
  eapply eq_ind; [exact X|]. unfold configured. field. lra.
Qed.
(** the expectation is determined by the draws *)
Lemma integral_unique f a b s s' : a <= b -> integral f a b s -> integral f a b s' -> s = s'.
Proof.
  intros AB (F & DF & <-) (G & DG & <-). destruct AB as [AB|<-]; [|lra].
  assert (C : forall c, a <= c <= b -> continuity_pt (fun x => F x - G x) c).
  { intros x X. apply derivable_continuous_pt. exists (f x - f x). apply (derivable_pt_lim_minus F G); auto. }
  assert (d : forall x, a < x < b -> derivable_pt (fun x => F x - G x) x).
  { intros x X. exists (f x - f x). apply (derivable_pt_lim_minus F G); [apply DF|apply DG]; lra. }
  destruct (MVT (fun x => F x - G x) id a b d (fun x _ => derivable_pt_id x) AB C) as (x & X & E).
  { intros x X. apply derivable_continuous_pt, derivable_pt_id. }
  rewrite derive_pt_id in E. unfold id in E.
  assert (Q : derive_pt (fun x => F x - G x) x (d x X) = f x - f x).
  { apply derive_pt_eq_0, (derivable_pt_lim_minus F G); [apply DF|apply DG]; lra. }
  rewrite Q in E. lra.
Qed.
Lemma expected_unique M rad w r1 r2 m m' : expected M rad w r1 r2 m -> expected M rad w r1 r2 m' -> m = m'.
Proof.
  intros (u1 & u2 & s & A & A' & H & I & ->) (v1 & v2 & t & B & B' & K & J & ->). f_equal.
  assert (E : forall u, 0 <= u < 1 -> (u1 <= u < u2 <-> v1 <= u < v2)) by (intros u U; rewrite <- H, <- K by exact U; tauto).
  assert (Zr : forall f a s, integral f a a s -> s = 0) by (intros f a x (F & _ & <-); lra).
  destruct (Rle_lt_or_eq_dec u1 u2 ltac:(lra)) as [L|L]; destruct (Rle_lt_or_eq_dec v1 v2 ltac:(lra)) as [L'|L'].
  - assert (v1 <= u1 < v2) by (apply E; lra). assert (u1 <= v1 < u2) by (apply E; lra). assert (u1 = v1) by lra.
    assert (u2 = v2).
    { destruct (Rtotal_order u2 v2) as [Q|[Q|Q]]; [|exact Q|].
      - assert (u1 <= u2 < u2) by (apply E; lra). lra.
      - assert (v1 <= v2 < v2) by (apply E; lra). lra. }
    subst. apply (integral_unique _ v1 v2 s t ltac:(lra) I J).
  - assert (v1 <= u1 < v2) by (apply E; lra). lra.
  - assert (u1 <= v1 < u2) by (apply E; lra). lra.
  - rewrite L in I. rewrite L' in J. rewrite (Zr _ _ _ I), (Zr _ _ _ J). reflexivity.
Qed.
Lemma expected_all_unique M rad w N r1 r2 : forall m m', expected_all M rad w N r1 r2 m -> expected_all M rad w N r1 r2 m' -> m = m'.
Proof.
  induction N as [|N IH]; cbn [expected_all]; [intros; congruence|].
  intros m m' (a & a' & A & A' & ->) (x & x' & X & X' & ->). f_equal; [now apply IH|exact (expected_unique _ _ _ _ _ _ _ A' X')].
Qed.
Theorem C143_unique : forall M rad w N r1 r2 m m', expected_all M rad w N r1 r2 m -> expected_all M rad w N r1 r2 m' -> m = m'.
Proof. exact expected_all_unique. Qed.
Example C143_ex : sane (b_ex 2 3) /\ (b_bunches (b_ex 2 3) * (b_macro (b_ex 2 3) / b_bunches (b_ex 2 3)) = b_macro (b_ex 2 3))%nat /\
  b_radius (b_ex 2 3) <= INR 3 * IZR 2 * 1 /\ configured (b_ex 2 3) 5 1 3 = 80 * PI /\
  (1 + 1 / b_radius (b_ex 2 3)) * configured (b_ex 2 3) 5 0 (b_radius (b_ex 2 3)) <> configured (b_ex 2 3) 5 0 (b_radius (b_ex 2 3)).
Proof.
  assert (P := PI_RGT_0). unfold configured.
  split; [unfold sane, b_ex; cbn; repeat split; lra || lia|]. split; [reflexivity|]. cbn [b_ex b_radius b_length]. split; [cbn; lra|].
  split; lra.
Qed.

(** ** C144: places of the injected particles *)
(** in a column of domains: outside the beam by at most half a cell, and in a domain or up to half a cell above it; in z between
    half a cell and half a cell and a step from the wall *)
Theorem C144_places_partial : forall b c dr dz dt k u v, sane b -> (0 < c)%Z -> 0 < dr -> 0 < dz -> 0 < dt -> 0 <= u < 1 -> 0 <= v < 1 ->
  reaches b (column_dom c dr k) ->
  let '(r, z, _, _) := injected_particle b (column_dom c dr k) dz dt u v in
  INR k * IZR c * dr + dr / 2 <= r < b_radius b + dr / 2 /\ r < (INR k + 1) * IZR c * dr + dr / 2 /\
  dz / 2 <= z < dz / 2 + b_velocity b * dt.
Proof.
  intros b c dr dz dt k u v S C D Z T U V (_ & _ & _ & RB). unfold injected_particle. cbn [column_dom d_dr d_bot] in *.
  destruct (column_radius b c dr k D C) as (E & F & K0 & C0). rewrite E. rewrite mult_IZR, <- INR_IZR_INZ in *.
  assert (Vb : 0 < b_velocity b) by (now destruct S as (_ & _ & _ & W & _)). assert (0 < b_velocity b * dt) by (now apply Rmult_lt_0_compat).
  unfold upto. rewrite S_INR. rewrite (Rmin_right _ (INR k * IZR c * dr)) by lra.
  assert (A := Rmin_l (b_radius b) ((INR k + 1) * IZR c * dr)). assert (A' := Rmin_r (b_radius b) ((INR k + 1) * IZR c * dr)).
  assert (A2 : INR k * IZR c * dr < Rmin (b_radius b) ((INR k + 1) * IZR c * dr)) by (apply Rmin_glb_lt; lra).
  set (m := Rmin _ _) in *. repeat split; nra.
Qed.
(** every part of these ranges is used: some particles start outside the beam, outside their domain, outside the first cell *)
Theorem C144_outside_refuted : forall b c dr dz dt k, sane b -> (0 < c)%Z -> 0 < dr -> 0 < dz -> 0 < dt -> reaches b (column_dom c dr k) ->
  b_radius b <= (INR k + 1) * IZR c * dr ->
  exists u0, 0 <= u0 < 1 /\ forall u v, u0 < u < 1 -> let '(r, _, _, _) := injected_particle b (column_dom c dr k) dz dt u v in b_radius b < r.
Proof.
  intros b c dr dz dt k S C D Z T (_ & _ & _ & RB) Top. unfold injected_particle. cbn [column_dom d_dr d_bot] in *.
  destruct (column_radius b c dr k D C) as (E & F & K0 & C0). rewrite E. rewrite mult_IZR, <- INR_IZR_INZ in *.
  unfold upto. rewrite S_INR. rewrite (Rmin_right _ (INR k * IZR c * dr)) by lra. rewrite Rmin_left by lra.
  set (lo := INR k * IZR c * dr) in *. set (X := b_radius b) in *.
  exists (Rmax 0 (1 - dr / (2 * (X - lo)))).
  assert (Q : 0 < dr / (2 * (X - lo))) by (apply Rdiv_lt_0_compat; lra).
  split; [split; [apply Rmax_l|apply Rmax_lub_lt; lra]|]. intros u v [U1 U2].
  assert (1 - dr / (2 * (X - lo)) < u) by (eapply Rle_lt_trans; [apply Rmax_r|exact U1]).
  assert ((1 - dr / (2 * (X - lo))) * (X - lo) < u * (X - lo)) by (apply Rmult_lt_compat_r; lra).
  replace ((1 - dr / (2 * (X - lo))) * (X - lo)) with (X - lo - dr / 2) in H0 by (field; lra). lra.
Qed.
Theorem C144_domain_refuted : forall b c dr dz dt k, sane b -> (0 < c)%Z -> 0 < dr -> 0 < dz -> 0 < dt -> reaches b (column_dom c dr k) ->
  (INR k + 1) * IZR c * dr <= b_radius b ->
  exists u0, 0 <= u0 < 1 /\ forall u v, u0 < u < 1 ->
    let '(r, _, i, _) := injected_particle b (column_dom c dr k) dz dt u v in (INR k + 1) * IZR c * dr < r /\ i = d_top (column_dom c dr k).
Proof.
  intros b c dr dz dt k S C D Z T (_ & _ & _ & RB) Top. unfold injected_particle. cbn [column_dom d_dr d_bot d_top] in *.
  destruct (column_radius b c dr k D C) as (E & F & K0 & C0). rewrite E. rewrite mult_IZR, <- INR_IZR_INZ in *.
  unfold upto. rewrite S_INR. rewrite (Rmin_right _ (INR k * IZR c * dr)) by lra. rewrite Rmin_right by lra.
  assert (C1 : 1 <= IZR c) by (apply (IZR_le 1); lia).
  exists (1 - 1 / (2 * IZR c)).
  assert (Q : 0 < 1 / (2 * IZR c)) by (apply Rdiv_lt_0_compat; lra).
  assert (Q1 : 1 / (2 * IZR c) <= 1) by (apply (Rmult_le_reg_r (2 * IZR c)); [lra|]; unfold Rdiv; rewrite Rmult_1_l, Rinv_l; lra).
  split; [lra|]. intros u v [U1 U2].
  assert (H0 : (1 - 1 / (2 * IZR c)) * (IZR c * dr) < u * (IZR c * dr)) by (apply Rmult_lt_compat_r; lra).
  replace ((1 - 1 / (2 * IZR c)) * (IZR c * dr)) with (IZR c * dr - dr / 2) in H0 by (field; lra).
  assert (H1 : u * (IZR c * dr) < IZR c * dr) by nra.
  split; [lra|]. apply Int_part_unique.
  rewrite mult_IZR, plus_IZR, <- INR_IZR_INZ.
  match goal with |- context [?a / dr] => set (r := a) end. assert (B : (INR k + 1) * IZR c * dr <= r < (INR k + 1) * IZR c * dr + dr) by (unfold r; lra).
  replace r with (r / dr * dr) in B by (field; lra). split.
  - apply (Rmult_le_reg_r dr); lra.
  - apply (Rmult_lt_reg_r dr); lra.
Qed.
(** the generator reaches all of [0, 1): the longitudinal position leaves the first cell when the beam crosses more than half a cell
    per step *)
Theorem C144_first_cell_refuted : forall b d dz dt u v, 0 < dz -> dz / 2 < b_velocity b * dt -> dz / (2 * (b_velocity b * dt)) <= v < 1 ->
  let '(_, z, _, _) := injected_particle b d dz dt u v in dz <= z.
Proof.
  intros b d dz dt u v Z H [V _]. unfold injected_particle. set (l := b_velocity b * dt) in *.
  assert (dz / (2 * l) * l <= v * l) by (apply Rmult_le_compat_r; lra).
  replace (dz / (2 * l) * l) with (dz / 2) in H0 by (field; lra). lra.
Qed.
Example C144_ex : sane (b_ex 2 3) /\ reaches (b_ex 2 3) (column_dom 4 1 0) /\ b_radius (b_ex 2 3) <= (INR 0 + 1) * IZR 4 * 1 /\
  (INR 0 + 1) * IZR 4 * 1 <= b_radius (b_ex 2 3) /\ 1 / 2 < b_velocity (b_ex 2 3) * 1.
Proof.
  split; [unfold sane, b_ex; cbn; repeat split; lra || lia|]. split; [unfold reaches, b_ex; cbn; repeat split; lra|]. cbn [b_ex b_radius b_velocity INR]. lra.
Qed.

Print Assumptions C143_density_partial.
Print Assumptions C143_hollow_refuted.
Print Assumptions C143_total_refuted.
Print Assumptions C143_unique.
Print Assumptions C144_places_partial.
Print Assumptions C144_outside_refuted.
Print Assumptions C144_domain_refuted.
Print Assumptions C144_first_cell_refuted.
