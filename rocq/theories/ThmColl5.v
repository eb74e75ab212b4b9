(** C130 (continued): the variance of SK98, the limit for dense plasmas and the formula for fast pairs of P12.
    C136: the cosines of P12 are distributed as they should be. *)
From Coq Require Import Reals List Lra Psatz Lia ZArith.
From Verif Require Import Base PushModel CollOpModel CollOpProofs ThmPush ThmColl2 ThmColl3 ThmColl4.
Import ListNotations.
Open Scope R_scope.

(** ** SK98 *)
(** a pair is scattered by the number drawn for the variance that belongs to the lower of the two densities: no other
    value of the generator matters *)
Theorem C130_sk98_draw : forall c eps0 hbar mnzl step ma mb qa qb pa pb na nb debye normal normal' phi,
  let heavy := rlt 1 (weight pa / weight pb) in
  let m1 := if heavy then mb else ma in let m2 := if heavy then ma else mb in
  let v1 := if heavy then velocity pb else velocity pa in let v2 := if heavy then velocity pa else velocity pb in
  (forall x, to_cm c m1 m2 v1 v2 = Ok (Some x) ->
     let sigma := sqrt (collision_frequency eps0 qa qb (Rmin na nb) (coulomb_logarithm hbar m1 m2 debye (cm_vrel x)) (cm_prel x) (cm_vrel x) * step) in
     normal sigma = normal' sigma) ->
  sk98_single c eps0 hbar mnzl step ma mb qa qb pa pb na nb debye normal phi =
  sk98_single c eps0 hbar mnzl step ma mb qa qb pa pb na nb debye normal' phi.
Proof.
  intros c eps0 hbar mnzl step ma mb qa qb pa pb na nb debye normal normal' phi. cbv zeta. unfold sk98_single. cbv zeta.
  assert (S : forall n L p v, collision_frequency eps0 qb qa n L p v = collision_frequency eps0 qa qb n L p v)
    by (intros; unfold collision_frequency; f_equal; f_equal; ring).
  destruct (rlt 1 (weight pa / weight pb)); cbv iota; intros H; [f_equal|];
    unfold sk98_sorted; destruct (veqb _ _); try reflexivity; destruct (to_cm c _ _ _ _) as [[x|]| |]; try reflexivity;
    specialize (H x eq_refl); rewrite ?S, ?(Rmin_comm nb na); rewrite H; reflexivity.
Qed.

(** ** P12: pairs of a dense plasma *)
(** the limit of lines 189-201 *)
Definition dense_limit (step ma mb na nb vrel : R) : R :=
  Rpower (4 / 3 * PI) (1 / 3) * Rmax na nb * step * (ma + mb) / Rmax (ma * Rpower na (2 / 3)) (mb * Rpower nb (2 / 3)) * vrel.
Lemma dens_eq na nb : 0 < na -> 0 < nb -> na * nb / Rmin na nb = Rmax na nb.
Proof. intros A B. unfold Rmin, Rmax. destruct (Rle_dec na nb); field; lra. Qed.
Theorem C130_p12_dense : forall c eps0 lim step ma mb qa qb va vb pa na nb L ga gb x,
  eps0 <> 0 -> 0 < ma -> 0 < mb -> 0 < na -> 0 < nb -> cm_vrel x <> 0 ->
  rlt (lim * lim) (len2 va) = false -> rlt (lim * lim) (len2 vb) = false -> cm_vrel x < 1000000 -> 7 * 10 ^ 13 < Rmax na nb ->
  p12_s c eps0 lim step ma mb qa qb va vb pa na nb L ga gb x =
  Rmin (2 * (collision_frequency eps0 qa qb (Rmax na nb) L (reduced ma mb * cm_vrel x) (cm_vrel x) * step))
       (dense_limit step ma mb na nb (cm_vrel x)).
Proof.
  intros c eps0 lim step ma mb qa qb va vb pa na nb L ga gb x E Ha Hb Na Nb V La Lb Lv D. unfold p12_s. cbv zeta.
  rewrite La, Lb. cbn [orb]. rewrite dens_eq by assumption. rewrite (rlt_t (cm_vrel x)) by exact Lv. rewrite (rlt_t (7 * 10 ^ 13)) by exact D. cbn [andb].
  f_equal. unfold collision_frequency, reduced. assert (Pi := PI_RGT_0). field. repeat split; try lra; nra.
Qed.
(** for equal particles the limit is a mean free path of half the mean distance of the particles: the sphere of radius r holds one
    particle *)
Theorem C130_dense_distance : forall step m n vrel r, 0 < m -> 0 < n -> 0 < r -> 4 / 3 * PI * r ^ 3 * n = 1 ->
  dense_limit step m m n n vrel = 2 * (vrel * step) / r.
Proof.
  intros step m n vrel r M N P H. unfold dense_limit. assert (Pi := PI_RGT_0).
  assert (X : Rpower (4 / 3 * PI) (1 / 3) * n = Rpower n (2 / 3) / r).
  { assert (K : 4 / 3 * PI = Rpower r (- (3)) * / n).
    { apply (Rmult_eq_reg_r (r ^ 3 * n)); [|assert (0 < r ^ 3) by (apply pow_lt; exact P); nra].
      rewrite <- Rmult_assoc, H. rewrite Rpower_Ropp. rewrite <- (Rpower_pow 3 r P). replace (INR 3) with 3 by (cbn; lra).
      assert (0 < Rpower r 3) by apply exp_pos. field. split; lra. }
    rewrite K, <- Rpower_mult_distr; [|apply exp_pos|now apply Rinv_0_lt_compat].
    rewrite Rpower_mult. replace (- (3) * (1 / 3)) with (- (1)) by lra. rewrite Rpower_Ropp, Rpower_1 by exact P.
    replace (/ n) with (Rpower n (- (1))) by (now rewrite Rpower_Ropp, Rpower_1).
    rewrite Rpower_mult. replace (- (1) * (1 / 3)) with (2 / 3 + - (1)) by lra. rewrite Rpower_plus, (Rpower_Ropp n 1), Rpower_1 by exact N.
    field. split; lra. }
  replace (Rmax n n) with n by (unfold Rmax; destruct (Rle_dec n n); reflexivity). rewrite X. unfold Rmax. destruct (Rle_dec _ _); (assert (0 < Rpower n (2 / 3)) by apply exp_pos; field; repeat split; lra).
Qed.

(** ** P12: fast pairs *)
(** the formula of Perez et al., in terms of the momentum in the center-of-mass frame; it does not depend on the order of the
    two particles *)
Definition perez_s (c eps0 dens step L qa qb ma mb ga gb gcm gas gbs p : R) : R :=
  dens * step * L * (qa * qb) ^ 2 / (4 * PI * eps0 ^ 2 * c ^ 4 * (ma * ga) * (mb * gb))
  * (gcm * p / (ma * ga + mb * gb)) * ((ma * gas) * (mb * gbs) * c ^ 2 / p ^ 2 + 1) ^ 2.
Lemma perez_sym c eps0 dens step L qa qb ma mb ga gb gcm gas gbs p :
  perez_s c eps0 dens step L qb qa mb ma gb ga gcm gbs gas p = perez_s c eps0 dens step L qa qb ma mb ga gb gcm gas gbs p.
Proof.
  unfold perez_s. rewrite (Rplus_comm (mb * gb)), (Rmult_comm qb), (Rmult_comm (mb * gbs)).
  replace (4 * PI * eps0 ^ 2 * c ^ 4 * (mb * gb) * (ma * ga)) with (4 * PI * eps0 ^ 2 * c ^ 4 * (ma * ga) * (mb * gb)) by ring. reflexivity.
Qed.
(** the code multiplies by the momentum of the first particle in the laboratory frame (line 173) *)
Theorem C130_fast_refuted : forall c eps0 lim step ma mb qa qb va vb pa na nb L ga gb x,
  0 < c -> eps0 <> 0 -> 0 < ma -> 0 < mb -> 0 < na -> 0 < nb -> 0 < ga -> 0 < gb -> cm_pa x <> zero3 ->
  rlt (lim * lim) (len2 va) = true \/ rlt (lim * lim) (len2 vb) = true -> 1000000 <= cm_vrel x ->
  p12_s c eps0 lim step ma mb qa qb va vb pa na nb L ga gb x =
  perez_s c eps0 (Rmax na nb) step L qa qb ma mb ga gb (cm_gamma x) (cm_p0a x / ma / c) (cm_p0b x / mb / c) (vlen (cm_pa x))
  * (vlen pa / vlen (cm_pa x)).
Proof.
  intros c eps0 lim step ma mb qa qb va vb pa na nb L ga gb x Hc E Ha Hb Na Nb Ga Gb P F V. unfold p12_s. cbv zeta.
  rewrite dens_eq by assumption. rewrite (rlt_f (cm_vrel x)) by exact V. cbn [andb].
  replace (rlt (lim * lim) (len2 va) || rlt (lim * lim) (len2 vb))%bool with true by (destruct F as [-> | ->]; [reflexivity|now rewrite Bool.orb_true_r]).
  unfold perez_s. assert (Pi := PI_RGT_0). assert (L2 : 0 < len2 (cm_pa x)) by (apply len2_pos; exact P).
  assert (L1 : 0 < vlen (cm_pa x)) by (apply sqrt_lt_R0; exact L2).
  assert (Q : len2 (cm_pa x) = vlen (cm_pa x) ^ 2) by (unfold vlen; rewrite pow2_sqrt; lra). rewrite Q.
  assert (0 < ma * ga) by nra. assert (0 < mb * gb) by nra. field. repeat split; lra.
Qed.
(** the pair of C80_ex: the target at rest.  The two momenta are 3/4 and sqrt (9/40) *)
Example C130_fast_ex : len2 (lab_momentum 1 1 fast) = 9 / 16 /\ len2 (cm_momentum 1 1 2 fast zero3) = 9 / 40.
Proof.
  split; [rewrite ex_momentum_a; unfold len2; cbn [vx vy vz]; lra|].
  assert (S := cm_factor_sq 1 ltac:(lra) 1 2 fast zero3 ltac:(lra) ltac:(lra) fast_slow rest_slow).
  unfold cm_momentum, boost. rewrite ex_beta, ex_momentum_a, ex_energy_a in *. set (g := cm_factor 1 1 2 fast zero3) in *.
  unfold len2, vdot, vadd, vscale, vsub in *. cbn [vx vy vz] in *.
  assert (G : g * g = 169 / 160) by lra.
  match goal with |- ?x * ?x + ?y * ?y + ?z * ?z = _ => assert (X : x = 6 / 13 * g) by field; assert (Y : y = 0) by field; assert (Z : z = 0) by field end.
  rewrite X, Y. try rewrite Z. nra.
Qed.

(** ** P12: the angle of a scattered pair *)
(** the Debye length is longer by the relative Lorentz factor if one of the two particles is fast *)
Definition debye_used (lim : R) (va vb : v3) (debye g d : R) : Prop :=
  (len2 va <= lim ^ 2 -> len2 vb <= lim ^ 2 -> d = debye) /\ (lim ^ 2 < len2 va \/ lim ^ 2 < len2 vb -> d = debye * g).
Theorem C130_p12_angle : forall c eps0 hbar mnzl lim step ma mb qa qb va vb na nb debye u phi va' vb',
  p12_core c eps0 hbar mnzl lim step ma mb qa qb va vb na nb debye u phi = P12_scatter (Some va') (Some vb') ->
  exists x ga gb pa d cs p', to_cm c ma mb va vb = Ok (Some x) /\ lorenz_factor c (len2 va) = Ok ga /\ lorenz_factor c (len2 vb) = Ok gb /\ momentum c ma va = Ok pa /\
    mnzl <= cm_vrel x /\ na <> 0 /\ nb <> 0 /\ debye_used lim va vb debye (cm_grel x) d /\
    p12_cos (p12_s c eps0 lim step ma mb qa qb va vb pa na nb (coulomb_logarithm hbar ma mb d (cm_vrel x)) ga gb x) u = Some cs /\
    va' = to_velocity c ma (unboost (cm_gamma x) (cm_beta x) p' (cm_p0a x)) /\ vb' = to_velocity c mb (unboost (cm_gamma x) (cm_beta x) (vneg p') (cm_p0b x)) /\
    vdot p' (cm_pa x) = cs * len2 (cm_pa x) /\ len2 p' = len2 (cm_pa x).
Proof.
  intros c eps0 hbar mnzl lim step ma mb qa qb va vb na nb debye u phi va' vb'. unfold p12_core.
  destruct (veqb va vb); [discriminate|]. destruct (to_cm c ma mb va vb) as [[x|]| |] eqn:X;
    [|destruct (req na 0 || req nb 0)%bool; discriminate|discriminate|discriminate].
  destruct (lorenz_factor c (len2 va)) as [ga| |] eqn:Ga; try discriminate. destruct (lorenz_factor c (len2 vb)) as [gb| |] eqn:Gb; try discriminate.
  destruct (momentum c ma va) as [pa| |] eqn:Pa; try discriminate. destruct (req (cm_prel x) 0); [discriminate|]. destruct (rlt (cm_vrel x) mnzl) eqn:V; [discriminate|].
  destruct (req na 0) eqn:Na; [discriminate|]. destruct (req nb 0) eqn:Nb; [discriminate|]. cbn [orb]. cbv zeta.
  set (fast := (rlt (lim * lim) (len2 va) || rlt (lim * lim) (len2 vb))%bool). set (d := if fast then debye * cm_grel x else debye).
  destruct (p12_cos _ u) as [cs|] eqn:C; [|discriminate]. destruct (rlt (1 - cs * cs) 0) eqn:D; [discriminate|]. destruct (req (vx (cm_pa x) * vx (cm_pa x) + vy (cm_pa x) * vy (cm_pa x)) 0) eqn:Q; [discriminate|].
  intros [= <- <-]. exists x, ga, gb, pa, d, cs, (p12_rotate (cm_pa x) (sqrt (1 - cs * cs)) cs phi).
  assert (Vf : ~ cm_vrel x < mnzl) by (intros H; rewrite (rlt_t _ _ H) in V; discriminate).
  assert (Df : ~ 1 - cs * cs < 0) by (intros H; rewrite (rlt_t _ _ H) in D; discriminate).
  assert (Rq : forall a b, req a b = false -> a <> b) by (intros a b E ->; unfold req in E; destruct (Req_EM_T b b); [discriminate|contradiction]).
  apply Rq in Na. apply Rq in Nb. apply Rq in Q. do 4 (split; [assumption || reflexivity|]). split; [lra|]. split; [assumption|]. split; [assumption|]. split.
  { unfold debye_used. replace (lim ^ 2) with (lim * lim) by ring. unfold d, fast. split.
    - intros A B. rewrite (rlt_f (lim * lim) (len2 va)) by exact A. rewrite (rlt_f (lim * lim) (len2 vb)) by exact B. reflexivity.
    - intros [A|A]; [rewrite (rlt_t (lim * lim) (len2 va)) by exact A; reflexivity|rewrite (rlt_t (lim * lim) (len2 vb)) by exact A; now rewrite Bool.orb_true_r]. }
  split; [exact C|]. do 2 (split; [reflexivity|]).
  set (p := cm_pa x) in *. assert (Hq : 0 < vx p * vx p + vy p * vy p) by nra.
  assert (S1 := sqrt_sqrt _ (Rlt_le _ _ Hq)). assert (S2 : 0 < sqrt (vx p * vx p + vy p * vy p)) by (apply sqrt_lt_R0; exact Hq).
  assert (S3 : sqrt (1 - cs * cs) * sqrt (1 - cs * cs) = 1 - cs * cs) by (apply sqrt_sqrt; lra).
  assert (S4 : vlen p * vlen p = len2 p) by (unfold vlen; apply sqrt_sqrt; unfold len2; nra).
  assert (S5 := sin2_cos2 phi). unfold Rsqr in S5.
  unfold p12_rotate. cbv zeta. set (q := sqrt (vx p * vx p + vy p * vy p)) in *. set (s := sqrt (1 - cs * cs)) in *. set (l := vlen p) in *.
  assert (L : len2 p = q * q + vz p * vz p) by (unfold len2; lra).
  split.
  - unfold vdot. cbn [vx vy vz].
    transitivity (s * cos phi * vz p * ((vx p * vx p + vy p * vy p) / q - q) + cs * (vx p * vx p + vy p * vy p + vz p * vz p)); [field; lra|].
    rewrite <- S1. replace (q * q / q - q) with 0 by (field; lra). unfold len2. rewrite S1. ring.
  - unfold len2 at 1. cbn [vx vy vz].
    transitivity (((vx p * vx p + vy p * vy p) / (q * q)) * (s * s) * (vz p * vz p * (cos phi * cos phi) + l * l * (sin phi * sin phi)) + (vx p * vx p + vy p * vy p) * (cs * cs)
                  + 2 * s * cos phi * cs * vz p * ((vx p * vx p + vy p * vy p) / q - q) + q * q * (s * s) * (cos phi * cos phi) + vz p * vz p * (cs * cs)); [field; lra|].
    rewrite <- S1. replace (q * q / q - q) with 0 by (field; lra). replace (q * q / (q * q)) with 1 by (field; lra). rewrite S3, S4, L.
    replace (sin phi * sin phi) with (1 - cos phi * cos phi) by lra. ring.
Qed.


(** * C136: the cosines are distributed as they should be *)
(** [f] is the distribution of the cosines: the share of the draws of the unit interval with a cosine up to [mu] *)
Definition drawn_from (cosine : R -> option R) (F : R -> R) : Prop :=
  forall u, 0 < u <= 1 -> exists cs, cosine u = Some cs /\ F cs = u.
(** Nanbu's distribution with the density exp (a mu) on [-1, 1] *)
Definition nanbu (a mu : R) : R := (exp (a * mu) - exp (- a)) / (exp a - exp (- a)).
Lemma nanbu_ends a : 0 < a -> nanbu a (-1) = 0 /\ nanbu a 1 = 1.
Proof.
  intros A. assert (exp (- a) < exp a) by (apply exp_increasing; lra). unfold nanbu. replace (a * -1) with (- a) by ring. rewrite Rmult_1_r.
  split; field; lra.
Qed.
Lemma nanbu_density a mu : 0 < a -> derivable_pt_lim (nanbu a) mu (a / (exp a - exp (- a)) * exp (a * mu)).
Proof.
  intros A. assert (exp (- a) < exp a) by (apply exp_increasing; lra). unfold nanbu.
  replace (a / (exp a - exp (- a)) * exp (a * mu)) with ((exp (a * mu) * (a * 1) - 0) * / (exp a - exp (- a)) + (exp (a * mu) - exp (- a)) * 0) by (field; lra).
  apply (derivable_pt_lim_mult (fun mu => exp (a * mu) - exp (- a)) (fun _ => / (exp a - exp (- a)))).
  - apply (derivable_pt_lim_minus (fun mu => exp (a * mu)) (fun _ => exp (- a))); [|apply derivable_pt_lim_const].
    rewrite Rmult_comm. rewrite Rmult_comm. apply (derivable_pt_lim_comp (fun mu => a * mu) exp); [|apply derivable_pt_lim_exp].
    apply (derivable_pt_lim_scal id a). apply derivable_pt_lim_id.
  - apply derivable_pt_lim_const.
Qed.

Lemma exp_gap a : 0 < a -> 0 < exp a - exp (- a).
Proof. intros A. assert (exp (- a) < exp a) by (apply exp_increasing; lra). lra. Qed.
Lemma two_sinh a : 2 * sinh a = exp a - exp (- a).
Proof. unfold sinh. field. Qed.
Lemma nanbu_inverse a u : 0 < a -> 0 <= u -> nanbu a (/ a * ln (exp (- a) + 2 * u * sinh a)) = u.
Proof.
  intros A U. assert (G := exp_gap a A). assert (E := exp_pos (- a)). unfold nanbu.
  replace (2 * u * sinh a) with (u * (exp a - exp (- a))) by (rewrite <- two_sinh; ring).
  rewrite <- Rmult_assoc, Rinv_r, Rmult_1_l, exp_ln by nra. field. lra.
Qed.
Lemma ainv_pos s : 1 / 10 <= s <= 3 -> 0 < p12_ainv s.
Proof. intros H. unfold p12_ainv. nra. Qed.

(** small, medium and large [s]: an exponential distribution of 1 - cos with the mean s, Nanbu's distribution with the parameter
    given by a fit or by an exponential, and the isotropic distribution *)
Theorem C136_distribution : forall s,
  (0 < s < 1 / 10 -> drawn_from (p12_cos s) (fun mu => exp ((mu - 1) / s))) /\
  (1 / 10 <= s < 3 -> drawn_from (p12_cos s) (nanbu (/ p12_ainv s))) /\
  (3 <= s < 6 -> drawn_from (p12_cos s) (nanbu (3 * exp (- s)))) /\
  (6 <= s -> drawn_from (p12_cos s) (fun mu => (mu + 1) / 2)).
Proof.
  intros s. repeat split; intros H u U; unfold p12_cos.
  - rewrite rlt_t, req_f by lra. eexists. split; [reflexivity|]. replace ((1 + s * ln u - 1) / s) with (ln u) by (field; lra). apply exp_ln. lra.
  - rewrite rlt_f, rlt_t by lra. eexists. split; [reflexivity|]. cbv zeta. assert (P := ainv_pos s ltac:(lra)).
    replace (1 / p12_ainv s) with (/ p12_ainv s) by (field; lra). replace (p12_ainv s) with (/ / p12_ainv s) at 2 by (field; lra).
    apply nanbu_inverse; [now apply Rinv_0_lt_compat|lra].
  - rewrite rlt_f, rlt_f, rlt_t by lra. eexists. split; [reflexivity|]. cbv zeta. assert (P := exp_pos (- s)).
    replace (1 / (3 * exp (- s))) with (/ (3 * exp (- s))) by (field; lra). apply nanbu_inverse; lra.
  - rewrite !rlt_f by lra. eexists. split; [reflexivity|]. field.
Qed.

(** ** The mean cosine *)
(** [m] is the mean of [f] over the draws: the integral from 0 to 1 by an antiderivative *)
Definition mean_over_draws (f : R -> option R) (m : R) : Prop :=
  exists G : R -> R,
    (forall u, 0 < u <= 1 -> exists cs, f u = Some cs /\ derivable_pt_lim G u cs) /\
    (forall eps, 0 < eps -> exists d, 0 < d /\ forall u, 0 < u < d -> Rabs (G u - G 0) < eps) /\
    G 1 - G 0 = m.
Definition langevin (a : R) : R := (exp a + exp (- a)) / (exp a - exp (- a)) - / a.

Lemma x_ln_x x : 0 < x -> derivable_pt_lim (fun x => x * ln x - x) x (ln x).
Proof.
  intros X. replace (ln x) with ((1 * ln x + x * / x) - 1) by (field; lra).
  apply (derivable_pt_lim_minus (fun x => x * ln x) id); [|apply derivable_pt_lim_id].
  apply (derivable_pt_lim_mult id ln); [apply derivable_pt_lim_id|now apply derivable_pt_lim_ln].
Qed.
Lemma right_cont G : continuity_pt G 0 -> forall eps, 0 < eps -> exists d, 0 < d /\ forall u, 0 < u < d -> Rabs (G u - G 0) < eps.
Proof.
  intros C eps E. destruct (C eps E) as [d [D H]]. exists d. split; [exact D|]. intros u U. apply (H u). split.
  - split; [exact I|]. lra.
  - cbn. unfold R_dist. rewrite Rabs_right; lra.
Qed.
Lemma x_ln_small x : 0 < x < 1 -> Rabs (x * ln x) <= 2 * sqrt x.
Proof.
  intros X. assert (S : 0 < sqrt x) by (apply sqrt_lt_R0; lra). assert (Q : sqrt x * sqrt x = x) by (apply sqrt_sqrt; lra).
  assert (L : ln x < 0) by (rewrite <- ln_1; apply ln_increasing; lra).
  assert (K : ln (/ sqrt x) <= / sqrt x - 1).
  { assert (I : 0 < / sqrt x) by now apply Rinv_0_lt_compat. assert (E := exp_ineq1_le (/ sqrt x - 1)).
    rewrite <- (ln_exp (/ sqrt x - 1)). destruct (Rle_lt_or_eq_dec _ _ E) as [E1|E1]; [left; apply ln_increasing; lra|right; f_equal; lra]. }
  rewrite ln_Rinv in K by exact S. assert (L2 : ln x = 2 * ln (sqrt x)) by (rewrite <- Q at 1; rewrite ln_mult by exact S; ring).
  rewrite Rabs_left by nra. assert (I : / sqrt x * x = sqrt x) by (rewrite <- Q at 2; field; lra). nra.
Qed.
Lemma nanbu_mean a : 0 < a -> exists G, (forall u, 0 <= u <= 1 -> derivable_pt_lim G u (/ a * ln (exp (- a) + 2 * u * sinh a))) /\ G 1 - G 0 = langevin a.
Proof.
  intros A. assert (G := exp_gap a A). assert (E := exp_pos (- a)). assert (T := two_sinh a).
  set (k := 2 * sinh a) in *. set (w := fun u => exp (- a) + k * u).
  exists (fun u => / a * / k * (w u * ln (w u) - w u)). split.
  - intros u U. replace (exp (- a) + 2 * u * sinh a) with (w u) by (unfold w, k; ring).
    assert (W : 0 < w u) by (unfold w; nra).
    replace (/ a * ln (w u)) with (/ a * / k * (ln (w u) * (0 + k * 1))) by (field; lra).
    apply (derivable_pt_lim_scal (fun u => w u * ln (w u) - w u) (/ a * / k)).
    apply (derivable_pt_lim_comp w (fun x => x * ln x - x)); [|now apply x_ln_x].
    apply (derivable_pt_lim_plus (fun _ => exp (- a)) (fun u => k * u)); [apply derivable_pt_lim_const|].
    apply (derivable_pt_lim_scal id k), derivable_pt_lim_id.
  - replace (w 1) with (exp a) by (unfold w; lra). replace (w 0) with (exp (- a)) by (unfold w; lra).
    rewrite !ln_exp, T. unfold langevin. field. split; lra.
Qed.
Lemma nanbu_mean_over f a : 0 < a -> (forall u, 0 < u <= 1 -> f u = Some (/ a * ln (exp (- a) + 2 * u * sinh a))) ->
  mean_over_draws f (langevin a).
Proof.
  intros A H. destruct (nanbu_mean a A) as [G [D M]]. exists G. split; [|split].
  - intros u U. eexists. split; [apply H; exact U|apply D; lra].
  - apply right_cont. apply derivable_continuous_pt. eexists. apply (D 0). lra.
  - exact M.
Qed.
Theorem C136_mean : forall s, 0 < s ->
  mean_over_draws (p12_cos s)
    (if rlt s (1 / 10) then 1 - s else if rlt s 3 then langevin (/ p12_ainv s) else if rlt s 6 then langevin (3 * exp (- s)) else 0).
Proof.
  intros s S. unfold p12_cos. destruct (rlt s (1 / 10)) eqn:E1.
  - apply rlt_true in E1. exists (fun u => u + s * (u * ln u - u)). split; [|split].
    + intros u U. rewrite req_f by lra. eexists. split; [reflexivity|].
      apply (derivable_pt_lim_plus id (fun u => s * (u * ln u - u))); [apply derivable_pt_lim_id|].
      apply (derivable_pt_lim_scal (fun u => u * ln u - u) s). apply x_ln_x. lra.
    + intros eps E. set (d := Rmin 1 (eps * eps / 16)). exists d. assert (D : 0 < d) by (unfold d; apply Rmin_pos; nra). split; [exact D|].
      intros u U. assert (U1 : u < 1) by (assert (M := Rmin_l 1 (eps * eps / 16)); fold d in M; lra).
      assert (U2 : u < eps * eps / 16) by (assert (M := Rmin_r 1 (eps * eps / 16)); fold d in M; lra).
      assert (B := x_ln_small u ltac:(lra)). assert (Q : sqrt u * sqrt u = u) by (apply sqrt_sqrt; lra). assert (P : 0 < sqrt u) by (apply sqrt_lt_R0; lra).
      assert (V : sqrt u < eps / 4) by nra. assert (V1 : sqrt u < 1) by nra.
      assert (Bl : - (2 * sqrt u) <= u * ln u <= 2 * sqrt u) by (unfold Rabs in B; destruct (Rcase_abs (u * ln u)); lra).
      rewrite Rmult_0_l. replace (u + s * (u * ln u - u) - (0 + s * (0 - 0))) with (u * (1 - s) + s * (u * ln u)) by ring.
      apply Rabs_def1; nra.
    + rewrite ln_1. ring.
  - apply rlt_false in E1. destruct (rlt s 3) eqn:E2.
    + apply rlt_true in E2. assert (P := ainv_pos s ltac:(lra)). apply nanbu_mean_over; [now apply Rinv_0_lt_compat|].
      intros u U. cbv zeta. rewrite Rinv_inv. replace (1 / p12_ainv s) with (/ p12_ainv s) by (field; lra). reflexivity.
    + destruct (rlt s 6) eqn:E3.
      * assert (P := exp_pos (- s)). apply nanbu_mean_over; [lra|]. intros u U. cbv zeta. f_equal. field. lra.
      * exists (fun u => u * u - u). split; [|split].
        -- intros u U. eexists. split; [reflexivity|]. replace (2 * u - 1) with (1 * u + u * 1 - 1) by ring.
           apply (derivable_pt_lim_minus (fun u => u * u) id); [|apply derivable_pt_lim_id]. apply (derivable_pt_lim_mult id id); apply derivable_pt_lim_id.
        -- intros eps E. exists (Rmin 1 eps). split; [apply Rmin_pos; lra|]. intros u U. assert (M := Rmin_l 1 eps). assert (N := Rmin_r 1 eps).
           apply Rabs_def1; nra.
        -- ring.
Qed.

(** ** The mean cosine decays like exp (- s) *)
(** if the derivative is not negative, the function grows *)
Lemma grows (f f' : R -> R) a b : a <= b -> (forall x, a <= x <= b -> derivable_pt_lim f x (f' x)) -> (forall x, a <= x <= b -> 0 <= f' x) -> f a <= f b.
Proof.
  intros L D P. destruct (Req_dec a b) as [->|N]; [lra|]. assert (A : a < b) by lra.
  destruct (MVT_cor2 f f' a b A) as [x [E X]]; [intros x X; apply D; lra|]. assert (Q := P x ltac:(lra)). nra.
Qed.
Lemma d_cosh x : derivable_pt_lim cosh x (sinh x).
Proof. apply derivable_pt_lim_cosh. Qed.
Lemma d_sinh x : derivable_pt_lim sinh x (cosh x).
Proof. apply derivable_pt_lim_sinh. Qed.
Lemma cosh_ge_1 x : 1 <= cosh x.
Proof.
  unfold cosh. assert (P := exp_pos x). rewrite exp_Ropp. assert (I : exp x * / exp x = 1) by (field; lra). assert (Q := Rinv_0_lt_compat _ P).
  set (e := exp x) in *. set (i := / e) in *. assert (0 <= (e - 1) * (e - 1)) by (fold (Rsqr (e - 1)); apply Rle_0_sqr).
  assert (0 <= (e - 1) * (e - 1) * i) by (apply Rmult_le_pos; lra). replace ((e - 1) * (e - 1) * i) with (e * (e * i) - 2 * (e * i) + i) in * by ring. rewrite I in *. lra.
Qed.
Lemma sinh_ge x : 0 <= x -> x <= sinh x.
Proof.
  intros X. assert (H := grows (fun x => sinh x - x) (fun x => cosh x - 1) 0 x X). cbn beta in H. rewrite sinh_0 in H.
  assert (0 - 0 <= sinh x - x); [|lra]. apply H.
  - intros y _. apply (derivable_pt_lim_minus sinh id); [apply d_sinh|apply derivable_pt_lim_id].
  - intros y _. assert (C := cosh_ge_1 y). lra.
Qed.
Lemma d_gap x : derivable_pt_lim (fun x => x * cosh x - sinh x) x (x * sinh x).
Proof.
  replace (x * sinh x) with ((1 * cosh x + x * sinh x) - cosh x) by ring.
  apply (derivable_pt_lim_minus (fun x => x * cosh x) sinh); [|apply d_sinh].
  apply (derivable_pt_lim_mult id cosh); [apply derivable_pt_lim_id|apply d_cosh].
Qed.
(** x cosh x - sinh x is at least x^3 / 3 *)
Lemma gap_low x : 0 <= x -> x * x * x / 3 <= x * cosh x - sinh x.
Proof.
  intros X. assert (H := grows (fun x => (x * cosh x - sinh x) - x ^ 3 * / 3) (fun x => x * sinh x - INR 3 * x ^ 2 * / 3) 0 x X).
  cbn beta in H. rewrite sinh_0 in H. assert (0 * cosh 0 - 0 - 0 ^ 3 * / 3 <= x * cosh x - sinh x - x ^ 3 * / 3); [|nra]. apply H.
  - intros y _. apply (derivable_pt_lim_minus (fun x => x * cosh x - sinh x) (fun x => x ^ 3 * / 3)); [apply d_gap|].
    replace (INR 3 * y ^ 2 * / 3) with (INR 3 * y ^ 2 * / 3 + y ^ 3 * 0) by ring.
    apply (derivable_pt_lim_mult (fun x => x ^ 3) (fun _ => / 3)); [apply (derivable_pt_lim_pow y 3)|apply derivable_pt_lim_const].
  - intros y Y. assert (S := sinh_ge y ltac:(lra)). replace (INR 3) with 3 by (cbn; lra). nra.
Qed.
Lemma gap_up x : 0 <= x -> x * cosh x - sinh x <= x * x * sinh x / 3.
Proof.
  intros X. assert (H := grows (fun x => x * x * sinh x * / 3 - (x * cosh x - sinh x)) (fun x => ((1 * x + x * 1) * sinh x + x * x * cosh x) * / 3 + x * x * sinh x * 0 - x * sinh x) 0 x X).
  cbn beta in H. rewrite sinh_0 in H.
  assert (0 * 0 * 0 * / 3 - (0 * cosh 0 - 0) <= x * x * sinh x * / 3 - (x * cosh x - sinh x)); [|lra]. apply H.
  - intros y _. apply (derivable_pt_lim_minus (fun x => x * x * sinh x * / 3) (fun x => x * cosh x - sinh x)); [|apply d_gap].
    apply (derivable_pt_lim_mult (fun x => x * x * sinh x) (fun _ => / 3)); [|apply derivable_pt_lim_const].
    apply (derivable_pt_lim_mult (fun x => x * x) sinh); [|apply d_sinh]. apply (derivable_pt_lim_mult id id); apply derivable_pt_lim_id.
  - intros y Y. assert (G := gap_low y ltac:(lra)). assert (0 <= y * y * y) by (assert (0 <= y * y) by nra; nra). nra.
Qed.
Lemma sinh_pos x : 0 < x -> 0 < sinh x.
Proof. intros X. assert (S := sinh_ge x ltac:(lra)). lra. Qed.
Lemma langevin_eq a : 0 < a -> langevin a = (a * cosh a - sinh a) / (a * sinh a).
Proof.
  intros A. assert (S := sinh_pos a A). assert (G := exp_gap a A). unfold langevin. rewrite <- two_sinh.
  replace (exp a + exp (- a)) with (2 * cosh a) by (unfold cosh; field). field. split; lra.
Qed.
Lemma langevin_up a : 0 < a -> langevin a <= a / 3.
Proof.
  intros A. assert (S := sinh_pos a A). rewrite langevin_eq by exact A. assert (G := gap_up a ltac:(lra)).
  apply (Rmult_le_reg_r (a * sinh a)); [nra|]. unfold Rdiv at 1. rewrite Rmult_assoc, Rinv_l by nra. nra.
Qed.
Lemma langevin_low a : 0 < a -> a / 3 <= langevin a * cosh a.
Proof.
  intros A. assert (S := sinh_pos a A). rewrite langevin_eq by exact A. assert (G := gap_low a ltac:(lra)). assert (C := cosh_ge_1 a).
  apply (Rmult_le_reg_r (a * sinh a)); [nra|].
  replace ((a * cosh a - sinh a) / (a * sinh a) * cosh a * (a * sinh a)) with ((a * cosh a - sinh a) * cosh a) by (field; split; lra).
  assert (H : sinh a <= a * cosh a) by (assert (0 <= a * a * a) by (assert (0 <= a * a) by nra; nra); lra).
  assert (a / 3 * (a * sinh a) <= a / 3 * (a * (a * cosh a))) by (apply Rmult_le_compat_l; [lra|]; apply Rmult_le_compat_l; lra). nra.
Qed.
(** [langevin] grows with its argument *)
Lemma langevin_grows a b : 0 < a -> a <= b -> langevin a <= langevin b.
Proof.
  intros A B. rewrite !langevin_eq by lra.
  set (f' := fun x => (x * sinh x * (x * sinh x) - (1 * sinh x + x * cosh x) * (x * cosh x - sinh x)) / Rsqr (x * sinh x)).
  apply (grows (fun x => (x * cosh x - sinh x) / (x * sinh x)) f' a b B).
  - intros x X. assert (S := sinh_pos x ltac:(lra)). apply (derivable_pt_lim_div (fun x => x * cosh x - sinh x) (fun x => x * sinh x)).
    + apply d_gap.
    + apply (derivable_pt_lim_mult id sinh); [apply derivable_pt_lim_id|apply d_sinh].
    + nra.
  - intros x X. assert (S := sinh_pos x ltac:(lra)). unfold f'. apply Rmult_le_pos; [|left; apply Rinv_0_lt_compat; unfold Rsqr; assert (0 < x * sinh x) by nra; nra].
    assert (I : cosh x * cosh x - sinh x * sinh x = 1).
    { unfold cosh, sinh. assert (E : exp x * exp (- x) = 1) by (rewrite <- exp_plus, Rplus_opp_r; apply exp_0). lra. }
    assert (G := sinh_ge x ltac:(lra)). nra.
Qed.

(** ** The fit: bounds of exponentials with fixed-point numbers *)
Definition unit_z : Z := 2 ^ 40.
Definition fx (z : Z) : R := IZR z / IZR unit_z.
Definition down (n : nat) (z : Z) : Z := Nat.iter n (fun z => Z.shiftr (z * z) 40) z.
Lemma unit_pos : 0 < IZR unit_z.
Proof. apply (IZR_lt 0). reflexivity. Qed.
Lemma fx_le a b : (a <= b)%Z -> fx a <= fx b.
Proof. intros H. apply IZR_le in H. unfold fx. assert (U := unit_pos). apply Rmult_le_compat_r; [left; now apply Rinv_0_lt_compat|exact H]. Qed.
Lemma div_le a b : (0 < b)%Z -> IZR (a / b) <= IZR a / IZR b.
Proof.
  intros B. assert (D := Z.mul_div_le a b B). apply IZR_le in D. rewrite mult_IZR in D. apply IZR_lt in B.
  apply (Rmult_le_reg_l (IZR b)); [exact B|]. replace (IZR b * (IZR a / IZR b)) with (IZR a) by (field; lra). exact D.
Qed.
Lemma down_ge n : forall z, (0 <= z)%Z -> (0 <= down n z)%Z.
Proof. induction n as [|n IH]; intros z Z; [exact Z|]. change (down (S n) z) with (Z.shiftr (down n z * down n z) 40). apply Z.shiftr_nonneg. apply IH in Z. nia. Qed.
Lemma down_exp n : forall z t, (0 <= z)%Z -> fx z <= exp t -> fx (down n z) <= exp (2 ^ n * t).
Proof.
  induction n as [|n IH]; intros z t Z H.
  - cbn [down Nat.iter]. replace (2 ^ 0 * t) with t by ring. exact H.
  - specialize (IH z t Z H). assert (P := down_ge n z Z). change (down (S n) z) with (Z.shiftr (down n z * down n z) 40). rewrite Z.shiftr_div_pow2 by lia. change (2 ^ 40)%Z with unit_z.
    replace (2 ^ S n * t) with (2 ^ n * t + 2 ^ n * t) by (cbn [pow]; ring). rewrite exp_plus.
    apply Rle_trans with (fx (down n z) * fx (down n z)).
    + unfold fx at 1. assert (U := unit_pos). assert (D := div_le (down n z * down n z) unit_z ltac:(reflexivity)). rewrite mult_IZR in D.
      apply (Rmult_le_compat_r (/ IZR unit_z)) in D; [|left; now apply Rinv_0_lt_compat]. unfold fx. unfold Rdiv in *. nra.
    + assert (0 <= fx (down n z)). { unfold fx. apply IZR_le in P. apply Rmult_le_pos; [exact P|left; apply Rinv_0_lt_compat, unit_pos]. }
      apply Rmult_le_compat; assumption.
Qed.
(** not above exp x and exp (- x) *)
Definition exp_lo (x : Z) : Z := down 12 (unit_z + x / 4096).
Definition neg_lo (x : Z) : Z := down 12 (Z.max 0 (unit_z - x / 4096 - 1)).
Lemma fx_plus a b : fx (a + b) = fx a + fx b.
Proof. unfold fx. rewrite plus_IZR. assert (U := unit_pos). field. lra. Qed.
Lemma fx_unit : fx unit_z = 1.
Proof. unfold fx. assert (U := unit_pos). field. lra. Qed.
Lemma exp_lo_spec x : (0 <= x)%Z -> fx (exp_lo x) <= exp (fx x).
Proof.
  intros X. unfold exp_lo. replace (fx x) with (2 ^ 12 * (fx x / 4096)) by (replace (2 ^ 12) with 4096 by (cbn; lra); field).
  apply down_exp; [assert (0 <= x / 4096)%Z by (apply Z.div_pos; lia); unfold unit_z; lia|].
  apply Rle_trans with (1 + fx x / 4096); [|apply exp_ineq1_le]. rewrite fx_plus, fx_unit. apply Rplus_le_compat_l.
  assert (D := div_le x 4096 ltac:(reflexivity)). assert (U := unit_pos). unfold fx.
  apply (Rmult_le_compat_r (/ IZR unit_z)) in D; [|left; now apply Rinv_0_lt_compat]. unfold Rdiv in *. nra.
Qed.
Lemma neg_lo_spec x : (0 <= x)%Z -> fx (neg_lo x) <= exp (- fx x).
Proof.
  intros X. unfold neg_lo. replace (- fx x) with (2 ^ 12 * (- (fx x / 4096))) by (replace (2 ^ 12) with 4096 by (cbn; lra); field).
  apply down_exp; [lia|]. destruct (Z.max_spec 0 (unit_z - x / 4096 - 1)) as [[_ ->]|[_ ->]].
  - apply Rle_trans with (1 + - (fx x / 4096)); [|apply exp_ineq1_le].
    assert (K : (x <= 4096 * (x / 4096 + 1))%Z) by (assert (M := Z.mod_pos_bound x 4096 ltac:(lia)); assert (E := Z.div_mod x 4096 ltac:(lia)); lia).
    apply fx_le in K. assert (U := unit_pos). apply Rle_trans with (1 - fx (x / 4096 + 1)).
    + replace (unit_z - x / 4096 - 1)%Z with (unit_z + - (x / 4096 + 1))%Z by lia. rewrite fx_plus, fx_unit. right. unfold fx. rewrite opp_IZR. field. lra.
    + assert (M : fx (4096 * (x / 4096 + 1)) = 4096 * fx (x / 4096 + 1)) by (unfold fx; rewrite mult_IZR; field; lra). lra.
  - unfold fx. replace (0 / IZR unit_z) with 0 by (assert (U := unit_pos); field; lra). left. apply exp_pos.
Qed.

(** the fit at s = k / 160 *)
Definition fit_den : Z := 10 ^ 8 * 160 ^ 5.
Definition fit_num (k : Z) : Z :=
  569578 * 160 ^ 5 + 95602020 * k * 160 ^ 4 - 50813900 * k ^ 2 * 160 ^ 3 + 47913906 * k ^ 3 * 160 ^ 2 - 12788975 * k ^ 4 * 160 + 2389567 * k ^ 5.
Lemma fit_spec k : p12_ainv (IZR k / 160) = IZR (fit_num k) / IZR fit_den.
Proof.
  unfold fit_num. repeat first [rewrite plus_IZR | rewrite minus_IZR]. repeat rewrite mult_IZR. rewrite !(pow_IZR k 2) || idtac.
  replace (IZR (k ^ 2)) with (IZR k ^ 2) by (rewrite pow_IZR; reflexivity). replace (IZR (k ^ 3)) with (IZR k ^ 3) by (rewrite pow_IZR; reflexivity).
  replace (IZR (k ^ 4)) with (IZR k ^ 4) by (rewrite pow_IZR; reflexivity). replace (IZR (k ^ 5)) with (IZR k ^ 5) by (rewrite pow_IZR; reflexivity).
  unfold p12_ainv, fit_den. rewrite mult_IZR.
  change (160 ^ 5)%Z with 104857600000%Z. change (160 ^ 4)%Z with 655360000%Z. change (160 ^ 3)%Z with 4096000%Z. change (160 ^ 2)%Z with 25600%Z. change (10 ^ 8)%Z with 100000000%Z.
  field.
Qed.
Lemma ainv_grows s t : s <= t -> p12_ainv s <= p12_ainv t.
Proof.
  intros T. apply (grows p12_ainv (fun s => 0 + 9560202 / 10000000 * 1 - 508139 / 1000000 * (INR 2 * s ^ 1) + 47913906 / 100000000 * (INR 3 * s ^ 2)
    - 12788975 / 100000000 * (INR 4 * s ^ 3) + 2389567 / 100000000 * (INR 5 * s ^ 4)) s t T).
  - intros x _. unfold p12_ainv.
    apply (derivable_pt_lim_plus (fun s => 569578 / 100000000 + 9560202 / 10000000 * s - 508139 / 1000000 * s ^ 2 + 47913906 / 100000000 * s ^ 3 - 12788975 / 100000000 * s ^ 4)
             (fun s => 2389567 / 100000000 * s ^ 5)); [|apply (derivable_pt_lim_scal (fun s => s ^ 5)), (derivable_pt_lim_pow x 5)].
    apply (derivable_pt_lim_minus (fun s => 569578 / 100000000 + 9560202 / 10000000 * s - 508139 / 1000000 * s ^ 2 + 47913906 / 100000000 * s ^ 3)
             (fun s => 12788975 / 100000000 * s ^ 4)); [|apply (derivable_pt_lim_scal (fun s => s ^ 4)), (derivable_pt_lim_pow x 4)].
    apply (derivable_pt_lim_plus (fun s => 569578 / 100000000 + 9560202 / 10000000 * s - 508139 / 1000000 * s ^ 2)
             (fun s => 47913906 / 100000000 * s ^ 3)); [|apply (derivable_pt_lim_scal (fun s => s ^ 3)), (derivable_pt_lim_pow x 3)].
    apply (derivable_pt_lim_minus (fun s => 569578 / 100000000 + 9560202 / 10000000 * s)
             (fun s => 508139 / 1000000 * s ^ 2)); [|apply (derivable_pt_lim_scal (fun s => s ^ 2)), (derivable_pt_lim_pow x 2)].
    apply (derivable_pt_lim_plus (fun _ => 569578 / 100000000) (fun s => 9560202 / 10000000 * s)); [apply derivable_pt_lim_const|].
    apply (derivable_pt_lim_scal id), derivable_pt_lim_id.
  - intros x _. replace (INR 2) with 2 by (cbn; lra). replace (INR 3) with 3 by (cbn; lra). replace (INR 4) with 4 by (cbn; lra). replace (INR 5) with 5 by (cbn; lra).
    assert (P := Rle_0_sqr x). assert (Q := Rle_0_sqr (x * (x - 2))). assert (T1 := Rle_0_sqr (x - 1 / 2)). unfold Rsqr in *. nra.
Qed.

(** both bounds of the mean on the piece from k / 160 to (k + 1) / 160 *)
Definition fit_up (exp_lo neg_lo : Z -> Z) (k : Z) : bool :=
  let e := exp_lo (2 * unit_z * fit_den / fit_num k)%Z in
  let n := neg_lo ((k + 1) * unit_z / 160 + 1)%Z in
  ((unit_z <? e) && (0 <? fit_num k) &&
   ((e + unit_z) * fit_den * unit_z * 100 <=? ((n * 100 + unit_z) * fit_den + fit_num k * unit_z * 100) * (e - unit_z)))%Z.
Definition fit_low (exp_lo neg_lo : Z -> Z) (k : Z) : bool :=
  let n := neg_lo (2 * unit_z * fit_den / fit_num (k + 1) + 1)%Z in
  let e := exp_lo (k * unit_z / 160)%Z in
  ((n <? unit_z) && (0 <? e) && (0 <? fit_num (k + 1)) &&
   (unit_z * fit_den * 100 * (unit_z - n) <=? ((unit_z + n) * fit_den * 100 - fit_num (k + 1) * 100 * (unit_z - n) + fit_den * (unit_z - n)) * e))%Z.
Lemma div_gt a b : (0 < b)%Z -> IZR a / IZR b <= IZR (a / b + 1).
Proof.
  intros B. assert (K : (a <= b * (a / b + 1))%Z) by (assert (M := Z.mod_pos_bound a b B); assert (E := Z.div_mod a b ltac:(lia)); lia).
  apply IZR_le in K. rewrite mult_IZR in K. apply IZR_lt in B. apply (Rmult_le_reg_l (IZR b)); [exact B|].
  replace (IZR b * (IZR a / IZR b)) with (IZR a) by (field; lra). exact K.
Qed.
Lemma fx_div_le a b : (0 < b)%Z -> fx (a / b) <= IZR a / IZR b / IZR unit_z.
Proof. intros B. unfold fx. apply Rmult_le_compat_r; [left; apply Rinv_0_lt_compat, unit_pos|now apply div_le]. Qed.
Lemma fx_div_gt a b : (0 < b)%Z -> IZR a / IZR b / IZR unit_z <= fx (a / b + 1).
Proof. intros B. unfold fx. apply Rmult_le_compat_r; [left; apply Rinv_0_lt_compat, unit_pos|now apply div_gt]. Qed.
Lemma exp_le x y : x <= y -> exp x <= exp y.
Proof. intros [H| ->]; [left; now apply exp_increasing|apply Rle_refl]. Qed.
Lemma fit_den_pos : 0 < IZR fit_den.
Proof. apply (IZR_lt 0). reflexivity. Qed.
(** [langevin] in terms of exp (2 a) and of exp (- 2 a) *)
Lemma langevin_exp p : 0 < p -> langevin (/ p) = (exp (2 / p) + 1) / (exp (2 / p) - 1) - p.
Proof.
  intros P. assert (I : 0 < / p) by now apply Rinv_0_lt_compat. assert (G := exp_gap (/ p) I). unfold langevin. rewrite Rinv_inv.
  assert (E1 := exp_pos (- / p)). assert (E : exp (2 / p) = exp (/ p) * / exp (- / p)).
  { rewrite <- exp_Ropp, <- exp_plus. f_equal. field. lra. }
  rewrite E. field. repeat split; lra.
Qed.
Lemma langevin_neg p : 0 < p -> langevin (/ p) = (1 + exp (- (2 / p))) / (1 - exp (- (2 / p))) - p.
Proof.
  intros P. rewrite langevin_exp by exact P. rewrite exp_Ropp. assert (1 < exp (2 / p)).
  { rewrite <- exp_0. apply exp_increasing. apply Rmult_lt_0_compat; [lra|now apply Rinv_0_lt_compat]. }
  field. split; lra.
Qed.
Lemma frac_up e x : 1 < e -> e <= x -> (x + 1) / (x - 1) <= (e + 1) / (e - 1).
Proof.
  intros E X. apply (Rmult_le_reg_r ((x - 1) * (e - 1))); [nra|].
  replace ((x + 1) / (x - 1) * ((x - 1) * (e - 1))) with ((x + 1) * (e - 1)) by (field; lra).
  replace ((e + 1) / (e - 1) * ((x - 1) * (e - 1))) with ((e + 1) * (x - 1)) by (field; lra). nra.
Qed.
Lemma frac_low n q : n <= q -> q < 1 -> (1 + n) / (1 - n) <= (1 + q) / (1 - q).
Proof.
  intros N Q. apply (Rmult_le_reg_r ((1 - n) * (1 - q))); [nra|].
  replace ((1 + n) / (1 - n) * ((1 - n) * (1 - q))) with ((1 + n) * (1 - q)) by (field; lra).
  replace ((1 + q) / (1 - q) * ((1 - n) * (1 - q))) with ((1 + q) * (1 - n)) by (field; lra). nra.
Qed.
Lemma up_arith ze zn u d f : 0 < u -> 0 < d -> u < ze -> (ze + u) * d * u * 100 <= ((zn * 100 + u) * d + f * u * 100) * (ze - u) ->
  (ze / u + 1) / (ze / u - 1) - f / d <= zn / u + 1 / 100.
Proof.
  intros U D E H. apply (Rmult_le_reg_r ((ze - u) * d * u * 100)); [assert (0 < (ze - u) * d) by nra; nra|].
  replace (((ze / u + 1) / (ze / u - 1) - f / d) * ((ze - u) * d * u * 100)) with ((ze + u) * d * u * 100 - f * u * 100 * (ze - u)) by (field; lra).
  replace ((zn / u + 1 / 100) * ((ze - u) * d * u * 100)) with ((zn * 100 + u) * d * (ze - u)) by (field; lra). lra.
Qed.
Lemma low_arith ze zn u d f : 0 < u -> 0 < d -> 0 < ze -> zn < u ->
  u * d * 100 * (u - zn) <= ((u + zn) * d * 100 - f * 100 * (u - zn) + d * (u - zn)) * ze ->
  / (ze / u) - 1 / 100 <= (1 + zn / u) / (1 - zn / u) - f / d.
Proof.
  intros U D E N H. apply (Rmult_le_reg_r ((u - zn) * d * 100 * ze)); [assert (0 < (u - zn) * d) by nra; nra|].
  replace ((/ (ze / u) - 1 / 100) * ((u - zn) * d * 100 * ze)) with (u * d * 100 * (u - zn) - d * (u - zn) * ze) by (field; lra).
  replace (((1 + zn / u) / (1 - zn / u) - f / d) * ((u - zn) * d * 100 * ze)) with (((u + zn) * d * 100 - f * 100 * (u - zn)) * ze) by (field; lra). lra.
Qed.
Lemma up_core u d f e n p s : (0 < u)%Z -> (0 < d)%Z -> (u < e)%Z -> (0 < f)%Z ->
  ((e + u) * d * u * 100 <= ((n * 100 + u) * d + f * u * 100) * (e - u))%Z ->
  p = IZR f / IZR d -> IZR e / IZR u <= exp (2 / p) -> IZR n / IZR u <= exp (- s) -> langevin (/ p) <= exp (- s) + 1 / 100.
Proof.
  intros U D E F H P He Hn. apply IZR_le in H. repeat first [rewrite mult_IZR in H | rewrite plus_IZR in H | rewrite minus_IZR in H].
  apply IZR_lt in U, D, E, F. assert (Q : 0 < p) by (rewrite P; now apply Rdiv_lt_0_compat).
  assert (A := up_arith _ _ _ _ _ U D E H). rewrite <- P in A. rewrite langevin_exp by exact Q.
  assert (E1 : 1 < IZR e / IZR u) by (apply (Rmult_lt_reg_r (IZR u)); [exact U|]; replace (IZR e / IZR u * IZR u) with (IZR e) by (field; lra); lra).
  assert (W := frac_up _ _ E1 He). lra.
Qed.
Lemma low_core u d f e n p s : (0 < u)%Z -> (0 < d)%Z -> (0 < e)%Z -> (n < u)%Z -> (0 < f)%Z ->
  (u * d * 100 * (u - n) <= ((u + n) * d * 100 - f * 100 * (u - n) + d * (u - n)) * e)%Z ->
  p = IZR f / IZR d -> IZR e / IZR u <= exp s -> IZR n / IZR u <= exp (- (2 / p)) -> exp (- s) - 1 / 100 <= langevin (/ p).
Proof.
  intros U D E N F H P He Hn. apply IZR_le in H. repeat first [rewrite mult_IZR in H | rewrite plus_IZR in H | rewrite minus_IZR in H].
  apply IZR_lt in U, D, E, N, F. assert (Q : 0 < p) by (rewrite P; now apply Rdiv_lt_0_compat).
  assert (A := low_arith _ _ _ _ _ U D E N H). rewrite <- P in A. rewrite langevin_neg by exact Q.
  assert (Ep : 0 < IZR e / IZR u) by now apply Rdiv_lt_0_compat.
  assert (Es : exp (- s) <= / (IZR e / IZR u)) by (rewrite exp_Ropp; now apply Rinv_le_contravar).
  assert (L1 : exp (- (2 / p)) < 1) by (rewrite <- exp_0; apply exp_increasing; assert (0 < 2 / p) by (apply Rdiv_lt_0_compat; lra); lra).
  assert (W := frac_low _ _ Hn L1). lra.
Qed.
Lemma x_low u d f p : (0 < u)%Z -> (0 < f)%Z -> (0 < d)%Z -> p = IZR f / IZR d -> IZR (2 * u * d) / IZR f / IZR u = 2 / p.
Proof. intros U F D ->. apply IZR_lt in U, F, D. rewrite !mult_IZR. field. lra. Qed.
Lemma y_low k u : (0 < u)%Z -> IZR (k * u) / 160 / IZR u = IZR k / 160.
Proof. intros U. apply IZR_lt in U. rewrite mult_IZR. field. lra. Qed.
Lemma ux : (0 < unit_z)%Z. Proof. reflexivity. Qed.
Lemma dx : (0 < fit_den)%Z. Proof. reflexivity. Qed.
Lemma fit_up_sound el nl k s : (forall x, (0 <= x)%Z -> fx (el x) <= exp (fx x)) -> (forall x, (0 <= x)%Z -> fx (nl x) <= exp (- fx x)) ->
  (0 <= k)%Z -> IZR k / 160 <= s <= IZR (k + 1) / 160 -> fit_up el nl k = true -> langevin (/ p12_ainv s) <= exp (- s) + 1 / 100.
Proof.
  intros El Nl K S H. unfold fit_up in H. cbv zeta in H. apply andb_prop in H as [H H3]. apply andb_prop in H as [H1 H2].
  apply Z.ltb_lt in H1, H2. apply Z.leb_le in H3. assert (P0 := fit_spec k).
  assert (Q0 : 0 < p12_ainv (IZR k / 160)) by (rewrite P0; apply Rdiv_lt_0_compat; [now apply (IZR_lt 0)|exact fit_den_pos]).
  assert (G := ainv_grows (IZR k / 160) s (proj1 S)).
  apply Rle_trans with (langevin (/ p12_ainv (IZR k / 160))).
  { apply langevin_grows; [apply Rinv_0_lt_compat; lra|apply Rinv_le_contravar; lra]. }
  apply (up_core _ _ _ _ _ _ s ux dx H1 H2 H3 P0).
  - apply (Rle_trans _ _ _ (El ((2 * unit_z * fit_den / fit_num k)%Z) ltac:(apply Z.div_pos; [assert (U := ux); assert (D := dx); nia|exact H2]))). apply exp_le.
    apply (Rle_trans _ _ _ (fx_div_le (2 * unit_z * fit_den) _ H2)). right. apply x_low; [exact ux|exact H2|exact dx|exact P0].
  - apply (Rle_trans _ _ _ (Nl (((k + 1) * unit_z / 160 + 1)%Z) ltac:(assert (0 <= (k + 1) * unit_z / 160)%Z by (apply Z.div_pos; [assert (U := ux); nia|lia]); lia))). apply exp_le.
    assert (W := fx_div_gt ((k + 1) * unit_z) 160 eq_refl). rewrite (y_low (k + 1) unit_z ux) in W. lra.
Qed.
Lemma fit_low_sound el nl k s : (forall x, (0 <= x)%Z -> fx (el x) <= exp (fx x)) -> (forall x, (0 <= x)%Z -> fx (nl x) <= exp (- fx x)) ->
  (0 <= k)%Z -> 0 < p12_ainv s -> IZR k / 160 <= s <= IZR (k + 1) / 160 -> fit_low el nl k = true -> exp (- s) - 1 / 100 <= langevin (/ p12_ainv s).
Proof.
  intros El Nl K Sp S H. unfold fit_low in H. cbv zeta in H. apply andb_prop in H as [H H4]. apply andb_prop in H as [H H3]. apply andb_prop in H as [H1 H2].
  apply Z.ltb_lt in H1, H2, H3. apply Z.leb_le in H4. assert (P1 := fit_spec (k + 1)).
  assert (Q1 : 0 < p12_ainv (IZR (k + 1) / 160)) by (rewrite P1; apply Rdiv_lt_0_compat; [now apply (IZR_lt 0)|exact fit_den_pos]).
  assert (G := ainv_grows s (IZR (k + 1) / 160) (proj2 S)).
  apply Rle_trans with (langevin (/ p12_ainv (IZR (k + 1) / 160))).
  2: { apply langevin_grows; [apply Rinv_0_lt_compat; lra|apply Rinv_le_contravar; lra]. }
  apply (low_core _ _ _ _ _ _ s ux dx H2 H1 H3 H4 P1).
  - apply (Rle_trans _ _ _ (El ((k * unit_z / 160)%Z) ltac:(apply Z.div_pos; [assert (U := ux); nia|lia]))). apply exp_le.
    assert (W := fx_div_le (k * unit_z) 160 eq_refl). rewrite (y_low k unit_z ux) in W. lra.
  - apply (Rle_trans _ _ _ (Nl ((2 * unit_z * fit_den / fit_num (k + 1) + 1)%Z) ltac:(assert (0 <= 2 * unit_z * fit_den / fit_num (k + 1))%Z by (apply Z.div_pos; [assert (U := ux); assert (D := dx); nia|exact H3]); lia))). apply exp_le.
    assert (W := fx_div_gt (2 * unit_z * fit_den) (fit_num (k + 1)) H3). rewrite (x_low unit_z fit_den (fit_num (k + 1)) _ ux H3 dx P1) in W. lra.
Qed.
Lemma pieces (f : Z -> bool) : forallb (fun i => f (16 + Z.of_nat i)%Z) (seq 0 464) = true -> forall k, (16 <= k < 480)%Z -> f k = true.
Proof.
  intros A k K. rewrite forallb_forall in A. specialize (A (Z.to_nat (k - 16))). rewrite Z2Nat.id in A by lia.
  replace (16 + (k - 16))%Z with k in A by lia. apply A. apply in_seq. lia.
Qed.
Lemma fit_up_all : forall k, (16 <= k < 480)%Z -> fit_up exp_lo neg_lo k = true.
Proof. refine (pieces (fit_up exp_lo neg_lo) _). vm_cast_no_check (eq_refl true). Qed.
Lemma fit_low_all : forall k, (16 <= k < 480)%Z -> fit_low exp_lo neg_lo k = true.
Proof. refine (pieces (fit_low exp_lo neg_lo) _). vm_cast_no_check (eq_refl true). Qed.
Lemma fit_close s : 1 / 10 <= s < 3 -> Rabs (langevin (/ p12_ainv s) - exp (- s)) <= 1 / 100.
Proof.
  intros S. destruct (archimed (160 * s)) as [U1 U2]. remember (up (160 * s) - 1)%Z as k eqn:Ek.
  assert (K1 : IZR k <= 160 * s < IZR (k + 1)) by (replace (k + 1)%Z with (up (160 * s)) by lia; rewrite Ek, minus_IZR; lra).
  assert (K2 : (16 <= k < 480)%Z). { split; [assert (16 < k + 1)%Z; [apply lt_IZR; lra|lia]|apply lt_IZR; lra]. }
  clear Ek U1 U2. assert (K3 : IZR k / 160 <= s <= IZR (k + 1) / 160) by lra. assert (K4 : (0 <= k)%Z) by lia.
  assert (Up := fit_up_sound exp_lo neg_lo k s exp_lo_spec neg_lo_spec K4 K3 (fit_up_all k K2)).
  assert (Lo := fit_low_sound exp_lo neg_lo k s exp_lo_spec neg_lo_spec K4 (ainv_pos s ltac:(lra)) K3 (fit_low_all k K2)).
  clear - Up Lo. apply Rabs_le. lra.
Qed.
(** the mean cosine differs from exp (- s) by one hundredth at most *)
Theorem C136_relaxation : forall s, 0 < s -> exists m, mean_over_draws (p12_cos s) m /\ Rabs (m - exp (- s)) <= 1 / 100.
Proof.
  intros s S. eexists. split; [apply C136_mean; exact S|].
  assert (H3 : exp (-3) <= 1 / 11).
  { assert (E := exp_ineq1_le (1 / 2)). assert (Q : exp 3 = exp (1 / 2) * exp (1 / 2) * exp (1 / 2) * (exp (1 / 2) * exp (1 / 2) * exp (1 / 2))) by (rewrite <- !exp_plus; f_equal; field).
    replace (-3) with (- (3)) by lra. rewrite exp_Ropp. assert (11 <= exp 3).
    { rewrite Q. set (h := exp (1 / 2)) in *. assert (9 / 4 <= h * h) by nra. assert (27 / 8 <= h * h * h) by nra. nra. }
    replace (1 / 11) with (/ 11) by field. apply Rinv_le_contravar; lra. }
  destruct (rlt s (1 / 10)) eqn:E1; [apply rlt_true in E1|apply rlt_false in E1; destruct (rlt s 3) eqn:E2; [apply rlt_true in E2|apply rlt_false in E2; destruct (rlt s 6) eqn:E3; [apply rlt_true in E3|apply rlt_false in E3]]].
  - assert (A := exp_ineq1_le (- s)). assert (B := exp_ineq1_le s). rewrite exp_Ropp in *. assert (P := exp_pos s).
    assert (C : / exp s <= / (1 + s)) by (apply Rinv_le_contravar; lra).
    assert (D : / (1 + s) <= 1 - s + s * s). { apply (Rmult_le_reg_l (1 + s)); [lra|]. rewrite Rinv_r by lra. nra. }
    apply Rabs_le. nra.
  - now apply fit_close.
  - assert (P := exp_pos (- s)). assert (L : exp (- s) <= exp (-3)) by (apply exp_le; lra). set (q := exp (- s)) in *.
    assert (A := langevin_up (3 * q) ltac:(lra)). assert (B := langevin_low (3 * q) ltac:(lra)). set (l := langevin (3 * q)) in *.
    assert (C : cosh (3 * q) * (1 - 9 * (q * q)) <= 1).
    { unfold cosh. assert (X1 := exp_ineq1_le (3 * q)). assert (X2 := exp_ineq1_le (- (3 * q))).
      assert (I : exp (3 * q) * exp (- (3 * q)) = 1) by (rewrite <- exp_plus, Rplus_opp_r; apply exp_0).
      set (g := exp (3 * q)) in *. set (h := exp (- (3 * q))) in *. 
      assert (Y1 : g * (1 - 3 * q) <= 1) by nra. assert (Y2 : h * (1 + 3 * q) <= 1) by nra.
      assert (Z1 : g * (1 - 3 * q) * (1 + 3 * q) <= 1 + 3 * q) by nra. assert (Z2 : h * (1 + 3 * q) * (1 - 3 * q) <= 1 - 3 * q) by nra. lra. }
    assert (Cg := cosh_ge_1 (3 * q)). set (ch := cosh (3 * q)) in *.
    assert (LB : q * (1 - 9 * (q * q)) <= l).
    { assert (q * (1 - 9 * (q * q)) <= l * ch * (1 - 9 * (q * q))) by (apply Rmult_le_compat_r; nra).
      assert (0 <= l) by nra. nra. }
    apply Rabs_le. assert (q * q <= 1 / 11 * (1 / 11)) by nra. assert (q * (q * q) <= 1 / 11 * (1 / 11 * (1 / 11))) by (apply Rmult_le_compat; nra). lra.
  - assert (P := exp_pos (- s)). assert (L : exp (- s) <= exp (-3) * exp (-3)) by (rewrite <- exp_plus; apply exp_le; lra).
    assert (exp (-3) * exp (-3) <= 1 / 11 * (1 / 11)) by (assert (0 < exp (-3)) by apply exp_pos; nra). apply Rabs_le. lra.
Qed.

(** a pair in each of the four ranges *)
Example C136_ex : 0 < 1 / 20 < 1 / 10 /\ (1 / 10 <= 1 < 3) /\ (3 <= 4 < 6) /\ 6 <= 7 /\ drawn_from (p12_cos 7) (fun mu => (mu + 1) / 2) /\ p12_cos 7 (1 / 4) = Some (- (1 / 2)).
Proof.
  repeat split; try lra; [apply C136_distribution; lra|]. unfold p12_cos. rewrite !rlt_f by lra. f_equal. field.
Qed.
(** equal particles, 10^15 per unit of volume *)
Example C130_dense_ex : exists r, 0 < r /\ 4 / 3 * PI * r ^ 3 * 10 ^ 15 = 1 /\ 7 * 10 ^ 13 < Rmax (10 ^ 15) (10 ^ 15).
Proof.
  assert (P := PI_RGT_0). set (x := / (4 / 3 * PI * 10 ^ 15)). assert (X : 0 < x) by (unfold x; apply Rinv_0_lt_compat; lra).
  exists (Rpower x (/ 3)). split; [apply exp_pos|]. split.
  - replace (Rpower x (/ 3) ^ 3) with x.
    + unfold x. field. lra.
    + rewrite <- Rpower_pow by apply exp_pos. rewrite Rpower_mult. replace (/ 3 * INR 3) with 1 by (cbn; lra). now rewrite Rpower_1.
  - unfold Rmax. destruct (Rle_dec _ _); lra.
Qed.

Print Assumptions C130_sk98_draw.
Print Assumptions C130_p12_dense.
Print Assumptions C130_dense_distance.
Print Assumptions C130_fast_refuted.
Print Assumptions C136_distribution.
Print Assumptions C136_mean.
Print Assumptions C136_relaxation.
Print Assumptions C130_p12_angle.
