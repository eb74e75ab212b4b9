(** Kinematics of the relativistic collision operators: mass shell, boosts, rotations. *)
From Coq Require Import Reals Lra Psatz List.
From Verif Require Import Base PushModel ThmPush CollOpModel.
Open Scope R_scope.

(** * Specification: relativistic momentum, and energy divided by c *)
Definition lab_momentum (c m : R) (v : v3) : v3 := vscale m (mom c v).
Definition lab_energy (c m : R) (v : v3) : R := m * c * gam c v.

(** * Vectors *)
Lemma cauchy a b : vdot a b * vdot a b <= len2 a * len2 b.
Proof.
  unfold vdot, len2. destruct a as [a1 a2 a3], b as [b1 b2 b3]. cbn.
  assert (A := Rle_0_sqr (a1 * b2 - a2 * b1)). assert (B := Rle_0_sqr (a2 * b3 - a3 * b2)). assert (C := Rle_0_sqr (a3 * b1 - a1 * b3)).
  unfold Rsqr in *. lra.
Qed.
(** |a.b| < x y if |a| <= x, |b| < y *)
Lemma dot_lt a b x y : 0 < x -> 0 < y -> len2 a <= x * x -> len2 b < y * y -> - (x * y) < vdot a b < x * y.
Proof.
  intros Hx Hy A B. assert (C := cauchy a b). assert (Pa := len2_nonneg a). assert (Pb := len2_nonneg b).
  assert (X : vdot a b * vdot a b < (x * y) * (x * y)).
  { assert (len2 a * len2 b <= x * x * len2 b) by (apply Rmult_le_compat_r; lra).
    assert (Q : 0 < x * x) by nra. assert (x * x * len2 b < x * x * (y * y)) by (apply Rmult_lt_compat_l; lra). lra. }
  assert (P : 0 < x * y) by (now apply Rmult_lt_0_compat).
  set (d := vdot a b) in *. set (z := x * y) in *. clearbody d z. nra.
Qed.
Lemma len2_add a b : len2 (vadd a b) = len2 a + 2 * vdot a b + len2 b.
Proof. unfold len2, vdot, vadd. cbn. ring. Qed.
Lemma len2_neg a : len2 (vneg a) = len2 a.
Proof. unfold len2, vneg. cbn. ring. Qed.
Lemma dot_neg a b : vdot a (vneg b) = - vdot a b.
Proof. unfold vdot, vneg. cbn. ring. Qed.
Lemma vlen_scale k p : 0 <= k -> vlen (vscale k p) = k * vlen p.
Proof.
  intros H. unfold vlen. rewrite len2_scale, sqrt_mult by (try nra; apply len2_nonneg).
  f_equal. now apply sqrt_square.
Qed.
Lemma vlen_neg p : vlen (vneg p) = vlen p.
Proof. unfold vlen. now rewrite len2_neg. Qed.
Lemma vlen_sq p : vlen p * vlen p = len2 p.
Proof. apply sqrt_sqrt, len2_nonneg. Qed.
Lemma vlen_nonneg p : 0 <= vlen p.
Proof. apply sqrt_pos. Qed.
Lemma veqb_f a b : a <> b -> veqb a b = false.
Proof.
  intros N. unfold veqb. destruct (req (vx a) (vx b)) eqn:E1; [|reflexivity]. destruct (req (vy a) (vy b)) eqn:E2; [|reflexivity].
  destruct (req (vz a) (vz b)) eqn:E3; [|reflexivity]. exfalso. apply N. unfold req in *.
  destruct (Req_EM_T (vx a) (vx b)), (Req_EM_T (vy a) (vy b)), (Req_EM_T (vz a) (vz b)); try discriminate. now apply v3_eq.
Qed.
Lemma req_t a b : a = b -> req a b = true.
Proof. intros ->. unfold req. destruct (Req_EM_T b b); congruence. Qed.
Lemma req_true a b : req a b = true -> a = b.
Proof. unfold req. destruct (Req_EM_T a b); [auto|discriminate]. Qed.
Lemma req_false a b : req a b = false -> a <> b.
Proof. unfold req. destruct (Req_EM_T a b); [discriminate|auto]. Qed.
Lemma rlt_true a b : rlt a b = true -> a < b.
Proof. unfold rlt. destruct (Rlt_dec a b); [auto|discriminate]. Qed.
Lemma rlt_false a b : rlt a b = false -> b <= a.
Proof. unfold rlt. destruct (Rlt_dec a b); [discriminate|lra]. Qed.

(** * Rotations *)
Lemma sk98_rotation p s cs phi : 0 < vx p * vx p + vy p * vy p -> s * s + cs * cs = 1 ->
  len2 (vadd p (sk98_delta p s cs phi)) = len2 p.
Proof.
  destruct p as [x y z]. cbn [vx vy vz]. intros HP E. unfold sk98_delta. cbn [vx vy vz]. cbv zeta.
  assert (HP2 : 0 < sqrt (x * x + y * y)) by (now apply sqrt_lt_R0).
  assert (S1 : sqrt (x * x + y * y) * sqrt (x * x + y * y) = x * x + y * y) by (apply sqrt_sqrt; lra).
  assert (S2 := vlen_sq (V3 x y z)). unfold len2 in S2. cbn [vx vy vz] in S2.
  set (q := sqrt (x * x + y * y)) in *. set (a := vlen (V3 x y z)) in *. assert (T := sin2_cos2 phi). unfold Rsqr in T.
  set (sp := sin phi) in *. set (cp := cos phi) in *. clearbody q a sp cp.
  unfold len2, vadd. cbn [vx vy vz].
  replace (x + (x * z / q * s * cp - y * a / q * s * sp - x * (1 - cs))) with ((x * z * s * cp - y * a * s * sp + x * cs * q) / q) by (field; lra).
  replace (y + (y * z / q * s * cp + x * a / q * s * sp - y * (1 - cs))) with ((y * z * s * cp + x * a * s * sp + y * cs * q) / q) by (field; lra).
  replace (z + (- q * s * cp - z * (1 - cs))) with (z * cs - q * s * cp) by ring.
  apply Rmult_eq_reg_r with (q * q); [|nra].
  replace (((x * z * s * cp - y * a * s * sp + x * cs * q) / q * ((x * z * s * cp - y * a * s * sp + x * cs * q) / q) +
   (y * z * s * cp + x * a * s * sp + y * cs * q) / q * ((y * z * s * cp + x * a * s * sp + y * cs * q) / q) +
   (z * cs - q * s * cp) * (z * cs - q * s * cp)) * (q * q))
   with ((x * x + y * y) * (s * s * (z * z * (cp * cp) + a * a * (sp * sp)) + cs * cs * (q * q) + 2 * z * s * cp * cs * q)
         + (q * q * (s * s) * (cp * cp) + z * z * (cs * cs) - 2 * q * z * s * cs * cp) * (q * q)) by (field; lra).
  rewrite S2, <- S1. replace (sp * sp) with (1 - cp * cp) by lra. replace (s * s) with (1 - cs * cs) by lra. ring.
Qed.
Lemma p12_rotation_eq p s cs phi : p12_rotate p s cs phi = vadd p (sk98_delta p s cs phi).
Proof. unfold p12_rotate, sk98_delta, vadd. cbv zeta. cbn [vx vy vz]. f_equal; ring. Qed.

(** * Boosts *)
Section Boost.
Variables (g : R) (beta : v3).
Hypothesis Hb : len2 beta <> 0.
Hypothesis Hg : g * g * (1 - len2 beta) = 1.
Lemma unboost_len p p0 : len2 (unboost g beta p p0) = len2 p - p0 * p0 + (g * (p0 + vdot beta p)) * (g * (p0 + vdot beta p)).
Proof.
  unfold unboost. set (b := len2 beta) in *. set (d := vdot beta p).
  assert (E : len2 (vadd (vadd p (vscale (/ b) (vscale (g - 1) (vscale d beta)))) (vscale p0 (vscale g beta))) =
    len2 p + 2 * (d * (g - 1) / b + g * p0) * d + (d * (g - 1) / b + g * p0) * (d * (g - 1) / b + g * p0) * b).
  { unfold b, d, len2, vdot, vadd, vscale. cbn [vx vy vz].
    set (k := / (vx beta * vx beta + vy beta * vy beta + vz beta * vz beta)). unfold Rdiv. fold k. ring. }
  rewrite E. assert (G : g * g = 1 + g * g * b) by lra.
  apply Rmult_eq_reg_r with b; [|exact Hb].
  replace ((len2 p + 2 * (d * (g - 1) / b + g * p0) * d + (d * (g - 1) / b + g * p0) * (d * (g - 1) / b + g * p0) * b) * b)
    with (len2 p * b + 2 * (d * (g - 1) + g * p0 * b) * d + (d * (g - 1) + g * p0 * b) * (d * (g - 1) + g * p0 * b)) by (field; exact Hb).
  replace ((d * (g - 1) + g * p0 * b) * (d * (g - 1) + g * p0 * b)) with
    (d * d * (g * g) - 2 * g * d * d + d * d + 2 * (g * g * b) * d * p0 - 2 * g * p0 * b * d + (g * g * b) * b * p0 * p0) by ring.
  replace ((len2 p - p0 * p0 + g * (p0 + d) * (g * (p0 + d))) * b) with (len2 p * b - p0 * p0 * b + (g * g * b) * ((p0 + d) * (p0 + d))) by ring.
  replace (g * g * b) with (g * g - 1) by lra.
  replace ((g * g - 1) * b * p0 * p0) with ((g * g * b) * p0 * p0 - b * p0 * p0) by ring. replace (g * g * b) with (g * g - 1) by lra. ring.
Qed.
Lemma boost_unboost p p0 : boost g beta p p0 = unboost g beta p (- p0).
Proof. unfold boost, unboost, vsub, vadd, vscale. cbn. f_equal; ring. Qed.
Lemma boost_len p p0 : len2 (boost g beta p p0) = len2 p - p0 * p0 + (g * (p0 - vdot beta p)) * (g * (p0 - vdot beta p)).
Proof. rewrite boost_unboost, unboost_len. ring. Qed.
(** the total momentum in the center-of-mass frame vanishes *)
Lemma boost_sum pa pb p0a p0b : vadd pa pb = vscale (p0a + p0b) beta ->
  boost g beta pb p0b = vneg (boost g beta pa p0a).
Proof.
  clear Hg. intros E. assert (E1 : pb = vsub (vscale (p0a + p0b) beta) pa).
  { rewrite <- E. unfold vsub, vadd. destruct pa, pb. cbn. f_equal; ring. }
  rewrite E1. clear E E1. unfold boost, vneg, vsub, vadd, vscale, vdot. cbn [vx vy vz]. unfold len2 in *.
  destruct beta as [x y z]. cbn [vx vy vz] in *. f_equal; field; exact Hb.
Qed.
(** sum of the momenta boosted back *)
Lemma unboost_sum p p0a p0b : vadd (unboost g beta p p0a) (unboost g beta (vneg p) p0b) = vscale (g * (p0a + p0b)) beta.
Proof. unfold unboost, vneg, vadd, vscale, vdot. cbn [vx vy vz]. f_equal; ring. Qed.
End Boost.

(** * The pair *)
Section Pair.
Variable c : R.
Hypothesis Hc : 0 < c.
Lemma lab_energy_pos m v : 0 < m -> subluminal c v -> 0 < lab_energy c m v.
Proof. intros Hm S. assert (G := gam_pos c Hc v S). unfold lab_energy. apply Rmult_lt_0_compat; [now apply Rmult_lt_0_compat|exact G]. Qed.
Lemma mass_shell m v : subluminal c v -> lab_energy c m v * lab_energy c m v = m * m * (c * c) + len2 (lab_momentum c m v).
Proof.
  intros S. unfold lab_energy, lab_momentum. rewrite len2_scale. assert (G := gam_mom c Hc v S). assert (C := cc c Hc).
  replace (len2 (mom c v)) with ((gam c v * gam c v - 1) * (c * c)). { ring. }
  rewrite <- G. field. lra.
Qed.
Lemma momentum_0_eq m v : 0 < m -> subluminal c v -> momentum_0 c m v = Ok (lab_energy c m v).
Proof. intros Hm S. unfold momentum_0. rewrite req_f, (lorenz_eq c Hc v S) by lra. cbn [bind]. f_equal. unfold lab_energy. ring. Qed.
Lemma momentum_eq m v : 0 < m -> subluminal c v -> momentum c m v = Ok (lab_momentum c m v).
Proof. intros Hm S. unfold momentum. rewrite req_f, (lorenz_eq c Hc v S) by lra. reflexivity. Qed.
(** velocity of a momentum *)
Lemma to_velocity_momentum m p : 0 < m -> lab_momentum c m (to_velocity c m p) = p.
Proof.
  intros Hm. unfold to_velocity, lab_momentum. cbv zeta. fold (vel c (vscale (/ m) p)). rewrite mom_vel by exact Hc.
  rewrite scale_scale, Rinv_r by lra. apply scale_1.
Qed.
Lemma to_velocity_slow m p : subluminal c (to_velocity c m p).
Proof. unfold to_velocity. cbv zeta. apply (vel_slow c Hc). Qed.
Lemma to_velocity_energy m p e : 0 < m -> 0 < e -> e * e = m * m * (c * c) + len2 p -> lab_energy c m (to_velocity c m p) = e.
Proof.
  intros Hm He E. assert (P := lab_energy_pos m _ Hm (to_velocity_slow m p)).
  assert (Q := mass_shell m _ (to_velocity_slow m p)). rewrite to_velocity_momentum in Q by assumption.
  set (x := lab_energy c m (to_velocity c m p)) in *. clearbody x. assert (X : (x - e) * (x + e) = 0) by nra.
  apply Rmult_integral in X. lra.
Qed.

Variables (ma mb : R) (va vb : v3).
Hypothesis Hma : 0 < ma.
Hypothesis Hmb : 0 < mb.
Hypothesis Sa : subluminal c va.
Hypothesis Sb : subluminal c vb.
Let pa := lab_momentum c ma va.
Let pb := lab_momentum c mb vb.
Let ea := lab_energy c ma va.
Let eb := lab_energy c mb vb.
(** velocity of the center of mass, divided by c *)
Definition cm_velocity : v3 := vscale (/ (lab_energy c ma va + lab_energy c mb vb)) (vadd (lab_momentum c ma va) (lab_momentum c mb vb)).
Definition cm_factor : R := / sqrt (1 - len2 cm_velocity).
Lemma cm_slow : len2 cm_velocity < 1.
Proof.
  assert (Pa := lab_energy_pos ma va Hma Sa). assert (Pb := lab_energy_pos mb vb Hmb Sb).
  assert (Ma := mass_shell ma va Sa). assert (Mb := mass_shell mb vb Sb). fold pa ea in Pa, Ma. fold pb eb in Pb, Mb.
  unfold cm_velocity. fold pa pb ea eb. rewrite len2_scale, len2_add.
  assert (C := cc c Hc). assert (Qa : 0 < ma * ma * (c * c)) by (apply Rmult_lt_0_compat; nra). assert (Qb : 0 < mb * mb * (c * c)) by (apply Rmult_lt_0_compat; nra).
  destruct (dot_lt pa pb ea eb) as [_ D]; [assumption|assumption|lra|lra|].
  set (x := ea + eb). assert (Hx : 0 < x) by (unfold x; lra).
  replace (/ x * / x * (len2 pa + 2 * vdot pa pb + len2 pb)) with ((len2 pa + 2 * vdot pa pb + len2 pb) / (x * x)) by (field; lra).
  apply Rmult_lt_reg_r with (x * x); [nra|]. unfold Rdiv. rewrite Rmult_assoc, Rinv_l by nra. unfold x. nra.
Qed.
Lemma cm_factor_pos : 0 < cm_factor.
Proof. assert (S := cm_slow). apply Rinv_0_lt_compat, sqrt_lt_R0. lra. Qed.
Lemma cm_factor_sq : cm_factor * cm_factor * (1 - len2 cm_velocity) = 1.
Proof.
  assert (S := cm_slow). unfold cm_factor. assert (Q : sqrt (1 - len2 cm_velocity) * sqrt (1 - len2 cm_velocity) = 1 - len2 cm_velocity) by (apply sqrt_sqrt; lra).
  assert (0 < sqrt (1 - len2 cm_velocity)) by (apply sqrt_lt_R0; lra). rewrite <- Q at 3. field. lra.
Qed.
Lemma cm_lorenz : lorenz_factor c (len2 cm_velocity * (c * c)) = Ok cm_factor.
Proof.
  assert (S := cm_slow). assert (C := cc c Hc). unfold lorenz_factor. cbv zeta.
  replace (len2 cm_velocity * (c * c) / (c * c)) with (len2 cm_velocity) by (field; lra). rewrite rlt_f, req_f by lra. unfold cm_factor, Rdiv. f_equal. ring.
Qed.
Lemma cm_total : vadd pa pb = vscale (ea + eb) cm_velocity.
Proof.
  assert (Pa := lab_energy_pos ma va Hma Sa). assert (Pb := lab_energy_pos mb vb Hmb Sb). fold ea in Pa. fold eb in Pb.
  unfold cm_velocity. fold pa pb ea eb. unfold vadd, vscale. cbn. f_equal; field; lra.
Qed.
(** the momentum of the first particle in the center-of-mass frame *)
Definition cm_momentum : v3 := boost cm_factor cm_velocity (lab_momentum c ma va) (lab_energy c ma va).
Let g := cm_factor.
Let beta := cm_velocity.
Let p0a := g * (ea - vdot beta pa).
Let p0b := g * (eb - vdot beta pb).
Hypothesis Hb : len2 cm_velocity <> 0.
Lemma p0a_pos : 0 < p0a.
Proof.
  assert (Pa := lab_energy_pos ma va Hma Sa). assert (Ma := mass_shell ma va Sa). fold ea in Pa. fold pa ea in Ma. assert (S := cm_slow). fold beta in S.
  assert (C := cc c Hc). assert (Qa : 0 < ma * ma * (c * c)) by (apply Rmult_lt_0_compat; nra).
  destruct (dot_lt beta pa 1 ea) as [_ D]; [lra|assumption|lra|lra|]. assert (G := cm_factor_pos). fold g in G.
  apply Rmult_lt_0_compat; lra.
Qed.
Lemma p0b_pos : 0 < p0b.
Proof.
  assert (Pa := lab_energy_pos mb vb Hmb Sb). assert (Ma := mass_shell mb vb Sb). fold eb in Pa. fold pb eb in Ma. assert (S := cm_slow). fold beta in S.
  assert (C := cc c Hc). assert (Qa : 0 < mb * mb * (c * c)) by (apply Rmult_lt_0_compat; nra).
  destruct (dot_lt beta pb 1 eb) as [_ D]; [lra|assumption|lra|lra|]. assert (G := cm_factor_pos). fold g in G.
  apply Rmult_lt_0_compat; lra.
Qed.
Lemma p0a_shell : p0a * p0a = ma * ma * (c * c) + len2 cm_momentum.
Proof.
  unfold cm_momentum. rewrite (boost_len _ _ Hb cm_factor_sq). fold pa ea g beta p0a. assert (M := mass_shell ma va Sa). fold pa ea in M. lra.
Qed.
Lemma cm_momentum_b : boost g beta pb eb = vneg cm_momentum.
Proof. unfold cm_momentum. fold pa ea. apply boost_sum; [exact Hb|]. exact cm_total. Qed.
Lemma p0b_shell : p0b * p0b = mb * mb * (c * c) + len2 cm_momentum.
Proof.
  rewrite <- len2_neg, <- cm_momentum_b. rewrite (boost_len _ _ Hb cm_factor_sq). fold g beta p0b. assert (M := mass_shell mb vb Sb). fold pb eb in M. lra.
Qed.
Lemma p0_sum : g * (p0a + p0b) = ea + eb.
Proof.
  unfold p0a, p0b. assert (T := cm_total). fold beta in T.
  assert (D : vdot beta pa + vdot beta pb = (ea + eb) * len2 beta).
  { replace (vdot beta pa + vdot beta pb) with (vdot beta (vadd pa pb)) by (unfold vdot, vadd; cbn; ring). rewrite T. unfold vdot, vscale, len2. cbn. ring. }
  replace (g * (g * (ea - vdot beta pa) + g * (eb - vdot beta pb))) with (g * g * (ea + eb - (vdot beta pa + vdot beta pb))) by ring.
  rewrite D. replace (g * g * (ea + eb - (ea + eb) * len2 beta)) with ((g * g * (1 - len2 beta)) * (ea + eb)) by ring.
  unfold g, beta. rewrite cm_factor_sq. ring.
Qed.
(** whatever direction the momentum takes in the center-of-mass frame, total momentum and energy are kept *)
Lemma scattered_conserves p' : len2 p' = len2 cm_momentum ->
  let va' := to_velocity c ma (unboost g beta p' p0a) in
  let vb' := to_velocity c mb (unboost g beta (vneg p') p0b) in
  vadd (lab_momentum c ma va') (lab_momentum c mb vb') = vadd pa pb /\
  lab_energy c ma va' + lab_energy c mb vb' = ea + eb /\
  subluminal c va' /\ subluminal c vb'.
Proof.
  intros L. cbv zeta. assert (C := cc c Hc). assert (G := cm_factor_pos). fold g in G. assert (S := cm_slow). fold beta in S.
  assert (P0a := p0a_pos). assert (P0b := p0b_pos). assert (Ma := p0a_shell). assert (Mb := p0b_shell).
  assert (Qa : 0 < ma * ma * (c * c)) by (apply Rmult_lt_0_compat; nra). assert (Qb : 0 < mb * mb * (c * c)) by (apply Rmult_lt_0_compat; nra).
  assert (Ea : lab_energy c ma (to_velocity c ma (unboost g beta p' p0a)) = g * (p0a + vdot beta p')).
  { apply to_velocity_energy; [assumption| |].
    - destruct (dot_lt beta p' 1 p0a) as [D _]; [lra|assumption|lra|lra|]. apply Rmult_lt_0_compat; lra.
    - rewrite (unboost_len _ _ Hb cm_factor_sq). fold g beta. lra. }
  assert (Eb : lab_energy c mb (to_velocity c mb (unboost g beta (vneg p') p0b)) = g * (p0b - vdot beta p')).
  { replace (p0b - vdot beta p') with (p0b + vdot beta (vneg p')) by (rewrite dot_neg; ring). apply to_velocity_energy; [assumption| |].
    - destruct (dot_lt beta (vneg p') 1 p0b) as [D _]; [lra|assumption|lra|rewrite len2_neg; lra|]. apply Rmult_lt_0_compat; lra.
    - rewrite (unboost_len _ _ Hb cm_factor_sq), len2_neg. fold g beta. lra. }
  repeat match goal with |- _ /\ _ => split end; [| |apply to_velocity_slow|apply to_velocity_slow].
  - rewrite !to_velocity_momentum by assumption. rewrite unboost_sum, p0_sum, cm_total. reflexivity.
  - rewrite Ea, Eb. rewrite <- p0_sum. ring.
Qed.
(** ** What [to_cm] returns *)
Let va_cm := vscale (/ (ma * (p0a / ma / c))) cm_momentum.
Let vb_cm := vscale (/ (mb * (p0b / mb / c))) (vneg cm_momentum).
Definition cm_vrel_val : R := (vlen va_cm - vlen vb_cm) / (1 - vdot va_cm vb_cm / (c * c)).
Lemma va_cm_len : vlen va_cm = c / p0a * vlen cm_momentum.
Proof.
  assert (P := p0a_pos). unfold va_cm. replace (/ (ma * (p0a / ma / c))) with (c / p0a) by (field; lra).
  apply vlen_scale. left. apply Rdiv_lt_0_compat; lra.
Qed.
Lemma vb_cm_len : vlen vb_cm = c / p0b * vlen cm_momentum.
Proof.
  assert (P := p0b_pos). unfold vb_cm. replace (/ (mb * (p0b / mb / c))) with (c / p0b) by (field; lra).
  rewrite vlen_scale, vlen_neg; [reflexivity|]. left. apply Rdiv_lt_0_compat; lra.
Qed.
Lemma cm_dot : vdot va_cm vb_cm = - (vlen va_cm * vlen vb_cm).
Proof.
  assert (P := p0a_pos). assert (Q := p0b_pos). rewrite va_cm_len, vb_cm_len.
  replace (c / p0a * vlen cm_momentum * (c / p0b * vlen cm_momentum)) with (c / p0a * (c / p0b) * (vlen cm_momentum * vlen cm_momentum)) by ring.
  rewrite vlen_sq. unfold va_cm, vb_cm, vdot, vneg, vscale, len2. cbn [vx vy vz]. field. repeat split; lra.
Qed.
Lemma cm_denominator : 1 <= 1 - vdot va_cm vb_cm / (c * c).
Proof.
  rewrite cm_dot. assert (C := cc c Hc). assert (A := vlen_nonneg va_cm). assert (B := vlen_nonneg vb_cm).
  assert (0 <= vlen va_cm * vlen vb_cm / (c * c)). { apply Rmult_le_pos; [apply Rmult_le_pos; lra|left; now apply Rinv_0_lt_compat]. }
  unfold Rdiv in *. lra.
Qed.
Lemma cm_vrel_len : cm_vrel_val = (c * vlen cm_momentum * (p0b - p0a) / (p0a * p0b)) / (1 - vdot va_cm vb_cm / (c * c)).
Proof. unfold cm_vrel_val. assert (P := p0a_pos). assert (Q := p0b_pos). rewrite va_cm_len, vb_cm_len. f_equal. field. lra. Qed.
(** the "relative velocity" is positive only if the first particle is the lighter one *)
Lemma p0_order : ma < mb -> p0a < p0b.
Proof.
  intros H. assert (P := p0a_pos). assert (Q := p0b_pos). assert (A := p0a_shell). assert (B := p0b_shell). assert (C := cc c Hc).
  assert (X : ma * ma * (c * c) < mb * mb * (c * c)) by (apply Rmult_lt_compat_r; nra). nra.
Qed.
Lemma p0_order_le : mb <= ma -> p0b <= p0a.
Proof.
  intros H. assert (P := p0a_pos). assert (Q := p0b_pos). assert (A := p0a_shell). assert (B := p0b_shell). assert (C := cc c Hc).
  assert (X : mb * mb * (c * c) <= ma * ma * (c * c)) by (apply Rmult_le_compat_r; nra). nra.
Qed.
Lemma vrel_nonpos : mb <= ma -> cm_vrel_val <= 0.
Proof.
  intros H. assert (P := p0a_pos). assert (Q := p0b_pos). assert (O := p0_order_le H). assert (D := cm_denominator).
  rewrite cm_vrel_len. assert (L := vlen_nonneg cm_momentum).
  assert (X : 0 <= c * vlen cm_momentum * (p0a - p0b) / (p0a * p0b)).
  { apply Rmult_le_pos; [apply Rmult_le_pos; [apply Rmult_le_pos|]; lra|]. left. apply Rinv_0_lt_compat. now apply Rmult_lt_0_compat. }
  set (d := 1 - vdot va_cm vb_cm / (c * c)) in *.
  replace (c * vlen cm_momentum * (p0b - p0a) / (p0a * p0b)) with (- (c * vlen cm_momentum * (p0a - p0b) / (p0a * p0b))) by (field; lra).
  set (x := c * vlen cm_momentum * (p0a - p0b) / (p0a * p0b)) in *. 
  assert (0 <= x / d) by (apply Rmult_le_pos; [exact X|left; apply Rinv_0_lt_compat; lra]). unfold Rdiv in *. lra.
Qed.
Lemma vrel_pos : ma < mb -> cm_momentum <> zero3 -> 0 < cm_vrel_val.
Proof.
  intros H N. assert (P := p0a_pos). assert (Q := p0b_pos). assert (O := p0_order H). assert (D := cm_denominator).
  rewrite cm_vrel_len. assert (L : 0 < vlen cm_momentum) by (apply sqrt_lt_R0, len2_pos; exact N).
  apply Rdiv_lt_0_compat; [|lra]. apply Rdiv_lt_0_compat; [|now apply Rmult_lt_0_compat].
  apply Rmult_lt_0_compat; [apply Rmult_lt_0_compat|]; lra.
Qed.
Lemma vrel_slow : subluminal c (V3 cm_vrel_val 0 0).
Proof.
  unfold subluminal, len2. cbn [vx vy vz].
  assert (P := p0a_pos). assert (Q := p0b_pos). assert (Ma := p0a_shell). assert (Mb := p0b_shell). assert (C := cc c Hc).
  assert (Qa : 0 < ma * ma * (c * c)) by (apply Rmult_lt_0_compat; nra). assert (Qb : 0 < mb * mb * (c * c)) by (apply Rmult_lt_0_compat; nra).
  assert (D := cm_denominator). unfold cm_vrel_val. set (d := 1 - vdot va_cm vb_cm / (c * c)) in *.
  assert (A : 0 <= vlen va_cm < c). { split; [apply vlen_nonneg|]. rewrite va_cm_len. assert (L := vlen_nonneg cm_momentum). assert (S := vlen_sq cm_momentum).
    apply Rmult_lt_reg_r with p0a; [exact P|]. replace (c / p0a * vlen cm_momentum * p0a) with (c * vlen cm_momentum) by (field; lra).
    apply Rmult_lt_compat_l; [exact Hc|]. nra. }
  assert (B : 0 <= vlen vb_cm < c). { split; [apply vlen_nonneg|]. rewrite vb_cm_len. assert (L := vlen_nonneg cm_momentum). assert (S := vlen_sq cm_momentum).
    apply Rmult_lt_reg_r with p0b; [exact Q|]. replace (c / p0b * vlen cm_momentum * p0b) with (c * vlen cm_momentum) by (field; lra).
    apply Rmult_lt_compat_l; [exact Hc|]. nra. }
  set (x := vlen va_cm) in *. set (y := vlen vb_cm) in *. clearbody x y d.
  assert (E : (x - y) / d * ((x - y) / d) * (d * d) = (x - y) * (x - y)) by (field; lra).
  set (w := (x - y) / d) in *. clearbody w. assert (XY : (x - y) * (x - y) < c * c) by nra. assert (1 <= d * d) by nra.
  assert (0 <= w * w) by nra. assert (w * w <= w * w * (d * d)) by nra. nra.
Qed.
Definition cm_val : cm :=
  CM cm_velocity cm_factor p0a p0b cm_momentum va_cm vb_cm cm_vrel_val (gam c (V3 cm_vrel_val 0 0)) (gam c (V3 cm_vrel_val 0 0) * mb * cm_vrel_val).
Lemma to_cm_eq : to_cm c ma mb va vb = Ok (Some cm_val).
Proof.
  unfold to_cm. rewrite !momentum_0_eq, !momentum_eq by assumption. cbn [bind]. fold cm_velocity. rewrite cm_lorenz. cbn [bind].
  rewrite req_f by exact Hb. fold cm_momentum. fold pa pb ea eb g beta. fold p0a p0b. fold va_cm vb_cm. cbv zeta. fold cm_vrel_val.
  assert (L := lorenz_eq c Hc _ vrel_slow). unfold len2 in L. cbn [vx vy vz] in L.
  replace (cm_vrel_val * cm_vrel_val + 0 * 0 + 0 * 0) with (cm_vrel_val * cm_vrel_val) in L by ring. rewrite L. reflexivity.
Qed.
End Pair.
(** zero total momentum *)
Lemma to_cm_none c ma mb va vb : 0 < c -> 0 < ma -> 0 < mb -> subluminal c va -> subluminal c vb -> len2 (cm_velocity c ma mb va vb) = 0 ->
  to_cm c ma mb va vb = Ok None.
Proof.
  intros Hc Ha Hb Sa Sb E. unfold to_cm. rewrite !momentum_0_eq, !momentum_eq by assumption. cbn [bind].
  fold (cm_velocity c ma mb va vb). rewrite cm_lorenz by assumption. cbn [bind]. now rewrite req_t.
Qed.
