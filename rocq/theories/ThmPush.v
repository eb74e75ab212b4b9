(** Theorems about the pushers and the relativistic helpers: properties C45 - C48 and C71 - C75. *)
From Coq Require Import Reals Lra Psatz.
From Verif Require Import Base PushModel.
Import ListNotations.
Open Scope R_scope.

(** * Specification *)
(** slower than light *)
Definition subluminal (c : R) (v : v3) : Prop := len2 v < c * c.
(** Lorentz factor of a velocity, and of a momentum per mass *)
Definition gam (c : R) (v : v3) : R := / sqrt (1 - len2 v / (c * c)).
Definition gam_u (c : R) (u : v3) : R := sqrt (1 + len2 u / (c * c)).
(** momentum per mass *)
Definition mom (c : R) (v : v3) : v3 := vscale (gam c v) v.
Definition cross (a b : v3) : v3 := V3 (vy a * vz b - vz a * vy b) (vz a * vx b - vx a * vz b) (vx a * vy b - vy a * vx b).
Definition zero3 : v3 := V3 0 0 0.

(** * Helpers *)
Lemma rlt_t a b : a < b -> rlt a b = true.
Proof. unfold rlt. destruct (Rlt_dec a b); tauto. Qed.
Lemma rlt_f a b : b <= a -> rlt a b = false.
Proof. unfold rlt. destruct (Rlt_dec a b); [lra|auto]. Qed.
Lemma req_f a b : a <> b -> req a b = false.
Proof. unfold req. destruct (Req_EM_T a b); tauto. Qed.
Lemma ok_inj {A} (x y : A) : Ok x = Ok y -> x = y.
Proof. congruence. Qed.
Lemma len2_nonneg v : 0 <= len2 v.
Proof. unfold len2. nra. Qed.
Lemma len2_scale k v : len2 (vscale k v) = k * k * len2 v.
Proof. unfold len2, vscale. cbn. ring. Qed.
Lemma dot_scale k v b : vdot (vscale k v) b = k * vdot v b.
Proof. unfold vdot, vscale. cbn. ring. Qed.
Lemma scale_scale j k v : vscale j (vscale k v) = vscale (j * k) v.
Proof. unfold vscale. cbn. f_equal; ring. Qed.
Lemma scale_1 v : vscale 1 v = v.
Proof. destruct v. unfold vscale. cbn. f_equal; ring. Qed.
Lemma scale_zero k : vscale k zero3 = zero3.
Proof. unfold vscale, zero3. cbn. f_equal; ring. Qed.
Lemma add_zero v : vadd v zero3 = v.
Proof. destruct v. unfold vadd, zero3. cbn. f_equal; ring. Qed.
Lemma zero_add v : vadd zero3 v = v.
Proof. destruct v. unfold vadd, zero3. cbn. f_equal; ring. Qed.
Lemma v3_eq a b : vx a = vx b -> vy a = vy b -> vz a = vz b -> a = b.
Proof. destruct a, b. cbn. congruence. Qed.
Lemma len2_zero v : len2 v = 0 -> v = zero3.
Proof. unfold len2. intros H. apply v3_eq; cbn; nra. Qed.
Lemma len2_pos v : v <> zero3 -> 0 < len2 v.
Proof. intros H. destruct (Rle_lt_or_eq_dec 0 (len2 v) (len2_nonneg v)) as [L|E]; auto. destruct H. now apply len2_zero. Qed.

Lemma sq_pos x : x <> 0 -> 0 < x * x.
Proof. intros H. exact (Rsqr_pos_lt x H). Qed.
Section C.
Variable c : R.
Hypothesis Hc : 0 < c.
Lemma cc : 0 < c * c.
Proof. now apply Rmult_lt_0_compat. Qed.
Lemma beta_range v : subluminal c v -> 0 <= len2 v / (c * c) < 1.
Proof.
  intros H. assert (C := cc). assert (P := len2_nonneg v). unfold subluminal in H. split.
  - apply Rmult_le_pos; [lra|]. left. now apply Rinv_0_lt_compat.
  - apply Rmult_lt_reg_r with (c * c); auto. unfold Rdiv. rewrite Rmult_assoc, Rinv_l; lra.
Qed.
Lemma gam_pos v : subluminal c v -> 0 < gam c v.
Proof. intros H. destruct (beta_range v H). apply Rinv_0_lt_compat, sqrt_lt_R0. lra. Qed.
Lemma gam_sq v : subluminal c v -> gam c v * gam c v * (1 - len2 v / (c * c)) = 1.
Proof.
  intros H. destruct (beta_range v H). unfold gam. 
  assert (S : sqrt (1 - len2 v / (c * c)) * sqrt (1 - len2 v / (c * c)) = 1 - len2 v / (c * c)) by (apply sqrt_sqrt; lra).
  assert (P : 0 < sqrt (1 - len2 v / (c * c))) by (apply sqrt_lt_R0; lra).
  rewrite <- S at 3. field. lra.
Qed.
Lemma lorenz_eq v : subluminal c v -> lorenz_factor c (len2 v) = Ok (gam c v).
Proof.
  intros H. destruct (beta_range v H). unfold lorenz_factor. rewrite rlt_f, req_f by lra. unfold gam.
  f_equal. unfold Rdiv. ring.
Qed.
(** 1 + u^2/c^2 = gamma^2 *)
Lemma gam_mom v : subluminal c v -> 1 + len2 (mom c v) / (c * c) = gam c v * gam c v.
Proof.
  intros H. assert (G := gam_sq v H). assert (C := cc). unfold mom. rewrite len2_scale.
  replace (gam c v * gam c v * len2 v / (c * c)) with (gam c v * gam c v - gam c v * gam c v * (1 - len2 v / (c * c))) by (field; lra). rewrite G. ring.
Qed.
Lemma inv_of_mom v : subluminal c v -> lorenz_factor_inv c (len2 (mom c v)) = / gam c v.
Proof.
  intros H. unfold lorenz_factor_inv. rewrite gam_mom by assumption. f_equal. apply sqrt_square. left. now apply gam_pos.
Qed.
(** velocity of a momentum *)
Definition vel (u : v3) : v3 := vscale (lorenz_factor_inv c (len2 u)) u.
Lemma gam_u_pos u : 0 < gam_u c u.
Proof.
  apply sqrt_lt_R0. assert (P := len2_nonneg u). assert (C := cc).
  assert (0 <= len2 u / (c * c)) by (apply Rmult_le_pos; [lra|left; now apply Rinv_0_lt_compat]). lra.
Qed.
Lemma gam_u_sq u : gam_u c u * gam_u c u = 1 + len2 u / (c * c).
Proof.
  apply sqrt_sqrt. assert (P := len2_nonneg u). assert (C := cc).
  assert (0 <= len2 u / (c * c)) by (apply Rmult_le_pos; [lra|left; now apply Rinv_0_lt_compat]). lra.
Qed.
Lemma len2_vel u : len2 (vel u) = len2 u / (1 + len2 u / (c * c)).
Proof.
  unfold vel. rewrite len2_scale. unfold lorenz_factor_inv. fold (gam_u c u). rewrite <- gam_u_sq.
  assert (P := gam_u_pos u). field. lra.
Qed.
Lemma len2_vel' u : len2 (vel u) = len2 u * (c * c) / (c * c + len2 u).
Proof. rewrite len2_vel. assert (P := len2_nonneg u). assert (C := cc). field. split; lra. Qed.
Lemma vel_slow u : subluminal c (vel u).
Proof.
  unfold subluminal. rewrite len2_vel'. assert (P := len2_nonneg u). assert (C := cc).
  apply Rmult_lt_reg_r with (c * c + len2 u); [lra|]. unfold Rdiv. rewrite Rmult_assoc, Rinv_l by lra. nra.
Qed.
Lemma gam_vel u : gam c (vel u) = gam_u c u.
Proof.
  assert (P := gam_u_pos u). assert (S := gam_u_sq u). assert (C := cc). assert (L := len2_nonneg u).
  unfold gam. replace (1 - len2 (vel u) / (c * c)) with (/ gam_u c u * / gam_u c u).
  - rewrite sqrt_square; [now rewrite Rinv_inv|]. left. now apply Rinv_0_lt_compat.
  - rewrite len2_vel', <- Rinv_mult, S. field. split; lra.
Qed.
Lemma mom_vel u : mom c (vel u) = u.
Proof.
  unfold mom. rewrite gam_vel. unfold vel. rewrite scale_scale. unfold lorenz_factor_inv. fold (gam_u c u).
  assert (P := gam_u_pos u). rewrite Rinv_r by lra. apply scale_1.
Qed.
Lemma vel_mom v : subluminal c v -> vel (mom c v) = v.
Proof.
  intros H. unfold vel. rewrite inv_of_mom by assumption. unfold mom. rewrite scale_scale.
  assert (P := gam_pos v H). rewrite Rinv_l by lra. apply scale_1.
Qed.
Lemma mom_inj v w : subluminal c v -> subluminal c w -> mom c v = mom c w -> v = w.
Proof. intros H1 H2 E. rewrite <- (vel_mom v), <- (vel_mom w) by assumption. now rewrite E. Qed.
Lemma len2_mom v : subluminal c v -> len2 (mom c v) = len2 v * (c * c) / (c * c - len2 v).
Proof.
  intros H. unfold mom. rewrite len2_scale. assert (G := gam_sq v H). assert (C := cc). unfold subluminal in H.
  assert (E : gam c v * gam c v = c * c / (c * c - len2 v)).
  { apply Rmult_eq_reg_r with (1 - len2 v / (c * c)); [rewrite G; field; split; lra|].
    destruct (beta_range v H). lra. }
  rewrite E. field. lra.
Qed.
(** equal lengths of the momenta are equal speeds *)
Lemma speed_mom v w : subluminal c v -> subluminal c w -> (len2 (mom c v) = len2 (mom c w) <-> len2 v = len2 w).
Proof.
  intros H1 H2. split; intros E.
  - rewrite <- (vel_mom v), <- (vel_mom w) by assumption. now rewrite !len2_vel, E.
  - now rewrite !len2_mom, E by assumption.
Qed.
Lemma speed_lt v w : subluminal c v -> subluminal c w -> len2 (mom c v) < len2 (mom c w) -> len2 v < len2 w.
Proof.
  intros H1 H2 E. rewrite <- (vel_mom v), <- (vel_mom w) by assumption. rewrite !len2_vel'.
  set (a := len2 (mom c v)) in *. set (b := len2 (mom c w)) in *. assert (0 <= a) by apply len2_nonneg. assert (C := cc).
  apply Rmult_lt_reg_r with ((c * c + a) * (c * c + b)); [apply Rmult_lt_0_compat; lra|].
  replace (a * (c * c) / (c * c + a) * ((c * c + a) * (c * c + b))) with (a * (c * c) * (c * c + b)) by (field; lra).
  replace (b * (c * c) / (c * c + b) * ((c * c + a) * (c * c + b))) with (b * (c * c) * (c * c + a)) by (field; lra).
  assert (X : 0 < (b - a) * (c * c * (c * c))) by (apply Rmult_lt_0_compat; [lra|now apply Rmult_lt_0_compat]). lra.
Qed.

(** * The Boris rotation *)
Lemma rotate_len v b : len2 (boris_rotate v b) = len2 v.
Proof.
  assert (P := len2_nonneg b). unfold boris_rotate, len2 in *. cbv zeta. cbn [vx vy vz]. field. lra.
Qed.
Lemma rotate_dot v b : vdot (boris_rotate v b) b = vdot v b.
Proof.
  assert (P := len2_nonneg b). unfold boris_rotate, len2, vdot in *. cbv zeta. cbn [vx vy vz]. field. lra.
Qed.
Lemma rotate_mid v b : vsub (boris_rotate v b) v = cross (vadd (boris_rotate v b) v) b.
Proof.
  assert (P := len2_nonneg b). unfold boris_rotate, len2, vsub, vadd, cross in *. cbv zeta. cbn [vx vy vz]. f_equal; field; lra.
Qed.
Lemma rotate_zero v : boris_rotate v zero3 = v.
Proof. destruct v. unfold boris_rotate, zero3. cbn. f_equal; ring. Qed.
End C.

(** * C45 *)
Theorem C45_classic : forall k mu b v,
  len2 (boris_classic k mu zero3 b v) = len2 v /\ vdot (boris_classic k mu zero3 b v) b = vdot v b.
Proof.
  intros k mu b v. unfold boris_classic. cbv zeta. rewrite scale_zero, !add_zero. split; [apply rotate_len|].
  destruct (Req_dec (k * mu) 0) as [E|N].
  - rewrite E. replace (vscale 0 b) with zero3 by (unfold vscale, zero3; f_equal; ring). now rewrite rotate_zero.
  - assert (X := rotate_dot v (vscale (k * mu) b)). apply Rmult_eq_reg_l with (k * mu); [|exact N].
    unfold vdot, vscale in *. cbn in *. lra.
Qed.
Theorem C45_relativistic : forall c k mu b v, 0 < c -> subluminal c v ->
  exists v', boris_relativistic c k mu zero3 b v = Ok v' /\ len2 v' = len2 v /\ vdot v' b = vdot v b.
Proof.
  intros c k mu b v Hc S. unfold boris_relativistic. cbv zeta. rewrite (lorenz_eq c Hc v S). cbn [bind].
  fold (mom c v). rewrite scale_zero, !add_zero. set (t := vscale _ (vscale (k * mu) b)).
  eexists. split; [reflexivity|]. rewrite rotate_len. fold (mom c v).
  assert (E : vscale (lorenz_factor_inv c (len2 (mom c v))) (mom c v) = v) by now apply vel_mom. split.
  - rewrite len2_scale, rotate_len, <- len2_scale, E. reflexivity.
  - rewrite <- E at 3. rewrite !dot_scale. f_equal. unfold t. rewrite scale_scale.
    set (m := _ * (k * mu)). destruct (Req_dec m 0) as [Z|N].
    + rewrite Z. replace (vscale 0 b) with zero3 by (unfold vscale, zero3; f_equal; ring). now rewrite rotate_zero.
    + assert (X := rotate_dot (mom c v) (vscale m b)). apply Rmult_eq_reg_l with m; [|exact N].
      unfold vdot in *. cbn [vx vy vz vscale] in X. lra.
Qed.
Example C45_ex : subluminal 3 (V3 1 2 (1/2)) /\ 
  boris_classic 1 1 zero3 (V3 0 0 1) (V3 1 0 5) = V3 0 (-1) 5.
Proof. split; [unfold subluminal, len2; cbn; lra|]. unfold boris_classic, boris_rotate, vadd, vscale, zero3, len2. cbn. f_equal; field. Qed.

(** * C71: the Boris pusher solves the time-centred equation of motion
      (u+ - u-) = (u+ + u-) x B q dt/(2 m gamma), where u- and u+ are the momenta after the first and before the second half
      of the electric acceleration. *)
Theorem C71_classic : forall k mu e b v, let v' := boris_classic k mu e b v in
  let um := vadd v (vscale k e) in let up := vsub v' (vscale k e) in
  vsub up um = cross (vadd up um) (vscale (k * mu) b).
Proof.
  intros k mu e b v. cbv zeta. unfold boris_classic. cbv zeta. set (um := vadd v (vscale k e)).
  replace (vsub (vadd (boris_rotate um (vscale (k * mu) b)) (vscale k e)) (vscale k e)) with (boris_rotate um (vscale (k * mu) b)).
  - apply rotate_mid.
  - apply v3_eq; cbn; ring.
Qed.
Theorem C71_relativistic : forall c k mu e b v, 0 < c -> subluminal c v ->
  exists v', boris_relativistic c k mu e b v = Ok v' /\ subluminal c v' /\
  let um := vadd (mom c v) (vscale k e) in let up := vsub (mom c v') (vscale k e) in
  vsub up um = cross (vadd up um) (vscale (k * mu / gam_u c um) b) /\ len2 up = len2 um.
Proof.
  intros c k mu e b v Hc S. unfold boris_relativistic. cbv zeta. rewrite (lorenz_eq c Hc v S). cbn [bind].
  fold (mom c v). set (um := vadd (mom c v) (vscale k e)).
  set (t := vscale _ (vscale (k * mu) b)). fold (vel c (vadd (boris_rotate um t) (vscale k e))).
  eexists. split; [reflexivity|]. split; [now apply vel_slow|]. rewrite mom_vel by assumption.
  replace (vsub (vadd (boris_rotate um t) (vscale k e)) (vscale k e)) with (boris_rotate um t) by (apply v3_eq; cbn; ring).
  split; [|apply rotate_len]. replace (vscale (k * mu / gam_u c um) b) with t; [apply rotate_mid|].
  unfold t. rewrite scale_scale. f_equal. unfold lorenz_factor_inv. fold (gam_u c um). unfold Rdiv. ring.
Qed.

(** * C72: without magnetic field every pusher adds q E dt / m to the momentum *)
Definition electric (c k : R) (e v v' : v3) : Prop := subluminal c v' /\ mom c v' = vadd (mom c v) (vscale (2 * k) e).
Theorem C72_electric : forall c k mu e v, 0 < c -> subluminal c v ->
  (exists v', boris_relativistic c k mu e zero3 v = Ok v' /\ electric c k e v v') /\
  (exists v', vay c k mu e zero3 v = Ok v' /\ electric c k e v v') /\
  (exists v', hc c k mu e zero3 v = Ok v' /\ electric c k e v v') /\
  boris_classic k mu e zero3 v = vadd v (vscale (2 * k) e).
Proof.
  intros c k mu e v Hc S. assert (L := lorenz_eq c Hc v S).
  unfold boris_relativistic, vay, hc, boris_classic, vay_prime, vay_momentum. cbv zeta. rewrite L. cbn [bind]. fold (mom c v). rewrite !scale_zero.
  split; [|split; [|split]].
  - rewrite rotate_zero. eexists. split; [reflexivity|]. match goal with |- electric _ _ _ _ (vscale (lorenz_factor_inv c (len2 ?u)) _) => fold (vel c u) end.
    split; [now apply vel_slow|]. rewrite mom_vel by assumption. apply v3_eq; cbn; ring.
  - eexists. split; [reflexivity|]. match goal with |- electric _ _ _ _ (vscale (lorenz_factor_inv c (len2 ?u)) _) => fold (vel c u) end.
    split; [now apply vel_slow|]. rewrite mom_vel by assumption. unfold vdot, len2, zero3. apply v3_eq; cbn; field.
  - eexists. split; [reflexivity|]. match goal with |- electric _ _ _ _ (vscale (lorenz_factor_inv c (len2 ?u)) _) => fold (vel c u) end.
    split; [now apply vel_slow|]. rewrite mom_vel by assumption. unfold hc_rotate, zero3. apply v3_eq; cbn; field.
  - rewrite rotate_zero. apply v3_eq; cbn; ring.
Qed.

(** * C46 *)
Definition same_as {A} (m : outcome A) (P : A -> Prop) : Prop := exists x, m = Ok x /\ P x.
Theorem C46_boris : forall c k mu e b v, 0 < c -> subluminal c v -> same_as (boris_relativistic c k mu e b v) (subluminal c).
Proof. intros c k mu e b v Hc S. destruct (C71_relativistic c k mu e b v Hc S) as (v' & E & H & _). now exists v'. Qed.
Theorem C46_vay : forall c k mu e b v, 0 < c -> subluminal c v -> same_as (vay c k mu e b v) (subluminal c).
Proof.
  intros c k mu e b v Hc S. unfold vay. rewrite (lorenz_eq c Hc v S). cbn [bind]. eexists. split; [reflexivity|]. now apply vel_slow.
Qed.
Theorem C46_hc : forall c k mu e b v, 0 < c -> subluminal c v -> same_as (hc c k mu e b v) (subluminal c).
Proof.
  intros c k mu e b v Hc S. unfold hc. rewrite (lorenz_eq c Hc v S). cbn [bind]. eexists. split; [reflexivity|]. now apply vel_slow.
Qed.
(** over any number of steps, with any fields: the FATAL exit of lorenz_factor is never reached *)
Fixpoint run (push : v3 -> v3 -> v3 -> outcome v3) (fields : list (v3 * v3)) (v : v3) : outcome v3 :=
  match fields with [] => Ok v | (e, b) :: fs => do v1 <- push e b v; run push fs v1 end.
Theorem C46_for_ever : forall c k mu fields v, 0 < c -> subluminal c v ->
  same_as (run (boris_relativistic c k mu) fields v) (subluminal c) /\
  same_as (run (vay c k mu) fields v) (subluminal c) /\
  same_as (run (hc c k mu) fields v) (subluminal c).
Proof.
  intros c k mu fields v Hc S. 
  assert (G : forall push, (forall e b v, subluminal c v -> same_as (push e b v) (subluminal c)) ->
              forall v, subluminal c v -> same_as (run push fields v) (subluminal c)).
  { intros push H. induction fields as [|[e b] fs IH]; intros w Hw; cbn [run]; [now exists w|].
    destruct (H e b w Hw) as (w' & E & Hw'). rewrite E. cbn [bind]. now apply IH. }
  split; [|split]; apply G; auto; intros; [now apply C46_boris|now apply C46_vay|now apply C46_hc].
Qed.
(** the classic Boris pusher has no such bound *)
Theorem C46_classic_refuted : forall c, 0 < c -> exists k e v, subluminal c v /\ ~ subluminal c (boris_classic k 1 e zero3 v).
Proof.
  intros c Hc. exists 1, (V3 c 0 0), zero3. unfold subluminal, boris_classic. cbv zeta. rewrite scale_zero, rotate_zero, zero_add.
  unfold len2, vadd, vscale, zero3. cbn. split; nra.
Qed.
Example C46_ex : subluminal LIGHT_VEL (V3 100000000 200000000 (-100000000)).
Proof. unfold subluminal, len2, LIGHT_VEL. cbn. lra. Qed.

(** * C74: the adaptive Boris pusher always uses a value *)
Theorem C74_fast_partial : forall c lim k mu e b v, 0 < c -> subluminal c v -> lim * lim < len2 v ->
  same_as (boris_adaptive c lim k mu e b v) (subluminal c).
Proof. intros c lim k mu e b v Hc S L. unfold boris_adaptive. rewrite rlt_t by assumption. now apply C46_boris. Qed.
Theorem C74_slow_refuted : forall c lim k mu e b v, len2 v <= lim * lim -> boris_adaptive c lim k mu e b v = UB.
Proof. intros. unfold boris_adaptive. now rewrite rlt_f by assumption. Qed.
Example C74_ex : REL_LIMIT * REL_LIMIT < len2 (V3 0 60000000 0) /\ len2 (V3 0 40000000 0) <= REL_LIMIT * REL_LIMIT.
Proof. unfold len2, REL_LIMIT; cbn; lra. Qed.

(** * C47: Higuera-Cary *)
(** the two misprints have no effect for some fields, e.g. along (1, 1, 1) *)
Lemma hc_rotate_len b u : vx b * vx b = vz b * vz b -> vy b = vz b \/ vz u = 0 -> len2 (hc_rotate b u) = len2 u.
Proof.
  intros E H. unfold hc_rotate, len2. cbv zeta. cbn [vx vy vz].
  assert (D : 1 + vx b * vx b + vy b * vy b + vx b * vx b <> 0) by nra.
  set (d := 1 / (1 + vx b * vx b + vy b * vy b + vx b * vx b)).
  assert (Dd : (1 + vx b * vx b + vy b * vy b + vz b * vz b) * d = 1) by (unfold d; rewrite <- E; field; assumption).
  clearbody d. destruct b as [x y z], u as [p q r]. cbn [vx vy vz] in *.
  destruct H as [H|H].
  - subst y. transitivity (((1 + x * x + z * z + z * z) * d) * ((1 + x * x + z * z + z * z) * d) * (p * p + q * q + r * r)); [ring|]. rewrite Dd. ring.
  - subst r. transitivity (((1 + x * x + y * y + z * z) * d) * ((1 + x * x + y * y + z * z) * d) * (p * p + q * q)); [ring|]. rewrite Dd. ring.
Qed.
Theorem C47_special_partial : forall c k mu b v, 0 < c -> subluminal c v ->
  vx b * vx b = vz b * vz b -> vy b = vz b \/ vz v = 0 ->
  exists v', hc c k mu zero3 b v = Ok v' /\ subluminal c v' /\ len2 (mom c v') = len2 (mom c v) /\ len2 v' = len2 v.
Proof.
  intros c k mu b v Hc S E H. unfold hc. cbv zeta. rewrite (lorenz_eq c Hc v S). cbn [bind]. fold (mom c v).
  rewrite scale_zero, add_zero, zero_add. rewrite scale_scale. set (m := hc_gamma _ _ * _).
  fold (vel c (hc_rotate (vscale m b) (mom c v))).
  assert (Q : len2 (hc_rotate (vscale m b) (mom c v)) = len2 (mom c v)).
  { apply hc_rotate_len; unfold vscale, mom; cbn.
    - replace (vx b * m * (vx b * m)) with (vx b * vx b * (m * m)) by ring. rewrite E. ring.
    - destruct H as [H|H]; [left; now rewrite H|right; rewrite H; ring]. }
  eexists. split; [reflexivity|]. assert (W := vel_slow c Hc (hc_rotate (vscale m b) (mom c v))). split; [exact W|].
  assert (M : len2 (mom c (vel c (hc_rotate (vscale m b) (mom c v)))) = len2 (mom c v)) by (rewrite mom_vel by assumption; exact Q).
  split; [exact M|]. now apply (speed_mom c Hc).
Qed.
(** In a longitudinal field - the usual case - every step multiplies the momentum of a particle moving across the field
    by 1 + t^2 > 1 (t = tangent of half the rotation angle): the particle is heated without bound. *)
Theorem C47_longitudinal_refuted : forall c k mu B v, 0 < c -> subluminal c v -> vz v = 0 ->
  k * mu * B <> 0 -> v <> zero3 ->
  exists v' t, hc c k mu zero3 (V3 0 0 B) v = Ok v' /\ subluminal c v' /\ t <> 0 /\
    len2 (mom c v') = (1 + t * t) * (1 + t * t) * len2 (mom c v) /\ len2 v < len2 v'.
Proof.
  intros c k mu B v Hc S Z N V. unfold hc. cbv zeta. rewrite (lorenz_eq c Hc v S). cbn [bind]. fold (mom c v).
  rewrite scale_zero, add_zero, zero_add. rewrite scale_scale. set (g := hc_gamma _ _).
  assert (G : 0 < g).
  { unfold g, hc_gamma. cbv zeta. apply Rdiv_lt_0_compat; [lra|]. apply sqrt_lt_R0.
    set (s := 1 + len2 (mom c v) - len2 (vscale (k * mu) (V3 0 0 B))). set (q := _ + _ + _). 
    set (b2 := len2 (vscale (k * mu) (V3 0 0 B))).
    assert (B2 : 0 < b2) by (unfold b2, vscale, len2; cbn; nra).
    assert (X : Rabs s < sqrt (s * s + 4 * (b2 + q * q))).
    { rewrite <- sqrt_Rsqr_abs. apply sqrt_lt_1_alt. unfold Rsqr. nra. }
    assert (Y := Rle_abs (- s)). rewrite Rabs_Ropp in Y. lra. }
  set (m := g * (k * mu)). fold (vel c (hc_rotate (vscale m (V3 0 0 B)) (mom c v))).
  assert (T : m * B <> 0) by (unfold m; replace (g * (k * mu) * B) with (g * (k * mu * B)) by ring; apply Rmult_integral_contrapositive_currified; lra).
  assert (Q : len2 (hc_rotate (vscale m (V3 0 0 B)) (mom c v)) = (1 + m * B * (m * B)) * (1 + m * B * (m * B)) * len2 (mom c v)).
  { unfold hc_rotate, len2, vscale, mom. cbn. rewrite Z. field. }
  eexists. exists (m * B). split; [reflexivity|].
  assert (W := vel_slow c Hc (hc_rotate (vscale m (V3 0 0 B)) (mom c v))). split; [exact W|]. split; [exact T|].
  assert (M : len2 (mom c (vel c (hc_rotate (vscale m (V3 0 0 B)) (mom c v)))) = (1 + m * B * (m * B)) * (1 + m * B * (m * B)) * len2 (mom c v))
    by (rewrite mom_vel by assumption; exact Q).
  split; [exact M|]. apply (speed_lt c Hc); auto. rewrite M.
  assert (P : 0 < len2 (mom c v)).
  { unfold mom. rewrite len2_scale. assert (0 < gam c v) by now apply gam_pos. apply Rmult_lt_0_compat; [nra|now apply len2_pos]. }
  assert (TT : 0 < m * B * (m * B)) by now apply sq_pos. set (t2 := m * B * (m * B)) in *. clearbody t2.
  set (l := len2 (mom c v)) in *. clearbody l. assert (0 < t2 * l) by now apply Rmult_lt_0_compat.
  assert (0 < t2 * (t2 * l)) by now apply Rmult_lt_0_compat. lra.
Qed.
Example C47_ex : subluminal LIGHT_VEL (V3 100000000 0 0) /\ V3 100000000 0 0 <> zero3 /\ 2 * MAGN_CONST * 1 <> 0 /\
  subluminal LIGHT_VEL (V3 1 2 3) /\ (let b := V3 1 1 1 in vx b * vx b = vz b * vz b /\ vy b = vz b).
Proof.
  unfold subluminal, len2, LIGHT_VEL, MAGN_CONST, zero3. cbn. repeat split; try lra. intros E. injection E. lra.
Qed.

(** * C73: Vay *)
(** With no electric field and a velocity across the field the Vay pusher keeps the speed exactly if the speed of light
    is 1: [alpha = 1 + u^2] (line 81) lacks the division by c^2. *)
Definition vay_x (b2 u2 : R) : R := 1 / 2 * (1 + u2 - b2 + sqrt ((1 + u2 - b2) * (1 + u2 - b2) + 4 * b2)).
Lemma vay_x_pos b2 u2 : 0 <= b2 -> 0 <= u2 -> 0 < vay_x b2 u2.
Proof.
  intros H1 H2. unfold vay_x. set (s := 1 + u2 - b2).
  destruct (Rle_lt_or_eq_dec 0 b2 H1) as [L|E].
  - assert (X : Rabs s < sqrt (s * s + 4 * b2)) by (rewrite <- sqrt_Rsqr_abs; apply sqrt_lt_1_alt; unfold Rsqr; nra).
    assert (Y := Rle_abs (- s)). rewrite Rabs_Ropp in Y. lra.
  - assert (0 < s) by (unfold s; lra). assert (0 <= sqrt (s * s + 4 * b2)) by apply sqrt_pos. lra.
Qed.
(** the larger solution of x^2 - s x - b2 = 0 *)
Lemma vay_x_eq b2 u2 : 0 <= b2 -> vay_x b2 u2 * vay_x b2 u2 - (1 + u2 - b2) * vay_x b2 u2 - b2 = 0.
Proof.
  intros H. unfold vay_x. set (s := 1 + u2 - b2).
  assert (Q : sqrt (s * s + 4 * b2) * sqrt (s * s + 4 * b2) = s * s + 4 * b2) by (apply sqrt_sqrt; nra).
  set (w := sqrt (s * s + 4 * b2)) in *. nra.
Qed.
Lemma vay_x_unique b2 u2 x : 0 <= b2 -> 0 <= u2 -> 0 < x -> x * x - (1 + u2 - b2) * x - b2 = 0 -> x = vay_x b2 u2.
Proof.
  intros H1 H2 Hx E. assert (P := vay_x_pos b2 u2 H1 H2). assert (F := vay_x_eq b2 u2 H1).
  set (y := vay_x b2 u2) in *. set (s := 1 + u2 - b2) in *.
  assert (Z : (x - y) * (x + y - s) = 0) by nra. apply Rmult_integral in Z. destruct Z as [Z|Z]; [lra|].
  (* x + y = s and x y = - b2 <= 0 *) assert (x * y = - b2) by nra. assert (0 < x * y) by now apply Rmult_lt_0_compat. lra.
Qed.
Section Vay.
Variable c : R.
Hypothesis Hc : 0 < c.
Lemma vay_perp k mu b v : subluminal c v -> vdot v b = 0 ->
  let u := mom c v in let t2 := len2 (vscale (k * mu) b) in
  let g2 := gam c v * gam c v in let w2 := len2 u * (1 + t2 / g2) in
  exists v', vay c k mu zero3 b v = Ok v' /\ subluminal c v' /\ len2 (mom c v') = w2 / (1 + t2 / vay_x t2 w2).
Proof.
  intros S D. cbv zeta. set (u := mom c v). set (b1 := vscale (k * mu) b). unfold vay. cbv zeta. rewrite (lorenz_eq c Hc v S). cbn [bind].
  fold (mom c v) u b1. set (up := vay_prime c k mu zero3 b u).
  assert (GP := gam_pos c Hc v S).
  assert (D1 : vdot u b1 = 0).
  { unfold u, b1, mom. rewrite dot_scale. replace (vdot v (vscale (k * mu) b)) with (k * mu * vdot v b) by (unfold vdot, vscale; cbn; ring). rewrite D. ring. }
  assert (U : up = vadd u (vscale (/ gam c v) (cross u b1))).
  { unfold up, vay_prime. cbv zeta. unfold u. rewrite (inv_of_mom c Hc v S). rewrite scale_zero, add_zero. fold u b1. apply v3_eq; cbn; ring. }
  assert (Lup : len2 up = len2 u * (1 + len2 b1 / (gam c v * gam c v))).
  { rewrite U. 
    transitivity (len2 u + / gam c v * / gam c v * (len2 u * len2 b1 - vdot u b1 * vdot u b1)).
    - unfold len2, vadd, vscale, cross, vdot. cbn. ring.
    - rewrite D1. field. lra. }
  assert (Dup : vdot up b1 = 0).
  { rewrite U. transitivity (vdot u b1); [|exact D1]. unfold vdot, vadd, vscale, cross. cbn. ring. }
  fold (vel c (vay_momentum b1 up)). eexists. split; [reflexivity|]. split; [now apply vel_slow|]. rewrite mom_vel by assumption.
  rewrite <- Lup. unfold vay_momentum. cbv zeta. rewrite Dup.
  replace (1 / 2 * (1 + len2 up - len2 b1 + sqrt ((1 + len2 up - len2 b1) * (1 + len2 up - len2 b1) + 4 * (len2 b1 + 0 * 0)))) with (vay_x (len2 b1) (len2 up))
    by (unfold vay_x; do 3 f_equal; f_equal; ring).
  assert (X := vay_x_pos (len2 b1) (len2 up) (len2_nonneg _) (len2_nonneg _)). set (x := vay_x (len2 b1) (len2 up)) in *.
  set (a := 1 / sqrt x). assert (A : a * a = / x).
  { unfold a. assert (Q := sqrt_sqrt x ltac:(lra)). assert (0 < sqrt x) by now apply sqrt_lt_R0. rewrite <- Q at 3. field. lra. }
  replace (vdot up (vscale a b1)) with 0 by (transitivity (a * vdot up b1); [rewrite Dup; ring|unfold vdot, vscale; cbn; ring]).
  assert (L1 : len2 (vscale a b1) = len2 b1 / x) by (rewrite len2_scale, A; unfold Rdiv; ring). rewrite L1.
  assert (P1 : 0 <= len2 b1) by apply len2_nonneg.
  assert (P2 : 0 <= len2 b1 / x) by (apply Rmult_le_pos; [lra|left; now apply Rinv_0_lt_compat]).
  set (s := 1 / (1 + len2 b1 / x)).
  transitivity (s * s * (len2 up + (len2 (vscale a b1) * len2 up - vdot up (vscale a b1) * vdot up (vscale a b1)))).
  { unfold len2, vdot. cbn. ring. }
  replace (vdot up (vscale a b1)) with 0 by (transitivity (a * vdot up b1); [rewrite Dup; ring|unfold vdot, vscale; cbn; ring]).
  rewrite L1. unfold s. field. split; [lra|]. nra.
Qed.
End Vay.
Theorem C73_unit_light_speed_partial : forall k mu b v, subluminal 1 v -> vdot v b = 0 ->
  exists v', vay 1 k mu zero3 b v = Ok v' /\ subluminal 1 v' /\ len2 v' = len2 v.
Proof.
  intros k mu b v S D. destruct (vay_perp 1 ltac:(lra) k mu b v S D) as (v' & E & H & L). exists v'. split; [exact E|]. split; [exact H|].
  apply (speed_mom 1 ltac:(lra)); auto. rewrite L. clear L E.
  assert (G := gam_mom 1 ltac:(lra) v S). assert (GP := gam_pos 1 ltac:(lra) v S).
  set (u2 := len2 (mom 1 v)) in *. set (t2 := len2 (vscale (k * mu) b)). assert (T : 0 <= t2) by apply len2_nonneg.
  assert (U2 : 0 <= u2) by apply len2_nonneg. set (g2 := gam 1 v * gam 1 v) in *. assert (G2 : g2 = 1 + u2) by (rewrite <- G; field).
  assert (W : 0 <= u2 * (1 + t2 / g2)).
  { apply Rmult_le_pos; [lra|]. assert (0 <= t2 / g2) by (apply Rmult_le_pos; [lra|left; apply Rinv_0_lt_compat; lra]). lra. }
  replace (vay_x t2 (u2 * (1 + t2 / g2))) with g2.
  - assert (0 <= t2 / g2) by (apply Rmult_le_pos; [lra|left; apply Rinv_0_lt_compat; lra]). field. split; [lra|]. nra.
  - apply vay_x_unique; auto; [lra|]. rewrite G2. field. lra.
Qed.
Theorem C73_refuted : forall c k mu b v, 0 < c -> c <> 1 -> subluminal c v -> vdot v b = 0 -> v <> zero3 -> b <> zero3 -> k * mu <> 0 ->
  exists v', vay c k mu zero3 b v = Ok v' /\ len2 v' <> len2 v.
Proof.
  intros c k mu b v Hc N S D V B K. destruct (vay_perp c Hc k mu b v S D) as (v' & E & H & L). exists v'. split; [exact E|].
  intros C. apply (speed_mom c Hc) in C; auto. rewrite C in L. clear E C.
  assert (G := gam_mom c Hc v S). assert (GP := gam_pos c Hc v S). assert (CC := cc c Hc).
  assert (U2 : 0 < len2 (mom c v)).
  { unfold mom. rewrite len2_scale. apply Rmult_lt_0_compat; [nra|now apply len2_pos]. }
  assert (T : 0 < len2 (vscale (k * mu) b)).
  { rewrite len2_scale. apply Rmult_lt_0_compat; [|now apply len2_pos]. nra. }
  set (u2 := len2 (mom c v)) in *. set (t2 := len2 (vscale (k * mu) b)) in *.
  set (g2 := gam c v * gam c v) in *. assert (G2 : 0 < g2) by (unfold g2; nra).
  set (w2 := u2 * (1 + t2 / g2)) in *. assert (TG : 0 < t2 / g2) by now apply Rdiv_lt_0_compat.
  assert (W : 0 < w2) by (unfold w2; nra).
  assert (X := vay_x_pos t2 w2 ltac:(lra) ltac:(lra)). assert (Q := vay_x_eq t2 w2 ltac:(lra)).
  set (x := vay_x t2 w2) in *. assert (TX : 0 < t2 / x) by now apply Rdiv_lt_0_compat.
  assert (XG : x = g2).
  { assert (Y : u2 * (1 + t2 / x) = u2 * (1 + t2 / g2)).
    { rewrite L at 1. fold w2. field. split; lra. }
    apply Rmult_eq_reg_l in Y; [|lra]. assert (Y' : t2 * / x = t2 * / g2) by (unfold Rdiv in Y; lra).
    apply Rmult_eq_reg_l in Y'; [|lra]. rewrite <- (Rinv_inv x), <- (Rinv_inv g2). now rewrite Y'. }
  rewrite XG in Q.
  assert (Z : u2 * (/ (c * c) - 1) * (g2 + t2) = 0).
  { transitivity (g2 * (1 + u2 / (c * c)) - (1 + w2 - t2) * g2 - t2 - t2 * (g2 - (1 + u2 / (c * c)))).
    - unfold w2. field. split; lra.
    - rewrite G. rewrite <- Q. ring. }
  apply Rmult_integral in Z. destruct Z as [Z|Z]; [|lra]. apply Rmult_integral in Z. destruct Z as [Z|Z]; [lra|].
  assert (C2 : c * c = 1). { rewrite <- (Rinv_inv (c * c)). replace (/ (c * c)) with 1 by lra. apply Rinv_1. }
  apply N. nra.
Qed.
Example C73_ex : let v := V3 100000000 0 0 in let b := V3 0 0 1 in subluminal LIGHT_VEL v /\ vdot v b = 0 /\ v <> zero3 /\ b <> zero3 /\ LIGHT_VEL <> 1.
Proof.
  cbv zeta. unfold subluminal, len2, vdot, LIGHT_VEL, zero3. cbn. repeat split; try lra; intros E; injection E; lra.
Qed.

(** * C48 *)
Theorem C48_inverse : forall c v, 0 < c -> subluminal c v ->
  exists g, lorenz_factor c (len2 v) = Ok g /\ 1 <= g /\ vscale (lorenz_factor_inv c (len2 (vscale g v))) (vscale g v) = v.
Proof.
  intros c v Hc S. exists (gam c v). split; [now apply lorenz_eq|]. split; [|now apply vel_mom].
  assert (G := gam_sq c Hc v S). assert (P := gam_pos c Hc v S). destruct (beta_range c Hc v S). nra.
Qed.
Theorem C48_inverse_momentum : forall c u, 0 < c ->
  exists g, let v := vscale (lorenz_factor_inv c (len2 u)) u in lorenz_factor c (len2 v) = Ok g /\ vscale g v = u.
Proof.
  intros c u Hc. exists (gam c (vel c u)). cbv zeta. fold (vel c u). split; [apply lorenz_eq; auto; now apply vel_slow|].
  now apply (mom_vel c Hc).
Qed.
(** kinetic energy of special relativity *)
Definition kinetic (c mass : R) (v : v3) : R := (gam c v - 1) * mass * (c * c).
Theorem C48_energy : forall c lim mass v, 0 < c -> 0 < mass -> subluminal c v -> lim * lim < len2 v ->
  exists p, momentum c mass v = Ok p /\ energy c lim mass (len2 v) = Ok (kinetic c mass v) /\ energy_m c lim mass (len2 p) = kinetic c mass v.
Proof.
  intros c lim mass v Hc Hm S L. unfold momentum, energy, energy_m. rewrite (req_f mass 0) by lra. rewrite rlt_t by assumption.
  rewrite (lorenz_eq c Hc v S). cbn [bind]. eexists. split; [reflexivity|]. split; [reflexivity|]. fold (mom c v).
  assert (P := gam_pos c Hc v S). assert (G := gam_sq c Hc v S). assert (M := gam_mom c Hc v S). assert (C := cc c Hc).
  destruct (beta_range c Hc v S) as [B1 B2].
  assert (g1 : 1 <= gam c v) by nra.
  rewrite rlt_t.
  - unfold kinetic. replace (len2 (vscale mass (mom c v)) * (c * c) + mass * (c * c) * (mass * (c * c))) with (gam c v * mass * (c * c) * (gam c v * mass * (c * c))).
    + rewrite sqrt_square; [ring|]. repeat apply Rmult_le_pos; lra.
    + rewrite len2_scale. transitivity (mass * mass * (c * c) * (c * c) * (1 + len2 (mom c v) / (c * c))); [rewrite M; ring|field; lra].
  - unfold mom. rewrite !len2_scale. replace (lim * lim * mass * mass) with (mass * mass * (lim * lim)) by ring.
    apply Rmult_lt_compat_l; [nra|]. assert (0 <= len2 v) by apply len2_nonneg. nra.
Qed.
(** below the limit the two always differ *)
Theorem C48_slow_refuted : forall c lim mass v, 0 < c -> 0 < mass -> subluminal c v -> len2 v <= lim * lim -> v <> zero3 ->
  exists p e, momentum c mass v = Ok p /\ energy c lim mass (len2 v) = Ok e /\ e < energy_m c lim mass (len2 p).
Proof.
  intros c lim mass v Hc Hm S L V. unfold momentum, energy, energy_m. rewrite (req_f mass 0) by lra. rewrite (rlt_f (lim * lim)) by assumption.
  rewrite (lorenz_eq c Hc v S). cbn [bind]. do 2 eexists. split; [reflexivity|]. split; [reflexivity|]. fold (mom c v).
  assert (P := gam_pos c Hc v S). assert (G := gam_sq c Hc v S). assert (M := gam_mom c Hc v S). assert (C := cc c Hc).
  destruct (beta_range c Hc v S) as [B1 B2]. assert (V2 := len2_pos v V).
  assert (B3 : 0 < len2 v / (c * c)) by now apply Rdiv_lt_0_compat.
  assert (g1 : 1 < gam c v).
  { destruct (Rlt_le_dec 1 (gam c v)) as [A|A]; [exact A|exfalso]. set (g := gam c v) in *. set (b := len2 v / (c * c)) in *. clearbody g b.
    assert (g * g <= 1) by nra. assert (g * g * (1 - b) <= 1 * (1 - b)) by (apply Rmult_le_compat_r; lra). lra. }
  unfold rlt. destruct (Rlt_dec _ _) as [H|H].
  - replace (len2 (vscale mass (mom c v)) * (c * c) + mass * (c * c) * (mass * (c * c))) with (gam c v * mass * (c * c) * (gam c v * mass * (c * c))).
    + rewrite sqrt_square by (repeat apply Rmult_le_pos; lra).
      (* m v^2 / 2 < (gamma - 1) m c^2 *)
      assert (X : len2 v = len2 v / (c * c) * (c * c)) by (field; lra). rewrite X. set (b := len2 v / (c * c)) in *. clearbody b. clear X H M L.
      set (g := gam c v) in *. clearbody g.
      assert (Y : b / 2 < g - 1).
      { assert (b = 1 - / (g * g)) by (replace b with (1 - (1 - b)) by ring; f_equal; apply Rmult_eq_reg_l with (g * g); [rewrite Rinv_r by nra; exact G|nra]).
        rewrite H. apply Rmult_lt_reg_r with (g * g); [nra|].
        replace ((1 - / (g * g)) / 2 * (g * g)) with ((g * g - 1) / 2) by (field; lra).
        assert (0 < (g - 1) * (g - 1)) by (apply sq_pos; lra). assert (0 < (g - 1) * (g - 1) * (2 * g + 1)) by (apply Rmult_lt_0_compat; lra). lra. }
      assert (MC : 0 < mass * (c * c)) by (apply Rmult_lt_0_compat; lra). nra.
    + rewrite len2_scale. transitivity (mass * mass * (c * c) * (c * c) * (1 + len2 (mom c v) / (c * c))); [rewrite M; ring|field; lra].
  - unfold mom. rewrite !len2_scale. replace (1 / 2 * (mass * mass * (gam c v * gam c v * len2 v)) / mass) with (1 / 2 * mass * (gam c v * gam c v) * len2 v) by (field; lra).
    assert (MV : 0 < mass * len2 v) by now apply Rmult_lt_0_compat. nra.
Qed.
Example C48_ex : subluminal LIGHT_VEL (V3 0 60000000 0) /\ REL_LIMIT * REL_LIMIT < len2 (V3 0 60000000 0).
Proof. unfold subluminal, len2, REL_LIMIT, LIGHT_VEL; cbn; lra. Qed.

(** * C75: the four-momentum lies on the mass shell *)
Theorem C75_mass_shell : forall c mass v, 0 < c -> mass <> 0 -> subluminal c v ->
  exists p0 p, momentum_0 c mass v = Ok p0 /\ momentum c mass v = Ok p /\ p0 * p0 - len2 p = mass * c * (mass * c).
Proof.
  intros c mass v Hc Hm S. unfold momentum_0, momentum. rewrite (req_f mass 0) by assumption. rewrite (lorenz_eq c Hc v S). cbn [bind].
  do 2 eexists. split; [reflexivity|]. split; [reflexivity|]. fold (mom c v). rewrite len2_scale.
  assert (M := gam_mom c Hc v S). assert (C := cc c Hc).
  transitivity (mass * mass * (c * c) * (gam c v * gam c v) - mass * mass * len2 (mom c v)); [ring|]. rewrite <- M. field. lra.
Qed.
Theorem C75_massless_reported : forall c v, momentum_0 c 0 v = Fatal /\ momentum c 0 v = Fatal.
Proof. intros. unfold momentum_0, momentum, req. destruct (Req_EM_T 0 0); [auto|lra]. Qed.
Theorem C75_superluminal_reported : forall c mass v, 0 < c -> mass <> 0 -> c * c < len2 v -> momentum_0 c mass v = Fatal /\ momentum c mass v = Fatal.
Proof.
  intros c mass v Hc Hm L. unfold momentum_0, momentum. rewrite (req_f mass 0) by assumption. unfold lorenz_factor.
  rewrite rlt_t; [auto|]. apply Rmult_lt_reg_r with (c * c); [now apply cc|]. unfold Rdiv. rewrite Rmult_assoc, Rinv_l by (assert (X := cc c Hc); lra). lra.
Qed.

Print Assumptions C45_classic.
Print Assumptions C45_relativistic.
Print Assumptions C46_boris.
Print Assumptions C46_vay.
Print Assumptions C46_hc.
Print Assumptions C46_for_ever.
Print Assumptions C46_classic_refuted.
Print Assumptions C47_special_partial.
Print Assumptions C47_longitudinal_refuted.
Print Assumptions C48_inverse.
Print Assumptions C48_inverse_momentum.
Print Assumptions C48_energy.
Print Assumptions C48_slow_refuted.
Print Assumptions C71_classic.
Print Assumptions C71_relativistic.
Print Assumptions C72_electric.
Print Assumptions C73_unit_light_speed_partial.
Print Assumptions C73_refuted.
Print Assumptions C74_fast_partial.
Print Assumptions C74_slow_refuted.
Print Assumptions C75_mass_shell.
Print Assumptions C75_massless_reported.
Print Assumptions C75_superluminal_reported.
