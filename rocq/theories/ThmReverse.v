(** C173: the pushers run backwards.  A particle whose velocity is turned round, in the same electric and the opposite magnetic
    fields in the opposite order, comes back to the velocity that it started with, turned round. *)
From Coq Require Import Reals Lra Psatz.
From Verif Require Import Base PushModel ThmPush.
Import ListNotations.
Open Scope R_scope.

(** ** specification *)
Definition vneg (v : v3) : v3 := V3 (- vx v) (- vy v) (- vz v).
(** one step, and the step back *)
Definition comes_back (push : v3 -> v3 -> v3 -> outcome v3) (e b v : v3) : Prop := exists v', push e b v = Ok v' /\ push e (vneg b) (vneg v') = Ok (vneg v).
(** many steps in given fields *)
Fixpoint steps (push : v3 -> v3 -> v3 -> outcome v3) (fields : list (v3 * v3)) (v : v3) : outcome v3 :=
  match fields with [] => Ok v | (e, b) :: l => do v <- push e b v; steps push l v end.
Definition backwards (fields : list (v3 * v3)) : list (v3 * v3) := map (fun eb => (fst eb, vneg (snd eb))) (rev fields).

(** ** helpers *)
Lemma neg_scale k v : vscale k (vneg v) = vneg (vscale k v).
Proof. unfold vscale, vneg. cbn. f_equal; ring. Qed.
Lemma neg_len v : len2 (vneg v) = len2 v.
Proof. unfold len2, vneg. cbn. ring. Qed.
Lemma neg_neg v : vneg (vneg v) = v.
Proof. destruct v. unfold vneg. cbn. f_equal; ring. Qed.
Lemma neg_slow c v : subluminal c v -> subluminal c (vneg v).
Proof. unfold subluminal. now rewrite neg_len. Qed.
Lemma neg_mom c v : mom c (vneg v) = vneg (mom c v).
Proof. unfold mom, gam. now rewrite neg_len, neg_scale. Qed.
Lemma neg_vel c u : vel c (vneg u) = vneg (vel c u).
Proof. unfold vel. now rewrite neg_len, neg_scale. Qed.
Lemma rotate_back v b : boris_rotate (vneg (boris_rotate v b)) (vneg b) = vneg v.
Proof. assert (P := len2_nonneg b). unfold boris_rotate, vneg, len2 in *. cbv zeta. cbn [vx vy vz]. destruct v as [x y z], b as [p q r]. cbn [vx vy vz] in *. f_equal; field; lra. Qed.
Lemma half_back u e : vadd (vneg (vadd u e)) e = vneg u.
Proof. unfold vadd, vneg. destruct u. cbn. f_equal; ring. Qed.

(** ** Boris *)
Theorem C173_classic : forall k mu e b v, boris_classic k mu e (vneg b) (vneg (boris_classic k mu e b v)) = vneg v.
Proof. intros. unfold boris_classic. cbv zeta. rewrite neg_scale, half_back, rotate_back. apply half_back. Qed.
Theorem C173_relativistic : forall c k mu e b v, 0 < c -> subluminal c v -> comes_back (boris_relativistic c k mu) e b v.
Proof.
  intros c k mu e b v Hc S. unfold comes_back, boris_relativistic. cbv zeta. rewrite (lorenz_eq c Hc v S). cbn [bind]. fold (mom c v).
  set (E := vscale k e). set (B := vscale (k * mu) b). set (w := vadd (mom c v) E). set (t := vscale (lorenz_factor_inv c (len2 w)) B).
  set (u' := vadd (boris_rotate w t) E). fold (vel c u'). exists (vel c u'). split; [reflexivity|].
  assert (S' := vel_slow c Hc u'). rewrite (lorenz_eq c Hc _ (neg_slow _ _ S')). cbn [bind]. fold (mom c (vneg (vel c u'))). rewrite neg_mom, (mom_vel c Hc).
  replace (vadd (vneg u') E) with (vneg (boris_rotate w t)) by (unfold u'; symmetry; apply half_back). rewrite neg_len, rotate_len, !neg_scale. fold B t. rewrite rotate_back.
  unfold w. rewrite half_back. fold (vel c (vneg (mom c v))). now rewrite neg_vel, (vel_mom c Hc).
Qed.
(** the adaptive build: as long as it does something defined, see C74 *)
Theorem C173_adaptive_partial : forall c lim k mu e b v v', 0 < c -> subluminal c v -> boris_adaptive c lim k mu e b v = Ok v' -> lim * lim < len2 v' ->
  boris_adaptive c lim k mu e (vneg b) (vneg v') = Ok (vneg v).
Proof.
  intros c lim k mu e b v v' Hc S H L. destruct (C173_relativistic c k mu e b v Hc S) as (w & E & B). unfold boris_adaptive in *. rewrite neg_len, (rlt_t _ _ L). cbv iota zeta.
  destruct (rlt (lim * lim) (len2 v)); cbv iota in H; [|discriminate]. rewrite E in H. apply ok_inj in H. now subst w.
Qed.

(** ** Vay *)
(** the implicit equation that the pusher solves *)
Lemma vay_solves (b w : v3) : let y := 1 + len2 w in vay_momentum b (vsub w (vscale (/ sqrt y) (cross w b))) = w.
Proof.
  intros y. assert (P := len2_nonneg w). assert (Y : 0 < y) by (unfold y; lra). set (q := sqrt y). assert (Q : 0 < q) by now apply sqrt_lt_R0.
  assert (QQ : q * q = y) by (apply sqrt_sqrt; lra). set (t := / q). assert (T : t * t * y = 1) by (unfold t; rewrite <- QQ; field; lra).
  assert (T1 : t * t = / y) by (rewrite <- (Rmult_1_r (/ y)), <- T; field; lra).
  set (p := vsub w (vscale t (cross w b))). unfold vay_momentum. cbv zeta.
  assert (Dp : vdot p b = vdot w b) by (unfold p, vdot, vsub, vscale, cross; cbn; ring).
  assert (Lp : len2 p = len2 w + t * t * (len2 w * len2 b - vdot w b * vdot w b)) by (unfold p, len2, vdot, vsub, vscale, cross; cbn; ring).
  rewrite Dp, Lp, T1. set (B := len2 b). set (d := vdot w b). assert (PB : 0 <= B) by apply len2_nonneg.
  set (s := 1 + (len2 w + / y * (len2 w * B - d * d)) - B).
  assert (Qd : y * y - s * y - (B + d * d) = 0) by (unfold s; replace (len2 w) with (y - 1) by (unfold y; ring); field; lra).
  assert (Sq : sqrt (s * s + 4 * (B + d * d)) = 2 * y - s).
  { replace (s * s + 4 * (B + d * d)) with ((2 * y - s) * (2 * y - s)) by (replace (B + d * d) with (y * y - s * y) by lra; ring). apply sqrt_square.
    assert (H : 0 <= y * (2 * y - s)) by (replace (y * (2 * y - s)) with (y * y + (B + d * d)) by lra; nra). destruct (Rle_lt_dec 0 (2 * y - s)); [assumption|]. nra. }
  rewrite Sq. replace (1 / 2 * (s + (2 * y - s))) with y by field. fold q. replace (1 / q) with t by (unfold t; field; lra).
  assert (Lt : len2 (vscale t b) = t * t * B) by (rewrite len2_scale; reflexivity). rewrite Lt.
  assert (N : 1 + t * t * B <> 0) by nra.
  unfold p, vdot, vsub, vscale, cross. unfold B, len2 in *. destruct w as [w1 w2 w3], b as [b1 b2 b3]. cbn [vx vy vz] in *. f_equal; field; exact N.
Qed.
(** the pusher as an equation between the two momenta, for the speed of light 1 *)
Lemma vay_mid b p : let w := vay_momentum b p in p = vsub w (vscale (/ sqrt (1 + len2 w)) (cross w b)).
Proof.
  intros w. assert (Ew : w = vay_momentum b p) by reflexivity. clearbody w. unfold vay_momentum in Ew. cbv zeta in Ew. assert (PB := len2_nonneg b). assert (PP := len2_nonneg p).
  set (B := len2 b) in *. set (d := vdot p b) in *. set (s := 1 + len2 p - B) in *. set (r := sqrt (s * s + 4 * (B + d * d))) in *. set (x := 1 / 2 * (s + r)) in *.
  assert (RR : r * r = s * s + 4 * (B + d * d)) by (apply sqrt_sqrt; nra). assert (R0 : 0 <= r) by apply sqrt_pos.
  assert (X : 0 < x).
  { unfold x. destruct (Rlt_le_dec 0 s) as [L|L]; [lra|]. assert (HB : 0 < B) by (unfold s in L; lra). assert (H : 0 < (r - s) * (r + s)) by (replace ((r - s) * (r + s)) with (r * r - s * s) by ring; nra).
    assert (0 < r - s \/ r - s = 0) as [H1|H1] by lra; [|rewrite H1 in H; lra]. assert (0 < r + s); [|lra]. destruct (Rle_lt_dec (r + s) 0); [|assumption]. nra. }
  assert (Qd : x * x - s * x - (B + d * d) = 0) by (unfold x; nra).
  set (q := sqrt x) in *. assert (Q : 0 < q) by now apply sqrt_lt_R0. assert (QQ : q * q = x) by (apply sqrt_sqrt; lra).
  replace (1 / q) with (/ q) in Ew by (field; lra). set (t := / q) in *. assert (T : t * t = / x) by (unfold t; rewrite <- QQ; field; lra).
  assert (Lt : len2 (vscale t b) = t * t * B) by (rewrite len2_scale; reflexivity). rewrite Lt, T in Ew.
  assert (IX : 0 < / x) by now apply Rinv_0_lt_compat. assert (N : 1 + / x * B <> 0) by nra.
  assert (Wx : p = vsub w (vscale t (cross w b))).
  { assert (T' : / x = t * t) by now rewrite T. rewrite Ew. rewrite T' in *. unfold vdot, vsub, vscale, cross. clear - N. unfold B, len2 in *.
    destruct p as [p1 p2 p3], b as [b1 b2 b3]. cbn [vx vy vz] in *. f_equal; field; exact N. }
  assert (Lw : 1 + len2 w = x).
  { assert (Dw : vdot w b = d) by (unfold d; rewrite Wx; unfold vdot, vsub, vscale, cross; cbn; ring).
    assert (Lp : len2 p = len2 w + / x * (len2 w * B - d * d)) by (rewrite <- T, <- Dw; rewrite Wx at 1; unfold B, len2, vdot, vsub, vscale, cross; cbn; ring).
    assert (Y : len2 w * (x + B) = (x - 1) * (x + B)).
    { assert (Lx : len2 p * x = len2 w * x + (len2 w * B - d * d)) by (rewrite Lp; field; lra). unfold s in Qd. nra. }
    assert (len2 w = x - 1); [|lra]. apply Rmult_eq_reg_r with (x + B); [exact Y|lra]. }
  rewrite Lw. fold q t. exact Wx.
Qed.
Lemma unit_inv u : lorenz_factor_inv 1 (len2 u) = / sqrt (1 + len2 u).
Proof. unfold lorenz_factor_inv. do 3 f_equal. field. Qed.
Theorem C173_vay_partial : forall k mu e b v, subluminal 1 v -> comes_back (vay 1 k mu) e b v.
Proof.
  intros k mu e b v S. assert (H1 : 0 < 1) by lra. unfold comes_back, vay. cbv zeta. rewrite (lorenz_eq 1 H1 v S). cbn [bind]. fold (mom 1 v). set (u := mom 1 v). set (B := vscale (k * mu) b).
  set (p := vay_prime 1 k mu e b u). set (w := vay_momentum B p). fold (vel 1 w). exists (vel 1 w). split; [reflexivity|].
  assert (S' := vel_slow 1 H1 w). rewrite (lorenz_eq 1 H1 _ (neg_slow _ _ S')). cbn [bind]. fold (mom 1 (vneg (vel 1 w))). rewrite neg_mom, (mom_vel 1 H1), neg_scale. fold B.
  assert (M := vay_mid B p). cbv zeta in M. fold w in M.
  assert (Pr : forall x, vay_prime 1 k mu e b x = vadd (vadd x (vscale (2 * k) e)) (vscale (/ sqrt (1 + len2 x)) (cross x B))).
  { intros x. unfold vay_prime. cbv zeta. rewrite unit_inv. unfold B, vadd, vscale, cross. cbn. f_equal; ring. }
  assert (Back : vay_prime 1 k mu e (vneg b) (vneg w) = vsub (vneg u) (vscale (/ sqrt (1 + len2 (vneg u))) (cross (vneg u) (vneg B)))).
  { assert (Pr' : vay_prime 1 k mu e (vneg b) (vneg w) = vadd (vadd (vneg w) (vscale (2 * k) e)) (vscale (/ sqrt (1 + len2 w)) (cross w B))).
    { unfold vay_prime. cbv zeta. rewrite unit_inv, neg_len. unfold B, vadd, vscale, cross, vneg. cbn. f_equal; ring. }
    rewrite Pr'. assert (Pu := Pr u). fold p in Pu. rewrite M in Pu. rewrite neg_len. apply (f_equal vneg) in Pu. unfold vneg, vsub, vadd, vscale, cross in *. cbn in *. injection Pu as A1 A2 A3. f_equal; lra. }
  rewrite Back. rewrite (vay_solves (vneg B) (vneg u)). fold (vel 1 (vneg u)). unfold u. now rewrite neg_vel, (vel_mom 1 H1).
Qed.

(** ** many steps *)
Section Path.
Variable c : R.
Variable push : v3 -> v3 -> v3 -> outcome v3.
Hypothesis slow : forall e b v v', subluminal c v -> push e b v = Ok v' -> subluminal c v'.
Hypothesis back : forall e b v, subluminal c v -> comes_back push e b v.
Lemma steps_app l m v : steps push (l ++ m) v = (do v <- steps push l v; steps push m v).
Proof using. revert v. induction l as [|[e b] l IH]; intros v; cbn [steps app bind]; [reflexivity|]. destruct (push e b v); cbn [bind]; auto. Qed.
Lemma path_back l : forall v, subluminal c v -> exists v', steps push l v = Ok v' /\ subluminal c v' /\ steps push (backwards l) (vneg v') = Ok (vneg v).
Proof using slow back.
  induction l as [|[e b] l IH]; intros v S; [exists v; auto|]. destruct (back e b v S) as (w & E & B). destruct (IH w (slow _ _ _ _ S E)) as (v' & F & S' & G).
  exists v'. cbn [steps]. rewrite E. cbn [bind]. split; [exact F|]. split; [exact S'|]. unfold backwards in *. cbn [rev]. rewrite map_app, steps_app, G. cbn [bind map fst snd steps]. now rewrite B.
Qed.
End Path.
Theorem C173_path : forall c k mu fields v, 0 < c -> subluminal c v ->
  exists v', steps (boris_relativistic c k mu) fields v = Ok v' /\ subluminal c v' /\ steps (boris_relativistic c k mu) (backwards fields) (vneg v') = Ok (vneg v).
Proof.
  intros c k mu fields v Hc S. apply (path_back c); auto.
  - intros e b x y Sx E. assert (H := C46_boris c k mu e b x Hc Sx). unfold same_as in H. rewrite E in H. destruct H as (z & Z & H). apply ok_inj in Z. now subst z.
  - intros e b x Sx. now apply C173_relativistic.
Qed.

(** ** the other two *)
(** HC heats (C47), there and back: the way back does not lead to the start *)
Lemma hc_across c k mu B v v' : vz v = 0 -> 0 < c -> subluminal c v -> hc c k mu zero3 (V3 0 0 B) v = Ok v' -> vz v' = 0.
Proof.
  intros Z Hc S. unfold hc. cbv zeta. rewrite (lorenz_eq c Hc v S). cbn [bind]. intros H. apply ok_inj in H. subst v'. unfold vadd, vscale, hc_rotate, zero3. cbn. rewrite Z. ring.
Qed.
Theorem C173_hc_refuted : forall c k mu B v, 0 < c -> subluminal c v -> vz v = 0 -> k * mu * B <> 0 -> v <> zero3 -> ~ comes_back (hc c k mu) zero3 (V3 0 0 B) v.
Proof.
  intros c k mu B v Hc S Z N V (v' & E & F).
  destruct (C47_longitudinal_refuted c k mu B v Hc S Z N V) as (w & t & E' & S' & _ & _ & L). rewrite E in E'. apply ok_inj in E'. subst w.
  assert (Z' := hc_across _ _ _ _ _ _ Z Hc S E).
  assert (V' : vneg v' <> zero3). { intros X. apply (f_equal len2) in X. rewrite neg_len in X. assert (P := len2_nonneg v). unfold zero3 in X. unfold len2 at 2 in X. cbn in X. lra. }
  destruct (C47_longitudinal_refuted c k mu (- B) (vneg v') Hc (neg_slow _ _ S') ltac:(cbn; lra) ltac:(lra) V') as (w & t' & E2 & _ & _ & _ & L2).
  unfold vneg at 1 in F. cbn [vx vy vz] in F. rewrite Ropp_0 in F. rewrite E2 in F. apply ok_inj in F. subst w. rewrite !neg_len in L2. lra.
Qed.
(** Vay with the speed of light of the code: faster with each step *)
Lemma vay_speed c k mu b v : 0 < c -> subluminal c v -> vdot v b = 0 -> let t2 := len2 (vscale (k * mu) b) in
  exists v', vay c k mu zero3 b v = Ok v' /\ subluminal c v' /\ vdot v' b = 0 /\
    len2 (mom c v') * (1 + t2 / (1 + len2 (mom c v'))) = len2 (mom c v) * (1 + t2 / (1 + len2 (mom c v) / (c * c))).
Proof.
  intros Hc S D t2. destruct (vay_perp c Hc k mu b v S D) as (v' & E & S' & L). exists v'. split; [exact E|]. split; [exact S'|]. fold t2 in L. cbv zeta in L.
  assert (T0 : 0 <= t2) by apply len2_nonneg. assert (U0 := len2_nonneg (mom c v)). assert (U1 := len2_nonneg (mom c v')). assert (G := gam_mom c Hc v S). rewrite G.
  set (u2 := len2 (mom c v)) in *. set (u2' := len2 (mom c v')) in *. set (g2 := gam c v * gam c v) in *. assert (GP : 0 < g2) by (unfold g2; assert (P := gam_pos c Hc v S); nra).
  assert (TG : 0 <= t2 / g2) by (apply Rmult_le_pos; [lra|left; now apply Rinv_0_lt_compat]). assert (W : 0 <= u2 * (1 + t2 / g2)) by (apply Rmult_le_pos; lra).
  set (w2 := u2 * (1 + t2 / g2)) in *. assert (X := vay_x_pos t2 w2 T0 W). assert (Q := vay_x_eq t2 w2 T0). set (x := vay_x t2 w2) in *.
  assert (TX : 0 <= t2 / x) by (apply Rmult_le_pos; [lra|left; now apply Rinv_0_lt_compat]).
  assert (Y : u2' * (x + t2) = (x - 1) * (x + t2)).
  { assert (L2 : u2' * (1 + t2 / x) = w2) by (rewrite L; field; nra). assert (L3 : u2' * (x + t2) = w2 * x) by (rewrite <- L2; field; lra). rewrite L3. nra. }
  assert (Xu : x = 1 + u2') by (apply Rmult_eq_reg_r in Y; lra). split.
  - unfold vay in E. cbv zeta in E. rewrite (lorenz_eq c Hc v S) in E. cbn [bind] in E. apply ok_inj in E. subst v'. rewrite dot_scale. apply Rmult_eq_0_compat_l. fold (mom c v).
    clear - D. set (p := vay_prime c k mu zero3 b (mom c v)). assert (Dp : vdot p b = 0).
    { unfold p, vay_prime. cbv zeta. set (h := lorenz_factor_inv c _). clearbody h. unfold mom. set (g := gam c v). clearbody g. transitivity (g * vdot v b); [|rewrite D; ring].
      unfold zero3, vdot, vadd, vscale. cbn [vx vy vz]. ring. }
    unfold vay_momentum. cbv zeta. set (a := 1 / sqrt _). set (s := 1 / _). unfold vdot in Dp |- *. unfold vscale. cbn [vx vy vz].
    transitivity (s * (1 + a * (k * mu) * (a * (k * mu)) * (vx b * vx b + vy b * vy b + vz b * vz b)) * (vx p * vx b + vy p * vy b + vz p * vz b)); [ring|]. rewrite Dp. ring.
  - rewrite <- Xu. rewrite L. field. split; [|lra]. nra.
Qed.
(** the left side grows with the speed *)
Lemma gain_mono t x y : 0 <= t -> 0 <= x -> x <= y -> x * (1 + t / (1 + x)) <= y * (1 + t / (1 + y)).
Proof.
  intros T X H. assert (D : y * (1 + t / (1 + y)) - x * (1 + t / (1 + x)) = (y - x) * (1 + t / ((1 + x) * (1 + y)))) by (field; lra).
  assert (0 <= t / ((1 + x) * (1 + y))) by (apply Rmult_le_pos; [lra|left; apply Rinv_0_lt_compat; nra]). assert (0 <= (y - x) * (1 + t / ((1 + x) * (1 + y)))) by (apply Rmult_le_pos; lra). lra.
Qed.
Lemma gain_grows c t x y : 1 < c -> 0 < t -> 0 < x -> 0 <= y -> y * (1 + t / (1 + y)) = x * (1 + t / (1 + x / (c * c))) -> x < y.
Proof.
  intros C T X Y E. destruct (Rlt_le_dec x y) as [L|L]; [exact L|]. exfalso. assert (M := gain_mono t y x ltac:(lra) Y L).
  assert (C2 : 1 < c * c) by nra. assert (Q : x / (c * c) < x) by (apply Rmult_lt_reg_r with (c * c); [lra|]; replace (x / (c * c) * (c * c)) with x by (field; lra); nra).
  assert (Q0 : 0 < x / (c * c)) by (apply Rmult_lt_0_compat; [exact X|apply Rinv_0_lt_compat; lra]).
  assert (I : / (1 + x) < / (1 + x / (c * c))) by (apply Rinv_lt_contravar; [nra|lra]). unfold Rdiv in E, M, I |- *. assert (t * / (1 + x) < t * / (1 + x * / (c * c))) by (apply Rmult_lt_compat_l; assumption). nra.
Qed.
Theorem C173_vay_refuted : forall c k mu b v, 1 < c -> subluminal c v -> vdot v b = 0 -> v <> zero3 -> b <> zero3 -> k * mu <> 0 -> ~ comes_back (vay c k mu) zero3 b v.
Proof.
  intros c k mu b v C S D V B K (v' & E & F). assert (Hc : 0 < c) by lra.
  assert (Pos : forall x, subluminal c x -> x <> zero3 -> 0 < len2 (mom c x)).
  { intros x Sx Nx. unfold mom. rewrite len2_scale. assert (0 < gam c x) by now apply gam_pos. apply Rmult_lt_0_compat; [nra|now apply len2_pos]. }
  destruct (vay_speed c k mu b v Hc S D) as (w & E1 & S1 & D1 & L1). rewrite E in E1. apply ok_inj in E1. subst w.
  assert (Tp : 0 < len2 (vscale (k * mu) b)) by (rewrite len2_scale; apply Rmult_lt_0_compat; [now apply sq_pos|now apply len2_pos]).
  assert (G1 := gain_grows c _ _ _ C Tp (Pos v S V) (len2_nonneg _) L1).
  assert (D1' : vdot (vneg v') (vneg b) = 0) by (rewrite <- D1; unfold vdot, vneg; cbn; ring).
  destruct (vay_speed c k mu (vneg b) (vneg v') Hc (neg_slow _ _ S1) D1') as (w & E2 & S2 & _ & L2). rewrite F in E2. apply ok_inj in E2. subst w. rewrite neg_scale, neg_len, !neg_mom, !neg_len in L2.
  assert (G2 := gain_grows c _ (len2 (mom c v')) (len2 (mom c v)) C Tp ltac:(assert (P := len2_nonneg (mom c v)); lra) (len2_nonneg _) L2). lra.
Qed.
Example C173_ex : subluminal LIGHT_VEL (V3 100000000 0 0) /\ comes_back (boris_relativistic LIGHT_VEL (-1) MAGN_CONST) (V3 1 2 3) (V3 3 2 1) (V3 100000000 0 0) /\
  ~ comes_back (vay LIGHT_VEL (-1) MAGN_CONST) zero3 (V3 0 0 1) (V3 100000000 0 0) /\ ~ comes_back (hc LIGHT_VEL (-1) MAGN_CONST) zero3 (V3 0 0 1) (V3 100000000 0 0) /\ subluminal 1 (V3 (1 / 2) 0 (1 / 2)).
Proof.
  assert (S : subluminal LIGHT_VEL (V3 100000000 0 0)) by (unfold subluminal, len2, LIGHT_VEL; cbn; lra). assert (C : 1 < LIGHT_VEL) by (unfold LIGHT_VEL; lra).
  split; [exact S|]. split; [apply C173_relativistic; [lra|exact S]|].
  split; [apply C173_vay_refuted; auto; try (unfold vdot; cbn; lra); try (unfold zero3; intros X; injection X; lra); unfold MAGN_CONST; lra|].
  split; [apply C173_hc_refuted; auto; try reflexivity; try lra; try (unfold zero3; intros X; injection X; lra); unfold MAGN_CONST; lra|]. unfold subluminal, len2. cbn. lra.
Qed.

Print Assumptions C173_classic.
Print Assumptions C173_relativistic.
Print Assumptions C173_adaptive_partial.
Print Assumptions C173_vay_partial.
Print Assumptions C173_path.
Print Assumptions C173_hc_refuted.
Print Assumptions C173_vay_refuted.
Print Assumptions C173_ex.
