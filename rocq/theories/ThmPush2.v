(** Rounding in the pushers: property C76. *)
From Coq Require Import Reals Lra Psatz Lia Floats.SpecFloat ZArith.
From Verif Require Import Base RndUtil PushModel.
Open Scope R_scope.

(** any rounding with relative error at most 2^-53; [pow] with twice that (below one unit in the last place) *)
Definition eps : R := / 9007199254740992.
Definition rounding (rnd : R -> R) : Prop := forall x, Rabs (rnd x - x) <= eps * Rabs x.
Definition power (pw : R -> R) : Prop := forall x, 0 < x -> Rabs (pw x - / sqrt x) <= eps * / sqrt x.

Lemma eps_range : 0 < eps < 1 / 1000000000000000.
Proof. unfold eps. lra. Qed.
Section S.
Variable rnd pw : R -> R.
Hypothesis Hr : rounding rnd.
Hypothesis Hp : power pw.
Let q : R := 1 - eps.
Lemma q_range : 0 < q <= 1.
Proof. unfold q. assert (E := eps_range). lra. Qed.
Lemma rnd_range x : 0 <= x -> (1 - eps) * x <= rnd x <= (1 + eps) * x.
Proof.
  intros H. assert (R := Hr x). rewrite (Rabs_right x) in R by lra. apply Rabs_le_between in R || idtac.
  unfold Rabs in R. destruct (Rcase_abs (rnd x - x)); lra.
Qed.
Lemma rnd_1 x : 0 <= x -> approx q 1 x (rnd x).
Proof. apply approx_of_relative; [assert (E := eps_range); lra|]. exact rnd_range. Qed.
(** squares of rounded numbers of any sign *)
Lemma rnd_abs x : approx q 1 (Rabs x) (Rabs (rnd x)).
Proof.
  assert (R := Hr x). assert (A := Rabs_pos x). assert (E := eps_range).
  assert (Y : (1 - eps) * Rabs x <= Rabs (rnd x) <= (1 + eps) * Rabs x).
  { unfold Rabs in *. destruct (Rcase_abs (rnd x - x)), (Rcase_abs x), (Rcase_abs (rnd x)); nra. }
  unfold approx, q. rewrite pow_1. split; [lra|]. nra.
Qed.
Lemma sq_abs x : x * x = Rabs x * Rabs x.
Proof. unfold Rabs. destruct (Rcase_abs x); ring. Qed.
Lemma sq_nonneg x : 0 <= x * x.
Proof. nra. Qed.
Lemma approx_trans k l x y z : 0 <= x -> approx q k x y -> approx q l y z -> approx q (k + l) x z.
Proof.
  intros Hx [A B] [C D]. assert (Q := q_range). assert (P := q_pow_pos q Q k). assert (P' := q_pow_pos q Q l). unfold approx. rewrite pow_add.
  split.
  - apply Rle_trans with (2 := C). replace (q ^ k * q ^ l * x) with (q ^ l * (q ^ k * x)) by ring. apply Rmult_le_compat_l; lra.
  - apply Rle_trans with (2 := B). rewrite Rmult_assoc. apply Rmult_le_compat_l; lra.
Qed.
Lemma approx_sqrt k x y : 0 <= x -> approx q k x y -> approx q k (sqrt x) (sqrt y).
Proof.
  intros Hx H. assert (Q := q_range). assert (Hy := approx_nonneg q Q k x y Hx H). destruct H as [A B].
  assert (P := q_pow_pos q Q k). assert (L := q_pow_le1 q Q k). unfold approx. set (z := q ^ k) in *. clearbody z.
  assert (Z : forall a b, 0 <= a -> 0 <= b -> z * a <= b -> z * sqrt a <= sqrt b).
  { intros a b Ha Hb Hab. rewrite <- (sqrt_square z) by lra. rewrite <- sqrt_mult by nra. apply sqrt_le_1; try nra. }
  split; apply Z; auto.
Qed.
Variable c2 : R.
Hypothesis Hc : 0 < c2.
Lemma len2_nonneg v : 0 <= len2 v.
Proof. unfold len2. nra. Qed.
Lemma len2_r_ok v w k : (forall f, f = vx \/ f = vy \/ f = vz -> approx q k (f v * f v) (f w * f w)) ->
  approx q (S (S (S k))) (len2 v) (len2_r rnd w).
Proof.
  intros H. assert (Q := q_range). unfold len2_r, len2.
  assert (X := H vx ltac:(auto)). assert (Y := H vy ltac:(auto)). assert (Z := H vz ltac:(auto)).
  assert (X1 := approx_rnd q Q rnd rnd_1 _ _ _ (sq_nonneg (vx v)) X).
  assert (Y1 := approx_rnd q Q rnd rnd_1 _ _ _ (sq_nonneg (vy v)) Y).
  assert (Z1 := approx_rnd q Q rnd rnd_1 _ _ _ (sq_nonneg (vz v)) Z).
  assert (P1 := sq_nonneg (vx v)). assert (P2 := sq_nonneg (vy v)). assert (P3 := sq_nonneg (vz v)).
  apply (approx_rnd q Q rnd rnd_1); [lra|]. apply approx_add.
  - apply (approx_rnd q Q rnd rnd_1); [lra|]. now apply approx_add.
  - apply (approx_weaken q Q (S k)); auto; lra.
Qed.
Lemma div_c2 k x y : 0 <= x -> approx q k x y -> approx q k (x / c2) (y / c2).
Proof.
  intros Hx H. replace k with (k + 0)%nat by lia. apply approx_div; auto; try apply q_range. apply approx_refl; [apply q_range|lra].
Qed.
Lemma beta_ok u : approx q 20 (len2 u / c2 / (1 + len2 u / c2)) (beta_r rnd c2 (vel_r rnd pw c2 u)).
Proof.
  assert (Q := q_range). assert (E := eps_range). assert (L := len2_nonneg u).
  set (b := len2 u / c2). assert (B : 0 <= b) by (apply Rmult_le_pos; [lra|left; now apply Rinv_0_lt_compat]).
  assert (L3 : approx q 3 (len2 u) (len2_r rnd u)) by (apply (len2_r_ok u u 0); intros f _; apply approx_refl; [exact Q|apply sq_nonneg]).
  assert (Q4 : approx q 4 b (rnd (len2_r rnd u / c2))) by (apply (approx_rnd q Q rnd rnd_1); auto; now apply div_c2).
  assert (A5 : approx q 5 (1 + b) (rnd (1 + rnd (len2_r rnd u / c2)))).
  { apply (approx_rnd q Q rnd rnd_1); [lra|]. apply approx_add; auto. apply approx_refl; [exact Q|lra]. }
  unfold vel_r. set (a := rnd (1 + rnd (len2_r rnd u / c2))) in *. set (g := pw a).
  assert (AP : 0 < a) by (apply (approx_pos q Q 5 (1 + b)); [lra|exact A5]).
  assert (S5 : approx q 5 (/ sqrt (1 + b)) (/ sqrt a)) by (apply approx_inv; auto; [apply sqrt_lt_R0; lra|apply approx_sqrt; auto; lra]).
  assert (IP : 0 < / sqrt (1 + b)) by (apply Rinv_0_lt_compat, sqrt_lt_R0; lra).
  assert (G6 : approx q 6 (/ sqrt (1 + b)) g).
  { (* rounding of a^(-1/2) itself *)
    assert (PW := Hp a AP). fold g in PW. set (y := / sqrt a) in *. assert (YP : 0 < y) by (apply Rinv_0_lt_compat, sqrt_lt_R0; lra).
    apply (approx_rnd q Q (fun x => if Req_EM_T x y then g else x)) with (k := 5%nat) (y := y) in S5; [|intros x Hx|lra].
    - destruct (Req_EM_T y y); [exact S5|lra].
    - destruct (Req_EM_T x y) as [Xy|_]; [|apply approx_refl; auto]. rewrite Xy.
      assert (W : (1 - eps) * y <= g <= (1 + eps) * y) by (unfold Rabs in PW; destruct (Rcase_abs (g - y)); lra).
      unfold approx, q. rewrite pow_1. split; [lra|]. nra. }
  assert (GP : 0 < g) by (apply (approx_pos q Q 6 (/ sqrt (1 + b))); auto).
  assert (C : forall f : v3 -> R, approx q 14 (f u * / sqrt (1 + b) * (f u * / sqrt (1 + b))) (rnd (f u * g) * rnd (f u * g))).
  { intros f. rewrite (sq_abs (rnd (f u * g))), (sq_abs (f u * / sqrt (1 + b))).
    assert (F7 : approx q 7 (Rabs (f u * / sqrt (1 + b))) (Rabs (rnd (f u * g)))).
    { apply (approx_trans 6 1 _ (Rabs (f u * g))).
      - apply Rabs_pos.
      - rewrite !Rabs_mult. replace 6%nat with (0 + 6)%nat by lia. apply approx_mul; auto; try apply Rabs_pos.
        + apply approx_refl; auto. apply Rabs_pos.
        + rewrite !Rabs_right by lra. exact G6.
      - apply rnd_abs. }
    change 14%nat with (7 + 7)%nat. apply approx_mul; auto; apply Rabs_pos. }
  assert (V17 : approx q 17 (len2 (vscale (/ sqrt (1 + b)) u)) (len2_r rnd (V3 (rnd (vx u * g)) (rnd (vy u * g)) (rnd (vz u * g))))).
  { apply len2_r_ok. intros f [-> | [-> | ->]]; [apply (C vx)|apply (C vy)|apply (C vz)]. }
  assert (LV : len2 (vscale (/ sqrt (1 + b)) u) = len2 u / (1 + b)).
  { unfold len2, vscale. cbn [vx vy vz]. assert (SQ := sqrt_sqrt (1 + b) ltac:(lra)). assert (0 < sqrt (1 + b)) by (apply sqrt_lt_R0; lra).
    set (s := sqrt (1 + b)) in *. rewrite <- SQ. field. lra. }
  rewrite LV in V17. unfold beta_r. apply (approx_weaken q Q 18); [lia| |].
  - apply Rmult_le_pos; [exact B|left; apply Rinv_0_lt_compat; lra].
  - apply (approx_rnd q Q rnd rnd_1); [apply Rmult_le_pos; [exact B|left; apply Rinv_0_lt_compat; lra]|].
    replace (b / (1 + b)) with (len2 u / (1 + b) / c2) by (unfold b; field; split; lra). apply div_c2; auto.
    apply Rmult_le_pos; [lra|left; apply Rinv_0_lt_compat; lra].
Qed.
End S.

(** Up to Lorentz factors of about ten million rounding cannot trigger the FATAL exit of lorenz_factor in the next step. *)
Theorem C76_moderate_partial : forall rnd pw c2 u, rounding rnd -> power pw -> 0 < c2 -> len2 u <= 100000000000000 * c2 ->
  beta_r rnd c2 (vel_r rnd pw c2 u) <= 1.
Proof.
  intros rnd pw c2 u Hr Hp Hc Hu. destruct (beta_ok rnd pw Hr Hp c2 Hc u) as [_ H].
  assert (L := len2_nonneg u). set (b := len2 u / c2) in *.
  assert (B : 0 <= b) by (apply Rmult_le_pos; [lra|left; now apply Rinv_0_lt_compat]).
  assert (B2 : b <= 100000000000000).
  { unfold b. apply Rmult_le_reg_r with c2; auto. unfold Rdiv. rewrite Rmult_assoc, Rinv_l; lra. }
  assert (E := eps_range). assert (K := bernoulli_q 20 eps ltac:(lra)). 
  replace (INR 20) with 20 in K by (cbn; lra). set (x := beta_r rnd c2 (vel_r rnd pw c2 u)) in *.
  assert (T : b / (1 + b) <= 1 - 20 * eps).
  { apply Rmult_le_reg_r with (1 + b); [lra|]. unfold Rdiv. rewrite Rmult_assoc, Rinv_l by lra. unfold eps in *. nra. }
  destruct (Rle_lt_dec x 1) as [A|A]; [exact A|exfalso]. assert (0 < (1 - eps) ^ 20) by (apply pow_lt; lra). nra.
Qed.
Example C76_ex : rounding (fun x => x) /\ power (fun x => / sqrt x) /\ len2 (V3 3000000000000000 0 0) <= 100000000000000 * (LIGHT_VEL * LIGHT_VEL).
Proof.
  assert (E := eps_range). split; [|split].
  - intros x. rewrite Rminus_diag_eq, Rabs_R0 by reflexivity. assert (P := Rabs_pos x). nra.
  - intros x Hx. rewrite Rminus_diag_eq, Rabs_R0 by reflexivity. assert (P : 0 < / sqrt x) by (apply Rinv_0_lt_compat, sqrt_lt_R0; lra). nra.
  - unfold len2, LIGHT_VEL. cbn. lra.
Qed.

(** [g] is the double nearest to a^(-1/2), for positive [g] below and [a] above one: the neighbouring half-way points lie on
    either side *)
Definition nearest_rsqrt (a g : spec_float) : Prop :=
  match a, g with
  | S754_finite false ma ea, S754_finite false mg eg =>
      let d := (- (ea + 2 * eg - 2))%Z in
      (0 <= d /\ (2 * Zpos mg - 1) * (2 * Zpos mg - 1) * Zpos ma < 2 ^ d < (2 * Zpos mg + 1) * (2 * Zpos mg + 1) * Zpos ma)%Z
  | _, _ => False
  end.
(** a momentum of about 1e8 c: 0x1.db704b06b5ff2p+54 *)
Definition fast : spec_float := binary_normalize 53 1024 (0x1db704b06b5ff2) 2 false.
Definition exponent (g : spec_float) (e : Z) : Prop := match g with S754_finite _ _ e' => e' = e | _ => False end.
Lemma rsqrt_unique a g h e : nearest_rsqrt a g -> nearest_rsqrt a h -> exponent g e -> exponent h e -> g = h.
Proof.
  destruct a as [| | |[] ma ea], g as [| | |[] mg eg], h as [| | |[] mh eh]; unfold nearest_rsqrt, exponent; try tauto.
  intros [D1 [A1 A2]] [D2 [B1 B2]] -> ->. set (d := (2 ^ _)%Z) in *. clearbody d.
  destruct (Pos.lt_total mg mh) as [L|[L|L]]; [exfalso; nia|now subst|exfalso; nia].
Qed.
Definition near_one : spec_float := S754_finite false (0x1341a87dde3aee) (-79).
Definition fast_arg : spec_float := SFadd 53 1024 f_one (SFdiv 53 1024 (len2_64 fast) f_c2).
Example C76_value : nearest_rsqrt fast_arg near_one.
Proof. vm_compute. repeat split; try discriminate; reflexivity. Qed.
Lemma fatal_value : lorenz_fatal_64 (SFmul 53 1024 fast near_one) = true.
Proof. vm_compute. reflexivity. Qed.
(** With a correctly rounded [pow] (whose result, between 2^-27 and 2^-26, has the exponent -79) the check of the next step ends the program although the real speed is below that of
    light (C46). *)
Theorem C76_extreme_refuted : forall pw, nearest_rsqrt fast_arg (pw fast_arg) -> exponent (pw fast_arg) (-79) ->
  lorenz_fatal_64 (vel_64 pw fast) = true.
Proof.
  intros pw N X. assert (E : pw fast_arg = near_one) by exact (rsqrt_unique _ _ _ _ N C76_value X eq_refl).
  unfold vel_64. fold fast_arg. rewrite E. exact fatal_value.
Qed.
Print Assumptions C76_moderate_partial.
Print Assumptions C76_extreme_refuted.
