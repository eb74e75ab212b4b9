(** C142: the kinetic energy of the plasma at the start.  A plasma of temperature T has the mean kinetic energy 3/2 T per particle. *)
From Coq Require Import Reals Lra.
From Verif Require Import Base RndUtil PushModel ParticleModel InitModel MjTable MjModel MjProofs ThmMj ExpFix.
Local Open Scope list_scope.
Open Scope R_scope.

(** ** Specification *)
(** kinetic energy of a particle *)
Definition kinetic (mass : R) (v : v3) : R := mass / 2 * (vx v * vx v + vy v * vy v + vz v * vz v).
(** [m] is the mean of [f] over a number drawn evenly from [-1, 1] *)
Definition mean (f : R -> R) (m : R) : Prop :=
  exists F, (forall d, -1 <= d <= 1 -> derivable_pt_lim F d (f d)) /\ F 1 - F (-1) = 2 * m.
Definition mean3 (f : R -> R -> R -> R) (m : R) : Prop :=
  exists g h, (forall d0 d1, mean (f d0 d1) (g d0 d1)) /\ (forall d0, mean (g d0) (h d0)) /\ mean h m.
(** [lo] and [hi] are lower and upper sums of [f] between [a] and [b]; the ends of the pieces do not matter *)
Inductive sums (f : R -> outcome R) : R -> R -> R -> R -> Prop :=
| sums_nil a : sums f a a 0 0
| sums_cons a b c m M lo hi : a <= b -> (forall u, a < u < b -> exists e, f u = Ok e /\ m <= e <= M) -> sums f b c lo hi ->
    sums f a c (m * (b - a) + lo) (M * (b - a) + hi).
(** the mean of [f] over a number drawn evenly from [0, 1) is between [lo] and [hi] *)
Definition mean_within (f : R -> outcome R) (lo hi : R) : Prop := exists l h, sums f 0 1 l h /\ lo <= l /\ h <= hi.

(** what [sums] says about every function that has the antiderivative [G] *)
Lemma sums_le f a c l h : sums f a c l h -> a <= c.
Proof. induction 1; lra. Qed.
Lemma sums_integral f a c l h : sums f a c l h -> forall G, (forall u, a <= u <= c -> continuity_pt G u) ->
  (forall u e, a < u < c -> f u = Ok e -> derivable_pt_lim G u e) -> l <= G c - G a <= h.
Proof.
  induction 1 as [a|a b c m M lo hi AB P S IH]; intros G C D; [lra|].
  assert (BC := sums_le _ _ _ _ _ S).
  assert (I := IH G ltac:(intros u U; apply C; lra) ltac:(intros u e U; apply D; lra)).
  assert (d1 : forall x, a < x < b -> derivable_pt G x).
  { intros x X. destruct (f x) as [e| |] eqn:E; [exists e; apply D; [lra|exact E]|exfalso; destruct (P x X) as (e & E' & _); congruence..]. }
  destruct AB as [AB|<-]; [|lra].
  destruct (MVT G id a b d1 (fun x _ => derivable_pt_id x) AB) as (x & X & E).
  - intros x X. apply C. lra.
  - intros x X. apply derivable_continuous_pt, derivable_pt_id.
  - destruct (P x X) as (e & F & B). rewrite derive_pt_id in E. unfold id in E.
    assert (Q : derive_pt G x (d1 x X) = e). { apply derive_pt_eq_0, D; [lra|exact F]. }
    rewrite Q in E. nra.
Qed.

(** ** The mean over the three directions *)
Lemma mean_square f A B : (forall d, -1 <= d <= 1 -> f d = A + B * (d * d)) -> mean f (A + B / 3).
Proof.
  intros E. exists (fun d => A * d + B * (d * d * d) / 3). split; [|lra].
  intros d D. rewrite E by exact D.
  replace (A + B * (d * d)) with (A * 1 + B * ((1 * d + d * 1) * d + d * d * 1) / 3) by field.
  apply derivable_pt_lim_plus; [apply (derivable_pt_lim_scal (fun d => d) A d 1), derivable_pt_lim_id|].
  apply (derivable_pt_lim_ext (fun d => (B / 3) * (d * d * d))); [intros z; field|].
  replace (B * ((1 * d + d * 1) * d + d * d * 1) / 3) with ((B / 3) * ((1 * d + d * 1) * d + d * d * 1)) by field.
  apply (derivable_pt_lim_scal (fun d => d * d * d)).
  apply (derivable_pt_lim_mult (fun d => d * d) (fun d => d)); [apply (derivable_pt_lim_mult (fun d => d) (fun d => d))|]; apply derivable_pt_lim_id.
Qed.
Lemma mean_linear f A B : (forall d, -1 <= d <= 1 -> f d = A + B * d) -> mean f A.
Proof.
  intros E. exists (fun d => A * d + (B / 2) * (d * d)). split; [|lra].
  intros d D. rewrite E by exact D. replace (A + B * d) with (A * 1 + (B / 2) * (1 * d + d * 1)) by field.
  apply derivable_pt_lim_plus; [apply (derivable_pt_lim_scal (fun d => d) A d 1), derivable_pt_lim_id|].
  apply (derivable_pt_lim_scal (fun d => d * d)). apply (derivable_pt_lim_mult (fun d => d) (fun d => d)); apply derivable_pt_lim_id.
Qed.
Lemma mean3_squares f K : (forall d0 d1 d2, f d0 d1 d2 = K * (d0 * d0 + d1 * d1 + d2 * d2)) -> mean3 f K.
Proof.
  intros E. exists (fun d0 d1 => K * (d0 * d0 + d1 * d1) + K / 3), (fun d0 => (K * (d0 * d0) + K / 3) + K / 3).
  split; [|split].
  - intros d0 d1. apply mean_square. intros d2 _. rewrite E. ring.
  - intros d0. apply mean_square. intros d1 _. ring.
  - assert (Q : mean (fun d0 => K * (d0 * d0) + K / 3 + K / 3) ((K / 3 + K / 3) + K / 3)) by (apply mean_square; intros d0 _; ring).
    replace ((K / 3 + K / 3) + K / 3) with K in Q by field. exact Q.
Qed.
Lemma thermal_classical c lim mass e : rlt lim (e * mc_inv c mass) = false -> thermal_cmp c lim mass e = sqrt (e * two_over_mass mass).
Proof. intros H. unfold thermal_cmp. cbv zeta. rewrite H. reflexivity. Qed.
Lemma el_pos : 0 < EL_CHARGE.
Proof. unfold EL_CHARGE. apply Rmult_lt_0_compat; [lra|]. apply Rinv_0_lt_compat, pow_lt. lra. Qed.
Lemma rlt_false x y : y <= x -> rlt x y = false.
Proof. intros H. unfold rlt. destruct (Rlt_dec x y); [lra|reflexivity]. Qed.

(** with the sampled energy [e] (in eV) the mean kinetic energy is [norm^2 e], half of the sampled energy *)
Definition half : R := norm_sqrt2 * norm_sqrt2.
Lemma half_value : 1 / 2 - / 10 ^ 15 <= half <= 1 / 2.
Proof. unfold half, norm_sqrt2. lra. Qed.
Theorem C142_energy : forall c lim mass e, 0 < mass -> 0 <= e -> e * EL_CHARGE / (mass * c) <= lim ->
  mean3 (fun d0 d1 d2 => kinetic mass (thermal_velocity c lim mass e d0 d1 d2)) (half * (e * EL_CHARGE)).
Proof.
  intros c lim mass e M E L. apply mean3_squares. intros d0 d1 d2.
  unfold thermal_velocity. cbv zeta. rewrite thermal_classical by (apply rlt_false; unfold mc_inv; lra).
  unfold kinetic. cbn [vx vy vz]. set (s := sqrt (e * two_over_mass mass)).
  assert (P := el_pos).
  assert (S : s * s = e * two_over_mass mass).
  { apply sqrt_sqrt. unfold two_over_mass. apply Rmult_le_pos; [exact E|]. apply Rmult_le_pos; [lra|apply Rlt_le, Rinv_0_lt_compat, M]. }
  replace (mass / 2 * (d0 * (s * norm_sqrt2) * (d0 * (s * norm_sqrt2)) + d1 * (s * norm_sqrt2) * (d1 * (s * norm_sqrt2)) + d2 * (s * norm_sqrt2) * (d2 * (s * norm_sqrt2))))
    with (mass / 2 * (s * s) * half * (d0 * d0 + d1 * d1 + d2 * d2)) by (unfold half; ring).
  rewrite S. unfold two_over_mass. field. lra.
Qed.
(** the rectangular distribution: two thirds of the energy of the temperature *)
Theorem C142_rectangular_refuted : forall c lim mass T, 0 < mass -> 0 < T -> T * EL_CHARGE / (mass * c) * 2 <= lim ->
  mean3 (fun d0 d1 d2 => kinetic mass (rectangular_velocity c lim mass T d0 d1 d2)) (2 / 3 * (3 / 2 * (T * EL_CHARGE))).
Proof.
  intros c lim mass T M E L. apply mean3_squares. intros d0 d1 d2.
  unfold rectangular_velocity, eigen_cmp. cbv zeta. rewrite rlt_false by (unfold mc_inv; lra).
  unfold kinetic. cbn [vx vy vz]. set (s := sqrt (T * two_over_mass mass)). assert (P := el_pos).
  assert (S : s * s = T * two_over_mass mass).
  { apply sqrt_sqrt. unfold two_over_mass. apply Rmult_le_pos; [lra|]. apply Rmult_le_pos; [lra|apply Rlt_le, Rinv_0_lt_compat, M]. }
  replace (mass / 2 * (d0 * s * (d0 * s) + d1 * s * (d1 * s) + d2 * s * (d2 * s))) with (mass / 2 * (s * s) * (d0 * d0 + d1 * d1 + d2 * d2)) by ring.
  rewrite S. unfold two_over_mass. field. lra.
Qed.
(** the "eigen" distribution: every particle has the same velocity, with twice the energy of the temperature *)
Theorem C142_eigen_refuted : forall c lim mass T, 0 < mass -> 0 < T -> T * EL_CHARGE / (mass * c) * 2 <= lim ->
  kinetic mass (eigen_velocity c lim mass T) = 2 * (3 / 2 * (T * EL_CHARGE)) /\ 0 < vx (eigen_velocity c lim mass T).
Proof.
  intros c lim mass T M E L.
  unfold eigen_velocity, eigen_cmp. cbv zeta. rewrite rlt_false by (unfold mc_inv; lra).
  unfold kinetic. cbn [vx vy vz]. assert (P := el_pos).
  assert (W : 0 < T * two_over_mass mass).
  { unfold two_over_mass. apply Rmult_lt_0_compat; [lra|]. apply Rmult_lt_0_compat; [lra|apply Rinv_0_lt_compat, M]. }
  split; [|apply sqrt_lt_R0, W]. rewrite !sqrt_sqrt by lra. unfold two_over_mass. field. lra.
Qed.

(** ** A plasma below 0.1 eV *)
(** the points of the table: every third one *)
Definition pt_x (k : Z) : R := IZR (21 * k - 18981) / 999.
Definition xlo (k : Z) : Z := ((21 * k - 18981) * one_z / 999)%Z.
Definition ulo (k : Z) : Z := elo (- (ehi (xlo k + 1))).
Definition uhi (k : Z) : Z := ehi (- (elo (xlo k))).
Definition fz (k : Z) : Z := (nth (Z.to_nat k) lnInvF 0 * one_z / 10 ^ 21)%Z.
Definition flo (k : Z) : Z := elo (fz k).
Definition fhi (k : Z) : Z := ehi (fz k + 1).
(** all exponents are small enough for the bounds *)
Definition pt_ok (k : Z) : bool := ((0 <? elo (- (xlo k + 1))) && (0 <? elo (- - elo (xlo k))) && (0 <? elo (- (fz k + 1))))%Z.
Lemma rv_quo a b : (0 < b)%Z -> rv (a * one_z / b) <= IZR a / IZR b <= rv (a * one_z / b + 1).
Proof.
  intros B. assert (A := one_pos). assert (BB : 0 < IZR b) by (apply IZR_lt; exact B).
  assert (L := quo_le (a * one_z) b B). assert (H := quo_gt (a * one_z) b B).
  replace (IZR a / IZR b) with (IZR (a * one_z) / IZR b / IZR one_z) by (rewrite mult_IZR; field; lra).
  unfold rv. split; (apply Rmult_le_compat_r; [apply Rlt_le, Rinv_0_lt_compat, A|assumption]).
Qed.
Local Opaque elo ehi one_z.
Lemma u_spec k : pt_ok k = true -> rv (ulo k) <= draw_of (pt_x k) <= rv (uhi k).
Proof.
  intros K. unfold pt_ok in K. apply andb_prop in K as [K _]. apply andb_prop in K as [K1 K2].
  apply Z.ltb_lt in K1, K2. destruct (rv_quo (21 * k - 18981) 999 ltac:(lia)) as [L H]. fold (xlo k) in L, H. fold (pt_x k) in L, H.
  unfold ulo, uhi, draw_of. split.
  - eapply Rle_trans; [apply elo_spec|]. apply exp_mono. rewrite rv_opp. apply Ropp_le_contravar.
    eapply Rle_trans; [|apply ehi_spec, K1]. apply exp_mono, H.
  - eapply Rle_trans; [|apply ehi_spec, K2]. apply exp_mono. rewrite rv_opp. apply Ropp_le_contravar.
    eapply Rle_trans; [apply elo_spec|]. apply exp_mono, L.
Qed.
Lemma f_spec k : pt_ok k = true -> rv (flo k) <= exp (entry lnInvF k) <= rv (fhi k).
Proof.
  intros K. unfold pt_ok in K. apply andb_prop in K as [_ K]. apply Z.ltb_lt in K.
  destruct (rv_quo (nth (Z.to_nat k) lnInvF 0%Z) (10 ^ 21) ltac:(reflexivity)) as [L H].
  assert (E : entry lnInvF k = IZR (nth (Z.to_nat k) lnInvF 0%Z) / IZR (10 ^ 21)) by (unfold entry; rewrite (pow_IZR 10 21); reflexivity).
  rewrite <- E in L, H. unfold flo, fhi. split.
  - eapply Rle_trans; [apply elo_spec|]. apply exp_mono, L.
  - eapply Rle_trans; [|apply ehi_spec, K]. apply exp_mono, H.
Qed.

(** ** Sums over pieces with fixed-point bounds *)
Lemma sums_app f a b l h : sums f a b l h -> forall c l' h', sums f b c l' h' -> sums f a c (l + l') (h + h').
Proof.
  induction 1 as [a|a b c m M lo hi AB P S IH]; intros d l' h' S'; [rewrite !Rplus_0_l; exact S'|].
  rewrite !Rplus_assoc. apply sums_cons; [exact AB|exact P|]. apply IH, S'.
Qed.
Lemma sums_scale f g k : 0 <= k -> (forall u e, f u = Ok e -> g u = Ok (k * e)) -> forall a b l h, sums f a b l h -> sums g a b (k * l) (k * h).
Proof.
  intros K E a b l h S. induction S as [a|a b c m M lo hi AB P S IH]; [rewrite !Rmult_0_r; apply sums_nil|].
  replace (k * (m * (b - a) + lo)) with (k * m * (b - a) + k * lo) by ring.
  replace (k * (M * (b - a) + hi)) with (k * M * (b - a) + k * hi) by ring.
  apply sums_cons; [exact AB| |exact IH]. intros u U. destruct (P u U) as (e & F & L & H). exists (k * e).
  split; [apply E, F|]. split; apply Rmult_le_compat_l; assumption.
Qed.
Lemma sums_one (f : R -> outcome R) a b m M : a <= b -> (forall u, a < u < b -> exists e, f u = Ok e /\ m <= e <= M) ->
  sums f a b (m * (b - a)) (M * (b - a)).
Proof.
  intros AB P. rewrite <- (Rplus_0_r (m * (b - a))), <- (Rplus_0_r (M * (b - a))). apply sums_cons; [exact AB|exact P|apply sums_nil].
Qed.
Section Pieces.
(** bounds of the points [u i] and of the values on the piece between [u (i + 1)] and [u i] *)
Variables ul uh ml mh : nat -> Z.
(** a lower and an upper bound of the product of a value between [ml] and [mh] with the length of the piece *)
Definition low_term (i : nat) : Z := (if 0 <=? ml i then ml i * Z.max 0 (ul i - uh (S i)) else ml i * (uh i - ul (S i)))%Z.
Definition high_term (i : nat) : Z := (mh i * (uh i - ul (S i)))%Z.
Fixpoint low_sum (n : nat) : Z := match n with O => 0 | S i => low_sum i + low_term i end%Z.
Fixpoint high_sum (n : nat) : Z := match n with O => 0 | S i => high_sum i + high_term i end%Z.
Definition rv2 (z : Z) : R := rv z / IZR one_z.
Lemma rv2_mult a b : rv2 (a * b) = rv a * rv b.
Proof. unfold rv2, rv. rewrite mult_IZR. assert (A := one_pos). field. lra. Qed.
Lemma rv2_plus a b : rv2 (a + b) = rv2 a + rv2 b.
Proof. unfold rv2. rewrite rv_plus. unfold Rdiv. ring. Qed.
Lemma rv2_le a b : (a <= b)%Z -> rv2 a <= rv2 b.
Proof. intros H. unfold rv2. apply Rmult_le_compat_r; [apply Rlt_le, Rinv_0_lt_compat, one_pos|apply rv_le, H]. Qed.
Lemma rv_minus a b : rv (a - b) = rv a - rv b.
Proof. replace (a - b)%Z with (a + - b)%Z by lia. rewrite rv_plus, rv_opp. ring. Qed.
Lemma rv_ge a : (0 <= a)%Z -> 0 <= rv a.
Proof. intros H. replace 0 with (rv 0) by (unfold rv; field; apply Rgt_not_eq, one_pos). apply rv_le, H. Qed.
Lemma rv_max a x : rv a <= x -> 0 <= x -> rv (Z.max 0 a) <= x.
Proof. intros H P. destruct (Z.max_spec 0 a) as [[_ ->]|[_ ->]]; [exact H|]. replace (rv 0) with 0 by (unfold rv; field; apply Rgt_not_eq, one_pos). exact P. Qed.

Variable f : R -> outcome R.
Variable u : nat -> R.
Lemma build n : (forall i, (i < n)%nat -> u (S i) <= u i) -> (forall i, (i <= n)%nat -> rv (ul i) <= u i <= rv (uh i)) ->
  (forall i, (i < n)%nat -> (0 <= mh i)%Z) ->
  (forall i, (i < n)%nat -> forall x, u (S i) < x < u i -> exists e, f x = Ok e /\ rv (ml i) <= e <= rv (mh i)) ->
  exists l h, sums f (u n) (u O) l h /\ rv2 (low_sum n) <= l /\ h <= rv2 (high_sum n).
Proof using.
  induction n as [|n IH]; intros D U M P.
  - exists 0, 0. split; [apply sums_nil|]. cbn [low_sum high_sum].
    replace (rv2 0) with 0 by (unfold rv2, rv; field; apply Rgt_not_eq, one_pos). lra.
  - destruct IH as (l & h & S & L & H); [intros i I; apply D; lia|intros i I; apply U; lia|intros i I; apply M; lia|intros i I; apply P; lia|].
    exists (rv (ml n) * (u n - u (Datatypes.S n)) + l), (rv (mh n) * (u n - u (Datatypes.S n)) + h).
    assert (Dn := D n ltac:(lia)). destruct (U n ltac:(lia)) as [U1 U2]. destruct (U (Datatypes.S n) ltac:(lia)) as [U3 U4].
    split; [apply sums_cons; [exact Dn|apply P; lia|exact S]|].
    cbn [low_sum high_sum]. rewrite !rv2_plus. assert (Mn := rv_ge _ (M n ltac:(lia))). split.
    + assert (X : rv2 (low_term n) <= rv (ml n) * (u n - u (Datatypes.S n))); [|lra].
      unfold low_term. destruct (Z.leb_spec 0 (ml n)) as [G|G]; rewrite rv2_mult.
      * apply Rmult_le_compat_l; [apply rv_ge, G|]. apply rv_max; [|lra]. rewrite rv_minus. lra.
      * rewrite rv_minus. assert (N : 0 <= rv (- ml n)) by (apply rv_ge; lia). rewrite rv_opp in N. nra.
    + assert (X : rv (mh n) * (u n - u (Datatypes.S n)) <= rv2 (high_term n)); [|lra].
      unfold high_term. rewrite rv2_mult, rv_minus. apply Rmult_le_compat_l; lra.
Qed.
End Pieces.

(** The same sums and checks, with every number computed once: [points] has the numbers of the points, [pairs] those of the pieces. *)
Section Lists.
Context {A B : Type}.
Fixpoint pairs (t : A -> A -> B) (p : A) (l : list A) : list B := match l with nil => nil | q :: l' => t p q :: pairs t q l' end.
Fixpoint zsum (g : B -> Z) (l : list B) : Z := match l with nil => 0 | b :: l' => g b + zsum g l' end%Z.
Definition points (f : nat -> A) (n : nat) (ok : A -> bool) (t : A -> A -> B) (fin : A -> list A -> list B -> bool) : bool :=
  match map f (seq 0 (S n)) with nil => false | p :: l => (ok p && forallb ok l) && fin p l (pairs t p l) end.
Lemma forallb_map {C D : Type} (g : D -> bool) (f : C -> D) l : forallb g (map f l) = forallb (fun c => g (f c)) l.
Proof using. induction l as [|c l IH]; [reflexivity|]. cbn [map forallb]. rewrite IH. reflexivity. Qed.
Lemma pairs_map t f : forall n k, pairs t (f k) (map f (seq (S k) n)) = map (fun i => t (f i) (f (S i))) (seq k n).
Proof using. induction n as [|n IH]; intros k; [reflexivity|]. cbn [seq map pairs]. rewrite IH. reflexivity. Qed.
Lemma points_spec f n ok t fin : points f n ok t fin = true ->
  (forall i, (i <= n)%nat -> ok (f i) = true) /\ fin (f O) (map f (seq 1 n)) (map (fun i => t (f i) (f (S i))) (seq 0 n)) = true.
Proof using.
  intros H. unfold points in H. cbn [seq map] in H. rewrite (pairs_map t f n 0) in H. apply andb_prop in H as [H1 H2]. split; [|exact H2].
  apply andb_prop in H1 as [H0 H1]. rewrite forallb_map, forallb_forall in H1.
  intros [|i] I; [exact H0|]. apply H1, in_seq. lia.
Qed.
Lemma zsum_snoc g b l : zsum g (l ++ b :: nil) = (zsum g l + g b)%Z.
Proof using. induction l as [|c l IH]; cbn [zsum app]; lia. Qed.
Lemma low_list ul uh ml g (t : nat -> B) n : (forall i, low_term ul uh ml i = g (t i)) -> low_sum ul uh ml n = zsum g (map t (seq 0 n)).
Proof using. intros E. induction n as [|n IH]; [reflexivity|]. rewrite seq_S, map_app. cbn [map low_sum]. rewrite zsum_snoc, IH, E. reflexivity. Qed.
Lemma high_list ul uh mh g (t : nat -> B) n : (forall i, high_term ul uh mh i = g (t i)) -> high_sum ul uh mh n = zsum g (map t (seq 0 n)).
Proof using. intros E. induction n as [|n IH]; [reflexivity|]. rewrite seq_S, map_app. cbn [map high_sum]. rewrite zsum_snoc, IH, E. reflexivity. Qed.
End Lists.
Definition lowt (m a b : Z) : Z := (if 0 <=? m then m * a else m * b)%Z.

Definition third (g : Z -> Z) (i : nat) : Z := g (3 * Z.of_nat i)%Z.
Definition f_low (n : nat) : Z := low_sum (third ulo) (third uhi) (fun i => third flo (S i)) n.
Definition f_high (n : nat) : Z := high_sum (third ulo) (third uhi) (third fhi) n.
(** the bounds of one point: two of the draw, two of the energy, and whether the exponents are small enough *)
Definition point1 (i : nat) : Z * Z * Z * Z * bool :=
  (let k := 3 * Z.of_nat i in let x := xlo k in let z := fz k in
   let a := elo (- (x + 1)) in let c := elo (- - elo x) in let e := elo (- (z + 1)) in
   let h := one_z * one_z / e + 1 in
   (elo (- (one_z * one_z / a + 1)), one_z * one_z / c + 1, elo z, h, ((0 <? a) && (0 <? c) && (0 <? e)) && (0 <=? h)))%Z.
Definition piece1 (p q : Z * Z * Z * Z * bool) : Z * Z :=
  match p, q with (u, v, _, h, _), (u', v', g, _, _) => (lowt g (Z.max 0 (u - v')) (v - u'), h * (v - u'))%Z end.
Definition f_check (l : list (Z * Z)) : bool :=
  ((147 * one_z * one_z <=? 100 * zsum fst l) && (100 * zsum snd l <=? 15275 * one_z * one_z / 100))%Z.
Local Transparent elo ehi one_z.
Lemma f_checked : points point1 333 snd piece1 (fun _ _ => f_check) = true.
Proof. vm_cast_no_check (eq_refl true). Qed.
Local Opaque elo one_z.
Lemma point1_eq i : point1 i = (third ulo i, third uhi i, third flo i, third fhi i, pt_ok (3 * Z.of_nat i) && (0 <=? third fhi i)%Z).
Proof. reflexivity. Qed.
Lemma f_bounds : ((147 * one_z * one_z <=? 100 * f_low 333) && (100 * f_high 333 <=? 15275 * one_z * one_z / 100))%Z = true.
Proof.
  destruct (points_spec _ _ _ _ _ f_checked) as [_ H]. unfold f_check in H.
  unfold f_low, f_high. rewrite (low_list _ _ _ fst (fun i => piece1 (point1 i) (point1 (S i)))), (high_list _ _ _ snd (fun i => piece1 (point1 i) (point1 (S i)))); [exact H|..];
    intros i; rewrite !point1_eq; reflexivity.
Qed.
Lemma all_ok : forallb (fun i => pt_ok (3 * Z.of_nat i) && (0 <=? fhi (3 * Z.of_nat i))%Z) (seq 0 334) = true.
Proof.
  destruct (points_spec _ _ _ _ _ f_checked) as [H _]. rewrite forallb_forall. intros i I. apply in_seq in I.
  specialize (H i ltac:(lia)). rewrite point1_eq in H. exact H.
Qed.
Local Transparent elo one_z.
Lemma first_entry : (fhi 0 <= 21 * one_z)%Z.
Proof. apply Z.leb_le. vm_cast_no_check (eq_refl true). Qed.
Local Opaque elo ehi one_z.
Lemma ok_at i : (i <= 333)%nat -> pt_ok (3 * Z.of_nat i) = true /\ (0 <= third fhi i)%Z.
Proof.
  intros I. assert (A := all_ok). rewrite forallb_forall in A. specialize (A i ltac:(apply in_seq; lia)). apply andb_prop in A as [A B].
  split; [exact A|]. apply Z.leb_le in B. exact B.
Qed.
Definition point (i : nat) : R := draw_of (pt_x (3 * Z.of_nat i)).
Lemma pt_x_at k : pt_x k = -19 + 21 * IZR k / 999.
Proof. unfold pt_x. rewrite minus_IZR, mult_IZR. lra. Qed.
Lemma point_first : point 0 = draw_of (- 19).
Proof. unfold point. rewrite pt_x_at. f_equal. change (3 * Z.of_nat 0)%Z with 0%Z. lra. Qed.
Lemma point_last : point 333 = draw_of 2.
Proof. unfold point. rewrite pt_x_at. f_equal. change (3 * Z.of_nat 333)%Z with 999%Z. lra. Qed.
Lemma point_decr i j : (i < j)%nat -> point j < point i.
Proof.
  intros H. unfold point. apply draw_of_decr. rewrite !pt_x_at.
  assert (K : IZR (3 * Z.of_nat i) < IZR (3 * Z.of_nat j)) by (apply IZR_lt; lia). lra.
Qed.
Lemma lnln_between x y U : draw_of y < U < draw_of x -> x < ln (- ln U) < y.
Proof.
  intros [A B]. destruct (draw_of_range x). destruct (draw_of_range y). assert (W : 0 < U < 1) by lra.
  split.
  - destruct (Rle_lt_dec (ln (- ln U)) x) as [[L|L]|L]; [|rewrite <- L, draw_lnln in B by lra; lra|exact L].
    apply draw_of_decr in L. rewrite draw_lnln in L by lra. lra.
  - destruct (Rle_lt_dec y (ln (- ln U))) as [[L|L]|L]; [|rewrite L, draw_lnln in A by lra; lra|exact L].
    apply draw_of_decr in L. rewrite draw_lnln in L by lra. lra.
Qed.
Lemma piece T i U : (i < 333)%nat -> 0 <= T -> point (S i) < U < point i ->
  exists e, classical_energy T U = Ok (T * e) /\ exp (entry lnInvF (3 * Z.of_nat (S i))) <= e <= exp (entry lnInvF (3 * Z.of_nat i)).
Proof.
  intros I HT HU. assert (B := lnln_between _ _ _ HU). rewrite !pt_x_at in B.
  assert (Rg : draw_of 2 < U <= draw_of (- 19)).
  { rewrite <- point_first, <- point_last. split.
    - destruct (Nat.eq_dec (S i) 333) as [E|E]; [rewrite <- E; lra|]. assert (D := point_decr (S i) 333 ltac:(lia)). lra.
    - destruct (Nat.eq_dec i 0) as [E|E]; [rewrite <- E; lra|]. assert (D := point_decr 0 i ltac:(lia)). lra. }
  destruct (classical_table T U Rg) as [E X]. rewrite E. eexists. split; [reflexivity|].
  set (x := (ln (- ln U) + 19) * (999 / (2 + 19))) in *.
  assert (Bx : IZR (3 * Z.of_nat i) < x < IZR (3 * Z.of_nat (S i))) by (unfold x; lra).
  assert (St : forall i, (0 <= i < 999)%Z -> entry lnInvF (i + 1) < entry lnInvF i) by (intros; apply F_step; assumption).
  destruct (lin_between (entry lnInvF) St x X) as [L H]. destruct (Int_part_bounds x) as [P1 P2].
  assert (J1 : (3 * Z.of_nat i <= Int_part x)%Z) by (apply Z.lt_succ_r, lt_IZR; unfold Z.succ; rewrite plus_IZR; lra).
  assert (J2 : (Int_part x < 3 * Z.of_nat (S i))%Z) by (apply lt_IZR; lra).
  split; apply exp_mono.
  - apply Rle_trans with (2 := L). apply (seq_le (entry lnInvF) St); lia.
  - apply Rle_trans with (1 := H). apply (seq_le (entry lnInvF) St); lia.
Qed.
Lemma sums_end a b l h : ((147 * one_z * one_z <=? 100 * a) && (100 * b <=? 15275 * one_z * one_z / 100))%Z = true -> rv2 a <= l -> h <= rv2 b ->
  147 / 100 <= l /\ h <= 15275 / 10000.
Proof.
  intros Q L H. apply andb_prop in Q as [Q1 Q2]. apply Z.leb_le in Q1, Q2. assert (O2 := one_pos). split.
  - apply Rle_trans with (2 := L). apply rv2_le in Q1. rewrite <- Z.mul_assoc in Q1.
    assert (E1 : rv2 (147 * (one_z * one_z)) = 147) by (unfold rv2, rv; rewrite !mult_IZR; field; lra).
    assert (E2 : rv2 (100 * a) = 100 * rv2 a) by (unfold rv2, rv; rewrite mult_IZR; field; lra). lra.
  - apply Rle_trans with (1 := H).
    assert (Q3 : (10000 * b <= 15275 * (one_z * one_z))%Z).
    { assert (D := Z.mul_div_le (15275 * one_z * one_z) 100 ltac:(lia)). lia. }
    apply rv2_le in Q3.
    assert (E1 : rv2 (15275 * (one_z * one_z)) = 15275) by (unfold rv2, rv; rewrite !mult_IZR; field; lra).
    assert (E2 : rv2 (10000 * b) = 10000 * rv2 b) by (unfold rv2, rv; rewrite mult_IZR; field; lra). lra.
Qed.
Lemma table_build n : (n <= 333)%nat -> exists l h, sums (classical_energy 1) (point n) (point 0) l h /\ rv2 (f_low n) <= l /\ h <= rv2 (f_high n).
Proof.
  intros N. apply (build (third ulo) (third uhi) (fun i => third flo (S i)) (third fhi) (classical_energy 1) point n).
  - intros i I. apply Rlt_le, point_decr. lia.
  - intros i I. apply u_spec, ok_at. lia.
  - intros i I. apply ok_at. lia.
  - intros i I x X. destruct (piece 1 i x ltac:(lia) ltac:(lra) X) as (e & E & B1 & B2). exists e.
    split; [rewrite E; f_equal; ring|].
    assert (F1 := f_spec _ (proj1 (ok_at (Datatypes.S i) ltac:(lia)))). assert (F2 := f_spec _ (proj1 (ok_at i ltac:(lia)))).
    unfold third. lra.
Qed.
Lemma table_sums : exists l h, sums (classical_energy 1) (draw_of 2) (draw_of (- 19)) l h /\ 147 / 100 <= l /\ h <= 15275 / 10000.
Proof.
  destruct (table_build 333 (le_n 333)) as (l & h & S & L & H). exists l, h.
  rewrite <- point_last, <- point_first. split; [exact S|]. exact (sums_end _ _ _ _ f_bounds L H).
Qed.
Lemma draw_19_low : 1 - / 10 ^ 6 <= draw_of (- 19).
Proof.
  unfold draw_of. assert (A := exp_ge1 (- exp (- 19))).
  assert (B : exp (- 19) <= / 10 ^ 6); [|lra].
  replace (- 19) with (- (19)) by lra. rewrite exp_Ropp. apply Rinv_le_contravar; [apply pow_lt; lra|].
  assert (E1 : (5 / 2) ^ 19 <= exp 19).
  { replace (exp 19) with (exp (INR 19 * 1)) by (f_equal; cbn; lra). rewrite exp_nat. apply pow_incr. assert (X := exp_ge2 1 ltac:(lra)). lra. }
  apply Rle_trans with (2 := E1). lra.
Qed.
Lemma draw_2_high : draw_of 2 <= 8 / 10000.
Proof.
  unfold draw_of. rewrite exp_Ropp.
  assert (E1 : 725 / 100 <= exp 2).
  { replace 2 with (1 + 1) by lra. rewrite exp_plus. assert (X := exp_ge3 1 ltac:(lra)). 
    assert (Y : 2.7 <= exp 1). { replace 1 with (1/2 + 1/2) by lra. rewrite exp_plus. assert (Z := exp_ge3 (1/2) ltac:(lra)). nra. } nra. }
  assert (E2 : 10000 / 8 <= exp (725 / 100)).
  { replace (exp (725 / 100)) with (exp (INR 29 * (1 / 4))) by (f_equal; cbn; lra). rewrite exp_nat.
    apply Rle_trans with ((128 / 100) ^ 29); [lra|]. apply pow_incr. assert (X := exp_ge3 (1 / 4) ltac:(lra)). lra. }
  assert (E3 := exp_mono _ _ E1). replace (8 / 10000) with (/ (10000 / 8)) by field. apply Rinv_le_contravar; lra.
Qed.
Lemma cold_sums : mean_within (classical_energy 1) (147 / 100) (153 / 100).
Proof.
  destruct table_sums as (l & h & S & L & H). destruct (draw_of_range 2) as [P1 P2]. destruct (draw_of_range (- 19)) as [P3 P4].
  assert (D19 := draw_19_low). assert (D2 := draw_2_high).
  exists (0 * (draw_of 2 - 0) + (l + 0 * (1 - draw_of (- 19)))), (3 * (draw_of 2 - 0) + (h + 1 * (1 - draw_of (- 19)))).
  split; [|lra]. apply sums_cons; [apply Rlt_le; exact P1| |].
  - intros u U. exists (1 * low_branch u). split; [apply low_range, U|]. unfold low_branch. destruct (Req_EM_T u 0) as [E|_]; [lra|].
    assert (SP : 0 <= sqrt PI <= 2).
    { split; [apply sqrt_pos|]. replace 2 with (sqrt (2 * 2)) by (apply sqrt_square; lra). apply sqrt_le_1; [assert (X := PI_RGT_0); lra|lra|assert (X := PI_4); lra]. }
    assert (W : 0 < Rpower u TWO_OVER_3 <= 1).
    { split; [apply exp_pos|]. unfold Rpower. rewrite <- exp_0. apply exp_mono. unfold TWO_OVER_3.
      assert (X : ln u < 0) by (rewrite <- ln_1; apply ln_increasing; lra). lra. }
    unfold THREE_OVER_4. nra.
  - apply sums_app with (1 := S). apply sums_one; [apply Rlt_le; exact P4|]. intros u U. exists 1.
    split; [|lra]. unfold classical_energy. destruct (Req_EM_T u 0) as [E|_]; [lra|]. cbv zeta.
    assert (W : 0 < u < 1) by lra.
    assert (X : ln (- ln u) < - 19).
    { destruct (Rle_lt_dec (- 19) (ln (- ln u))) as [[Y|Y]|Y]; [| |exact Y].
      - apply draw_of_decr in Y. rewrite draw_lnln in Y by lra. lra.
      - rewrite Y, draw_lnln in U by lra. lra. }
    destruct (Rlt_dec 2 (ln (- ln u))) as [Y|_]; [lra|]. destruct (Rlt_dec (ln (- ln u)) (- 19)) as [_|Y]; [f_equal; ring|lra].
Qed.

(** the sampled energies are right: their mean is 3/2 T within 2% *)
Lemma classical_scale T U : classical_energy T U = do e <- classical_energy 1 U; Ok (T * e).
Proof.
  unfold classical_energy. destruct (Req_EM_T U 0); [cbn [bind]; f_equal; ring|]. cbv zeta.
  destruct (Rlt_dec 2 (ln (- ln U))); [cbn [bind]; f_equal; ring|]. destruct (Rlt_dec (ln (- ln U)) (- 19)); [cbn [bind]; f_equal; ring|].
  destruct (interpolate lnInvF ((ln (- ln U) + 19) * (999 / (2 + 19)))); cbn [bind]; [f_equal; ring|reflexivity|reflexivity].
Qed.
Theorem C142_sampled : forall T, 0 < T -> mean_within (classical_energy T) (98 / 100 * (3 / 2 * T)) (102 / 100 * (3 / 2 * T)).
Proof.
  intros T HT. destruct cold_sums as (l & h & S & L & H). exists (T * l), (T * h). split; [|nra].
  apply sums_scale with (2 := fun u e E => eq_trans (classical_scale T u) (f_equal (fun o => do e <- o; Ok (T * e)) E)) in S; [exact S|lra].
Qed.
(** the kinetic energies of the particles are not: their mean is half of that *)
Definition mean_kinetic_cold (c lim mass T lo hi : R) : Prop :=
  exists g, (forall U e, 0 <= U < 1 -> classical_energy T U = Ok e ->
              mean3 (fun d0 d1 d2 => kinetic mass (thermal_velocity c lim mass e d0 d1 d2)) (g e)) /\
            mean_within (fun U => do e <- classical_energy T U; Ok (g e)) lo hi.
Lemma energy_range T U e : 0 < T -> 0 <= U < 1 -> classical_energy T U = Ok e -> 0 <= e <= 21 * T.
Proof.
  intros HT HU E. 
  assert (SP : 0 <= sqrt PI <= 2).
  { split; [apply sqrt_pos|]. replace 2 with (sqrt (2 * 2)) by (apply sqrt_square; lra). apply sqrt_le_1; [assert (X := PI_RGT_0); lra|lra|assert (X := PI_4); lra]. }
  assert (LB : 0 <= low_branch U <= 3).
  { unfold low_branch, THREE_OVER_4. destruct (Req_EM_T U 0) as [Z|Z]; [lra|].
    assert (W : 0 < Rpower U TWO_OVER_3 <= 1).
    { split; [apply exp_pos|]. unfold Rpower. rewrite <- exp_0. apply exp_mono. unfold TWO_OVER_3.
      assert (X : ln U < 0) by (rewrite <- ln_1; apply ln_increasing; lra). lra. }
    nra. }
  unfold classical_energy in E. destruct (Req_EM_T U 0) as [Z|Z]; [injection E as <-; nra|]. cbv zeta in E.
  destruct (Rlt_dec 2 (ln (- ln U))) as [A|A]; [injection E as <-; nra|]. destruct (Rlt_dec (ln (- ln U)) (- 19)) as [B|B]; [injection E as <-; nra|].
  assert (C : ln (- ln U) <> 2).
  { intros C. rewrite C in E. replace ((2 + 19) * (999 / (2 + 19))) with 999 in E by field. rewrite interpolate_end in E. discriminate E. }
  set (x := (ln (- ln U) + 19) * (999 / (2 + 19))) in *. assert (X : 0 <= x < 999) by (unfold x; lra).
  rewrite interpolate_ok in E by exact X. cbn [bind] in E. injection E as <-.
  assert (St : forall i, (0 <= i < 999)%Z -> entry lnInvF (i + 1) < entry lnInvF i) by (intros; apply F_step; assumption).
  destruct (lin_between (entry lnInvF) St x X) as [_ L].
  assert (I1 := Int_part_nonneg x ltac:(lra)). assert (I2 := Int_part_lt x 999 ltac:(lra)).
  assert (L0 := seq_le (entry lnInvF) St 0 (Int_part x) ltac:(lia) ltac:(lia) ltac:(lia)).
  assert (Y := exp_pos (lin (entry lnInvF) x)).
  assert (Z21 : exp (lin (entry lnInvF) x) <= 21); [|nra].
  apply Rle_trans with (exp (entry lnInvF 0)); [apply exp_mono; lra|].
  assert (F := proj2 (f_spec 0 (proj1 (ok_at 0 ltac:(lia))))). apply Rle_trans with (1 := F).
  apply Rle_trans with (rv (21 * one_z)); [apply rv_le, first_entry|]. unfold rv. rewrite mult_IZR. assert (O1 := one_pos). right. field. lra.
Qed.
Theorem C142_cold_refuted : forall c lim mass T, 0 < c -> 0 < mass -> 0 < T < 1 / 10 -> 21 * T * EL_CHARGE / (mass * c) <= lim ->
  mean_kinetic_cold c lim mass T (48 / 100 * (3 / 2 * (T * EL_CHARGE))) (52 / 100 * (3 / 2 * (T * EL_CHARGE))).
Proof.
  intros c lim mass T C M HT L. exists (fun e => half * (e * EL_CHARGE)). assert (P := el_pos). split.
  - intros U e HU E. destruct (energy_range T U e ltac:(lra) HU E) as [E1 E2]. apply C142_energy; [exact M|exact E1|].
    apply Rle_trans with (2 := L). unfold Rdiv. apply Rmult_le_compat_r; [apply Rlt_le, Rinv_0_lt_compat, Rmult_lt_0_compat; assumption|].
    apply Rmult_le_compat_r; lra.
  - destruct (C142_sampled T ltac:(lra)) as (l & h & S & A & B). assert (H := half_value).
    exists (half * EL_CHARGE * l), (half * EL_CHARGE * h). split; [|split].
    + refine (sums_scale (classical_energy T) _ (half * EL_CHARGE) _ _ 0 1 l h S); [apply Rmult_le_pos; lra|].
      intros u e E. rewrite E. cbn [bind]. f_equal. ring.
    + apply Rle_trans with (EL_CHARGE * (half * (98 / 100 * (3 / 2 * T)))); [|replace (half * EL_CHARGE * l) with (EL_CHARGE * (half * l)) by ring; apply Rmult_le_compat_l; [lra|]; apply Rmult_le_compat_l; lra].
      replace (48 / 100 * (3 / 2 * (T * EL_CHARGE))) with (EL_CHARGE * (48 / 100 * (3 / 2 * T))) by ring. apply Rmult_le_compat_l; [lra|].
      assert (H' : 1 / 2 - 1 / 1000 <= half) by lra. nra.
    + apply Rle_trans with (EL_CHARGE * (half * (102 / 100 * (3 / 2 * T)))); [replace (half * EL_CHARGE * h) with (EL_CHARGE * (half * h)) by ring; apply Rmult_le_compat_l; [lra|]; apply Rmult_le_compat_l; lra|].
      replace (52 / 100 * (3 / 2 * (T * EL_CHARGE))) with (EL_CHARGE * (52 / 100 * (3 / 2 * T))) by ring. apply Rmult_le_compat_l; [lra|]. nra.
Qed.

(** electrons of 0.05 eV *)
Example C142_ex : mean_kinetic_cold (3 * 10 ^ 8) (15 * 10 ^ 6) (91 / 10 ^ 32) (1 / 20)
  (48 / 100 * (3 / 2 * (1 / 20 * EL_CHARGE))) (52 / 100 * (3 / 2 * (1 / 20 * EL_CHARGE))).
Proof. apply C142_cold_refuted; unfold EL_CHARGE; lra. Qed.

Print Assumptions C142_energy.
Print Assumptions C142_rectangular_refuted.
Print Assumptions C142_eigen_refuted.
Print Assumptions C142_sampled.
Print Assumptions C142_cold_refuted.
Print Assumptions sums_integral.
Print Assumptions C142_ex.
