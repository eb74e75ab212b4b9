(** Theorems about the densities of the domains: properties C106 and C107. *)
From Coq Require Import Reals Lra Psatz ZifyBool.
From Verif Require Import Base DecompModel CollectorModel ParticleModel ParticleProofs StepModel ThmParticle DensModel.
Open Scope R_scope.

(** * Specification *)
Fixpoint sum_to (n : nat) (f : Z -> R) : R := match n with O => 0 | S m => sum_to m f + f (Z.of_nat m) end.
(** an area that is divided without remainder *)
Definition even_area (a : area) (s t : Z) : Prop :=
  (0 < rd_ a /\ 0 < zd_ a /\ 0 < s /\ 0 < t /\ nr a = rd_ a * s /\ nz a = zd_ a * t /\ nr a * (rd_ a + 1) < 2 ^ 64 /\ nz a * (zd_ a + 1) < 2 ^ 64)%Z.
(** the configured density at position z *)
Definition profile_at (ld rd L z : R) : R := ld + (rd - ld) * z / L.
(** real particles between 0 and z, per unit of cross section *)
Definition column (ld rd L z : R) : R := ld * z + (rd - ld) * z ^ 2 / (2 * L).

Lemma sum_to_ext n f g : (forall i, (0 <= i < Z.of_nat n)%Z -> f i = g i) -> sum_to n f = sum_to n g.
Proof. induction n as [|n IH]; intros H; cbn [sum_to]; [reflexivity|]. rewrite IH by (intros; apply H; lia). f_equal. apply H. lia. Qed.
Lemma sum_to_scale n c f : sum_to n (fun i => c * f i) = c * sum_to n f.
Proof. induction n as [|n IH]; cbn [sum_to]; [ring|]. rewrite IH. ring. Qed.
Lemma sum_to_scale_r n c f : sum_to n (fun i => f i * c) = sum_to n f * c.
Proof. induction n as [|n IH]; cbn [sum_to]; [ring|]. rewrite IH. ring. Qed.

Lemma even_bound n m s i : (0 < n)%Z -> (0 < s)%Z -> (m = n * s)%Z -> (m * (n + 1) < 2 ^ 64)%Z -> (0 <= i <= n)%Z -> bound m n 0 i = (i * s)%Z.
Proof.
  intros Hn Hs -> Hm Hi. unfold bound. rewrite (u64_small (n * s * i)) by nia.
  replace (n * s * i)%Z with (i * s * n)%Z by ring. rewrite Z.div_mul by lia. rewrite Z.add_0_r. apply u64_small. nia.
Qed.

(** the cross section: rows of domains, the last without the cell at the wall *)
Lemma rows_sum (rd s : Z) (n : nat) : (Z.of_nat n < rd)%Z ->
  sum_to n (fun i => (IZR ((i + 1) * s) - (if (i =? rd - 1)%Z then 1 else 0)) ^ 2 - IZR (i * s) ^ 2) = IZR (Z.of_nat n * s) ^ 2.
Proof.
  induction n as [|n IH]; intros H; cbn [sum_to]; [simpl; ring|].
  rewrite IH by lia. replace (Z.of_nat n =? rd - 1)%Z with false by lia. replace (Z.of_nat (S n)) with (Z.of_nat n + 1)%Z by lia. ring.
Qed.
Lemma all_rows (rd s : Z) : (0 < rd)%Z ->
  sum_to (Z.to_nat rd) (fun i => (IZR ((i + 1) * s) - (if (i =? rd - 1)%Z then 1 else 0)) ^ 2 - IZR (i * s) ^ 2) = (IZR (rd * s) - 1) ^ 2.
Proof.
  intros H. replace (Z.to_nat rd) with (S (Z.to_nat (rd - 1))) by lia. cbn [sum_to]. rewrite rows_sum by lia.
  rewrite Z2Nat.id by lia. rewrite Z.eqb_refl. replace (rd - 1 + 1)%Z with rd by lia. ring.
Qed.
(** the length: columns of domains *)
Lemma cols_sum (zd t : Z) (ld rd L dz : R) (n : nat) : L <> 0 -> (Z.of_nat n < zd)%Z ->
  sum_to n (fun j => (profile_at ld rd L (IZR (j * t) * dz) + profile_at ld rd L (IZR ((j + 1) * t) * dz)) / 2 *
    ((IZR ((j + 1) * t) - IZR (j * t) - (if (j =? zd - 1)%Z then 1 else 0)) * dz)) = column ld rd L (IZR (Z.of_nat n * t) * dz).
Proof.
  intros HL. induction n as [|n IH]; intros H; cbn [sum_to]; [simpl; unfold column; field; auto|].
  rewrite IH by lia. replace (Z.of_nat n =? zd - 1)%Z with false by lia. replace (Z.of_nat (S n)) with (Z.of_nat n + 1)%Z by lia.
  unfold column, profile_at. field. auto.
Qed.
Lemma all_cols (zd t : Z) (ld rd L dz : R) : L <> 0 -> (0 < zd)%Z -> L = IZR (zd * t) * dz ->
  sum_to (Z.to_nat zd) (fun j => (profile_at ld rd L (IZR (j * t) * dz) + profile_at ld rd L (IZR ((j + 1) * t) * dz)) / 2 *
    ((IZR ((j + 1) * t) - IZR (j * t) - (if (j =? zd - 1)%Z then 1 else 0)) * dz)) =
  column ld rd L L - dz * (profile_at ld rd L (IZR ((zd - 1) * t) * dz) + rd) / 2.
Proof.
  intros HL H EL. replace (Z.to_nat zd) with (S (Z.to_nat (zd - 1))) by lia. cbn [sum_to]. rewrite cols_sum by (auto; lia).
  rewrite Z2Nat.id by lia. rewrite Z.eqb_refl. replace (zd - 1 + 1)%Z with zd by lia.
  rewrite <- EL. assert (E1 : IZR (zd * t) - IZR ((zd - 1) * t) = IZR t) by (rewrite <- minus_IZR; f_equal; lia).
  set (x := IZR ((zd - 1) * t) * dz). replace ((IZR (zd * t) - IZR ((zd - 1) * t) - 1) * dz) with (L - x - dz) by (rewrite EL; unfold x; ring).
  unfold column, profile_at. field. auto.
Qed.

Section Area.
Variables (a : area) (s t : Z) (dr dz ld rd : R).
Hypothesis HA : even_area a s t.
Hypothesis Hdr : 0 < dr.
Hypothesis Hdz : 0 < dz.
Let L := IZR (nz a) * dz.
Lemma len_pos : 0 < L.
Proof. destruct HA as (A & B & C & D & E & F & _). unfold L. apply Rmult_lt_0_compat; [|auto]. apply (IZR_lt 0). nia. Qed.
Lemma density_profile c : local_density ld rd L dz c = profile_at ld rd L (IZR c * dz).
Proof. pose proof len_pos. unfold local_density, profile_at. field. lra. Qed.

(** all domains together *)
Lemma area_weights (macro : Z -> Z -> Z) (rs : Z -> Z -> list R) :
  (forall i j, (0 <= i < rd_ a)%Z -> (0 <= j < zd_ a)%Z -> (0 < macro i j)%Z /\ rs i j <> [] /\ Forall (fun r => 0 < r) (rs i j)) ->
  sum_to (Z.to_nat (rd_ a)) (fun i => sum_to (Z.to_nat (zd_ a)) (fun j => total (domain_weights a dr dz ld rd (macro i j) (rs i j) i j))) =
  PI * ((IZR (nr a) - 1) * dr) ^ 2 * (column ld rd L L - dz * (profile_at ld rd L (IZR ((zd_ a - 1) * t) * dz) + rd) / 2).
Proof.
  intros H. pose proof len_pos as PL. pose proof HA as (A & B & C & D & E & F & G & I).
  transitivity (sum_to (Z.to_nat (rd_ a)) (fun i => ((IZR ((i + 1) * s) - (if (i =? rd_ a - 1)%Z then 1 else 0)) ^ 2 - IZR (i * s) ^ 2) *
    (PI * dr ^ 2 * (column ld rd L L - dz * (profile_at ld rd L (IZR ((zd_ a - 1) * t) * dz) + rd) / 2)))).
  - apply sum_to_ext. intros i Hi. rewrite <- (all_cols (zd_ a) t ld rd L dz) by (auto; try lra; unfold L; now rewrite F).
    rewrite <- !sum_to_scale. apply sum_to_ext. intros j Hj. rewrite Z2Nat.id in Hi, Hj by lia.
    destruct (H i j) as (M & N & O); auto. unfold domain_weights. fold L.
    destruct (C29_density (domain_geo a dr dz i j) (local_density ld rd L dz (g_left (domain_geo a dr dz i j)))
       (local_density ld rd L dz (g_right (domain_geo a dr dz i j))) (macro i j) (rs i j)) as [X _]; auto.
    rewrite X. rewrite !density_profile. unfold real_particles. cbn [domain_geo g_left g_right g_bot g_top w_rr w_zz g_dr g_dz].
    rewrite !(even_bound (rd_ a) (nr a) s), !(even_bound (zd_ a) (nz a) t) by (auto; lia). field.
  - rewrite sum_to_scale_r, all_rows by auto. rewrite E. ring.
Qed.
End Area.

(** * C106: real particles of all domains *)
(** a uniform plasma: density times volume of the filled region, whatever the number of domains and macro-particles *)
Theorem C106_uniform : forall a s t dr dz rho macro rs, even_area a s t -> 0 < dr -> 0 < dz ->
  (forall i j, (0 <= i < rd_ a)%Z -> (0 <= j < zd_ a)%Z -> (0 < macro i j)%Z /\ rs i j <> [] /\ Forall (fun r => 0 < r) (rs i j)) ->
  sum_to (Z.to_nat (rd_ a)) (fun i => sum_to (Z.to_nat (zd_ a)) (fun j => total (domain_weights a dr dz rho rho (macro i j) (rs i j) i j))) =
  rho * (PI * ((IZR (nr a) - 1) * dr) ^ 2) * ((IZR (nz a) - 1) * dz).
Proof.
  intros a s t dr dz rho macro rs HA Hdr Hdz H. rewrite (area_weights a s t dr dz rho rho HA Hdr Hdz macro rs H).
  pose proof (len_pos a s t dz HA Hdz) as P. unfold column, profile_at. set (n := IZR (nz a)) in *.
  assert (n <> 0) by (intros Q; rewrite Q in P; lra). field. split; lra.
Qed.
(** a linear profile: the particles between 0 and L - dz, up to at most half the density difference within one domain times one cell *)
Theorem C106_linear_partial : forall a s t dr dz ld rd macro rs, even_area a s t -> 0 < dr -> 0 < dz ->
  (forall i j, (0 <= i < rd_ a)%Z -> (0 <= j < zd_ a)%Z -> (0 < macro i j)%Z /\ rs i j <> [] /\ Forall (fun r => 0 < r) (rs i j)) ->
  let L := IZR (nz a) * dz in
  Rabs (sum_to (Z.to_nat (rd_ a)) (fun i => sum_to (Z.to_nat (zd_ a)) (fun j => total (domain_weights a dr dz ld rd (macro i j) (rs i j) i j))) -
    PI * ((IZR (nr a) - 1) * dr) ^ 2 * column ld rd L (L - dz)) <= PI * ((IZR (nr a) - 1) * dr) ^ 2 * dz * (Rabs (rd - ld) / (2 * IZR (zd_ a))).
Proof.
  intros a s t dr dz ld rd macro rs HA Hdr Hdz H L. rewrite (area_weights a s t dr dz ld rd HA Hdr Hdz macro rs H). fold L.
  pose proof (len_pos a s t dz HA Hdz) as P. fold L in P. destruct HA as (A & B & C & D & E & F & _).
  set (x := IZR ((zd_ a - 1) * t) * dz). assert (ZD : 0 < IZR (zd_ a)) by (apply (IZR_lt 0); lia). assert (TT : 1 <= IZR t) by (apply (IZR_le 1); lia).
  assert (EX : L - x = L / IZR (zd_ a)).
  { unfold L, x. rewrite F, !mult_IZR, minus_IZR. field. lra. }
  assert (ET : L / IZR (zd_ a) = IZR t * dz) by (unfold L; rewrite F, mult_IZR; field; lra).
  assert (0 <= L - x - dz <= L / IZR (zd_ a)) by (rewrite EX, ET; nra).
  set (w := PI * ((IZR (nr a) - 1) * dr) ^ 2).
  assert (W : 0 <= w) by (unfold w; apply Rmult_le_pos; [pose proof PI_RGT_0; lra|apply pow2_ge_0]).
  replace (w * (column ld rd L L - dz * (profile_at ld rd L x + rd) / 2) - w * column ld rd L (L - dz))
    with (w * dz * ((rd - ld) * ((L - x - dz) / (2 * L)))).
  2:{ unfold column, profile_at. field. lra. }
  rewrite Rabs_mult, (Rabs_right (w * dz)) by (apply Rle_ge, Rmult_le_pos; lra).
  apply Rmult_le_compat_l; [apply Rmult_le_pos; lra|]. rewrite Rabs_mult. unfold Rdiv at 2.
  apply Rmult_le_compat_l; [apply Rabs_pos|].
  assert (Q0 : 0 <= (L - x - dz) / (2 * L)) by (apply Rmult_le_pos; [lra|apply Rlt_le, Rinv_0_lt_compat; lra]).
  rewrite Rabs_right by lra. apply Rmult_le_reg_r with (2 * L); [lra|].
  replace ((L - x - dz) / (2 * L) * (2 * L)) with (L - x - dz) by (field; lra).
  replace (/ (2 * IZR (zd_ a)) * (2 * L)) with (L / IZR (zd_ a)) by (field; lra). lra.
Qed.
(** and this does depend on the number of domains *)
Definition a1 : area := {| nr := 4; nz := 8; rd_ := 1; zd_ := 1 |}.
Definition a2 : area := {| nr := 4; nz := 8; rd_ := 1; zd_ := 2 |}.
Theorem C106_division_refuted : exists dr dz ld rd, 0 < dr /\ 0 < dz /\ 0 < ld /\ 0 < rd /\ forall macro rs,
  (forall i j, (0 < macro i j)%Z /\ rs i j <> [] /\ Forall (fun r => 0 < r) (rs i j)) ->
  let number a := sum_to (Z.to_nat (rd_ a)) (fun i => sum_to (Z.to_nat (zd_ a)) (fun j => total (domain_weights a dr dz ld rd (macro i j) (rs i j) i j))) in
  number a1 <> number a2.
Proof.
  exists 1, 1, 1, 3. repeat (split; [lra|]). intros macro rs H number. unfold number.
  rewrite (area_weights a1 4 8), (area_weights a2 4 4); try lra; auto; try (unfold even_area; cbn; lia).
  unfold column, profile_at. cbn [a1 a2 nr nz rd_ zd_]. change ((2 - 1) * 4)%Z with 4%Z. change ((1 - 1) * 8)%Z with 0%Z.
  pose proof PI_RGT_0. intros Q.
  assert (PI * (45 / 10) = 0); [|lra]. field_simplify in Q. lra.
Qed.
Example C106_ex : even_area a2 4 4 /\ Forall (fun r => 0 < r) [1; 2].
Proof. split; [unfold even_area; cbn; lia|repeat constructor; lra]. Qed.

(** * C107: the density profile with several processes *)
(** the profile is W times as steep as configured *)
Theorem C107_steeper : forall ld rd L dz W c, 0 < L -> (0 < W)%Z ->
  local_density ld rd (L / IZR W) dz c = ld + IZR W * (profile_at ld rd L (IZR c * dz) - ld).
Proof.
  intros ld rd L dz W c HL HW. assert (0 < IZR W) by (apply (IZR_lt 0); lia). unfold local_density, profile_at. field. split; lra.
Qed.
(** it is right exactly for one process, for uniform densities and at the very beginning *)
Theorem C107_profile_iff : forall ld rd L dz W c, 0 < L -> 0 < dz -> (0 < W)%Z ->
  (local_density ld rd (L / IZR W) dz c = profile_at ld rd L (IZR c * dz) <-> (W = 1 \/ c = 0)%Z \/ ld = rd).
Proof.
  intros ld rd L dz W c HL Hdz HW. rewrite C107_steeper by auto. unfold profile_at.
  assert (I : 0 < / L) by (apply Rinv_0_lt_compat; lra).
  replace (ld + IZR W * (ld + (rd - ld) * (IZR c * dz) / L - ld)) with (ld + (rd - ld) * (IZR c * dz) / L + (IZR W - 1) * (rd - ld) * IZR c * (dz * / L)) by (field; lra).
  assert (P : 0 < dz * / L) by (now apply Rmult_lt_0_compat).
  split.
  - intros H. assert (E : (IZR W - 1) * (rd - ld) * IZR c * (dz * / L) = 0) by lra.
    apply Rmult_integral in E as [E|E]; [|lra]. apply Rmult_integral in E as [E|E].
    + apply Rmult_integral in E as [E|E]; [|right; lra]. left. left. apply eq_IZR. lra.
    + left. right. now apply eq_IZR.
  - intros [[-> | ->] | ->]; ring.
Qed.
(** the weights of the particles of any domain of any rank are those of the profile that is steeper, at both ends of the domain *)
Theorem C107_weights : forall a dr dz ld rd np id macro rs i j, (0 < nz a)%Z -> 0 < dz -> (0 < np)%Z ->
  let g := rank_domain_geo a dr dz np id i j in
  let steep c := ld + IZR np * (profile_at ld rd (IZR (nz a) * dz) (IZR c * dz) - ld) in
  rank_weights a dr dz ld rd np id macro rs i j = set_weight g (steep (g_left g)) (steep (g_right g)) macro rs.
Proof.
  intros a dr dz ld rd np id macro rs i j Hn Hdz Hp g steep. unfold rank_weights. cbv zeta. fold g. assert (0 < IZR (nz a)) by (apply (IZR_lt 0); lia).
  rewrite !C107_steeper by (auto; now apply Rmult_lt_0_compat). reflexivity.
Qed.
(** a uniform plasma is therefore not affected *)
Theorem C107_uniform_partial : forall a dr dz rho np id macro rs i j,
  rank_weights a dr dz rho rho np id macro rs i j = set_weight (rank_domain_geo a dr dz np id i j) rho rho macro rs.
Proof.
  intros. unfold rank_weights. cbv zeta. f_equal; unfold local_density, Rdiv; ring.
Qed.
(** a density that decreases to zero is negative in the second half of the area: negative weights *)
Lemma negative_weights g d0 d1 macro rs : 0 < g_dr g -> 0 < g_dz g -> (0 < macro)%Z -> rs <> [] -> Forall (fun r => 0 < r) rs ->
  d0 + d1 < 0 -> IZR (g_bot g) < top_r_num g -> (0 <= g_bot g)%Z -> 0 < filled_z_size g -> Forall (fun w => w < 0) (set_weight g d0 d1 macro rs).
Proof.
  intros Hr Hz Hm Hne F Hd Ht Hb Hl. assert (M : 0 < IZR macro) by (apply (IZR_lt 0); lia).
  pose proof (total_ring_pos _ _ _ Hr Hz F Hne) as V.
  assert (EV : v_sum g rs = total (map (ring_volume (g_dr g) (g_dz g)) rs)) by (unfold v_sum; rewrite fold_left_sum; lra).
  assert (N : N_total g d0 d1 < 0).
  { assert (B : 0 <= IZR (g_bot g)) by (apply IZR_le; lia). pose proof PI_RGT_0 as P. unfold N_total.
    assert (Q : 0 < PI * g_dr g * g_dr g * (top_r_num g * top_r_num g - IZR (g_bot g) * IZR (g_bot g)) * filled_z_size g) by (assert (0 < top_r_num g * top_r_num g - IZR (g_bot g) * IZR (g_bot g)) by nra; mpos).
    replace ((d0 + d1) / 2 * PI * g_dr g * g_dr g * (top_r_num g * top_r_num g - IZR (g_bot g) * IZR (g_bot g)) * filled_z_size g)
      with ((d0 + d1) / 2 * (PI * g_dr g * g_dr g * (top_r_num g * top_r_num g - IZR (g_bot g) * IZR (g_bot g)) * filled_z_size g)) by ring.
    nra. }
  unfold set_weight, v_avg. rewrite EV. apply Forall_forall. intros w Hw. apply in_map_iff in Hw as (r & <- & Hin).
  rewrite Forall_forall in F. pose proof (ring_volume_pos (g_dr g) (g_dz g) r Hr Hz (F _ Hin)) as X.
  set (T := total _) in *. replace (N_total g d0 d1 / IZR macro * (ring_volume (g_dr g) (g_dz g) r / (T / IZR macro))) with (N_total g d0 d1 * (ring_volume (g_dr g) (g_dz g) r / T)) by (field; lra).
  assert (0 < ring_volume (g_dr g) (g_dz g) r / T) by (apply Rmult_lt_0_compat; [auto|now apply Rinv_0_lt_compat]). nra.
Qed.
Theorem C107_negative_refuted : exists a dr dz ld rd np id, 0 < dr /\ 0 < dz /\ 0 < ld /\ 0 <= rd /\ (0 <= id < np)%Z /\
  forall macro rs, (0 < macro)%Z -> rs <> [] -> Forall (fun r => 0 < r) rs -> Forall (fun w => w < 0) (rank_weights a dr dz ld rd np id macro rs 0 0).
Proof.
  exists a2, 1, 1, 1, 0, 2%Z, 1%Z. repeat (split; [lra|]). split; [lia|]. intros macro rs Hm Hne F. unfold rank_weights. cbv zeta.
  change (g_left (rank_domain_geo a2 1 1 2 1 0 0)) with 4%Z. change (g_right (rank_domain_geo a2 1 1 2 1 0 0)) with 8%Z. cbn [a2 nz].
  apply negative_weights; auto; try (cbn; lra); try (cbn; lia).
  - unfold local_density. lra.
  - unfold top_r_num. change (g_bot (rank_domain_geo a2 1 1 2 1 0 0)) with 0%Z. change (g_top (rank_domain_geo a2 1 1 2 1 0 0)) with 4%Z.
    change (w_rr (rank_domain_geo a2 1 1 2 1 0 0)) with true. cbn iota. lra.
  - unfold filled_z_size. change (g_left (rank_domain_geo a2 1 1 2 1 0 0)) with 4%Z. change (g_right (rank_domain_geo a2 1 1 2 1 0 0)) with 8%Z.
    change (w_zz (rank_domain_geo a2 1 1 2 1 0 0)) with true. change (g_dz (rank_domain_geo a2 1 1 2 1 0 0)) with 1. cbn iota. change (8 - 4)%Z with 4%Z. lra.
Qed.

Print Assumptions C106_uniform.
Print Assumptions C106_linear_partial.
Print Assumptions C106_division_refuted.
Print Assumptions C107_steeper.
Print Assumptions C107_profile_iff.
Print Assumptions C107_weights.
Print Assumptions C107_uniform_partial.
Print Assumptions C107_negative_refuted.
