(** Theorems about single particles: properties C29 - C35. *)
From Verif Require Import Base RndUtil ParticleModel ParticleProofs.
From Coq Require Import Reals Lra Psatz.
Open Scope R_scope.

(** * C30: reflection at the walls *)
(** ** specification *)
Definition local_r (g : geo) (p : part) : R := pos_r p - IZR (g_bot g) * g_dr g.
Definition local_z (g : geo) (p : part) : R := pos_z p - IZR (g_left g) * g_dz g.
Definition inside (g : geo) (p : part) : Prop :=
  (w_rr g = true -> local_r g p <= g_size_r g - g_dr g / 2) /\ (w_r0 g = true -> g_dr g / 2 <= local_r g p) /\
  (w_zz g = true -> local_z g p <= g_size_z g - g_dz g / 2) /\ (w_z0 g = true -> g_dz g / 2 <= local_z g p).
(** mirror images between the planes lo and hi: an even number of reflections keeps the velocity, an odd one flips it *)
Definition mirrored (lo hi x v x' v' : R) : Prop :=
  exists k : Z, (x' = x + 2 * IZR k * (hi - lo) /\ v' = v) \/ (x' = 2 * lo - x + 2 * IZR k * (hi - lo) /\ v' = - v).
(** positions for which the loop condition [isnormal] never sees a zero *)
Definition no_zero (w0 w1 : bool) (wall x : R) : Prop := x <> 0 /\ (w0 = false -> w1 = true -> x <> 2 * wall).
(** geometry of at least two cells in each direction *)
Definition wide (g : geo) : Prop := 0 < g_dr g < g_size_r g /\ 0 < g_dz g < g_size_z g.

Lemma out1_inside lo hi wlo whi x : out1 lo hi wlo whi x = false ->
  (whi = true -> x <= hi) /\ (wlo = true -> lo <= x).
Proof.
  unfold out1. intros H. apply orb_false_iff in H. destruct H as [A B]. split; intros E; rewrite E, andb_true_r in *.
  - now apply Rltb_false.
  - now apply Rltb_false.
Qed.

(** The loop always terminates and only flips the signs of v_r and v_z, in step with the mirroring. *)
Theorem C30_terminates : forall g p, wide g ->
  exists n p', (forall fuel, (n <= fuel)%nat -> reflect g fuel p = Some p') /\
    mirrored (g_dr g / 2) (g_size_r g - g_dr g / 2) (local_r g p) (vel_r p) (local_r g p') (vel_r p') /\
    mirrored (g_dz g / 2) (g_size_z g - g_dz g / 2) (local_z g p) (vel_z p) (local_z g p') (vel_z p') /\
    vel_r p' ^ 2 + vel_phi p' ^ 2 + vel_z p' ^ 2 = vel_r p ^ 2 + vel_phi p ^ 2 + vel_z p ^ 2 /\
    vel_phi p' = vel_phi p /\ pos_phi p' = pos_phi p /\ weight p' = weight p /\
    (no_zero (w_r0 g) (w_rr g) (g_size_r g - g_dr g / 2) (local_r g p) ->
     no_zero (w_z0 g) (w_zz g) (g_size_z g - g_dz g / 2) (local_z g p) -> inside g p').
Proof.
  intros g p [[H1 H2] [H3 H4]].
  destruct (loop_stops g H1 H3 H2 H4 (local_r g p, vel_r p) (local_z g p, vel_z p)) as (n & N1 & N2).
  set (a := iter1 _ _ _ _ n (local_r g p, vel_r p)) in *. set (b := iter1 _ _ _ _ n (local_z g p, vel_z p)) in *.
  assert (I1 : image (half_dr g) (radius_wall g) (local_r g p, vel_r p) a) by apply iter1_image.
  assert (I2 : image (half_dz g) (longitude_wall g) (local_z g p, vel_z p) b) by apply iter1_image.
  exists n. eexists. split; [|split].
  - intros fuel Hf. unfold reflect.
    change (pos_r p - IZR (g_bot g) * g_dr g, pos_z p - IZR (g_left g) * g_dz g, vel_r p, vel_z p)
      with (fst (local_r g p, vel_r p), fst (local_z g p, vel_z p), snd (local_r g p, vel_r p), snd (local_z g p, vel_z p)).
    rewrite (N1 fuel Hf). reflexivity.
  - unfold local_r at 2. cbn [pos_r vel_r].
    replace (fst a + IZR (g_bot g) * g_dr g - IZR (g_bot g) * g_dr g) with (fst a) by ring. exact I1.
  - unfold local_z at 2, inside, local_r, local_z. cbn [pos_r pos_z vel_r vel_z vel_phi pos_phi weight].
    replace (fst a + IZR (g_bot g) * g_dr g - IZR (g_bot g) * g_dr g) with (fst a) by ring.
    replace (fst b + IZR (g_left g) * g_dz g - IZR (g_left g) * g_dz g) with (fst b) by ring.
    split; [exact I2|]. split.
    + destruct I1 as [k [[_ V1]|[_ V1]]], I2 as [l [[_ V2]|[_ V2]]]; rewrite V1, V2; cbn [snd]; ring.
    + repeat (split; [reflexivity|]). intros Q1 Q2. destruct (N2 Q1 Q2) as [O1 O2].
      apply out1_inside in O1. apply out1_inside in O2. unfold half_dr, radius_wall, half_dz, longitude_wall in *. tauto.
Qed.
(** Particles (other than at a local coordinate of exactly 0) end up inside the half-cell margins. *)
Theorem C30_reflect_partial : forall g p, wide g ->
  no_zero (w_r0 g) (w_rr g) (g_size_r g - g_dr g / 2) (local_r g p) ->
  no_zero (w_z0 g) (w_zz g) (g_size_z g - g_dz g / 2) (local_z g p) ->
  exists n p', (forall fuel, (n <= fuel)%nat -> reflect g fuel p = Some p') /\ inside g p' /\
    vel_r p' ^ 2 + vel_phi p' ^ 2 + vel_z p' ^ 2 = vel_r p ^ 2 + vel_phi p ^ 2 + vel_z p ^ 2.
Proof.
  intros g p Hw Q1 Q2. destruct (C30_terminates g p Hw) as (n & p' & A & _ & _ & B & _ & _ & _ & C).
  exists n, p'. auto.
Qed.
Theorem C30_untouched : forall g p fuel, inside g p -> reflect g fuel p = Some p.
Proof.
  intros g p fuel (A & B & C & D). unfold reflect.
  assert (E : beyond g (local_r g p) (local_z g p) = false).
  { unfold beyond, radius_wall, longitude_wall, half_dr, half_dz.
    assert (X : forall a b w, (w = true -> b <= a) -> Rltb a b && w = false).
    { intros a b [|] H; [|now rewrite andb_false_r]. rewrite andb_true_r. apply Rltb_false. auto. }
    rewrite !X; auto. }
  assert (F : refl_loop g fuel (local_r g p, local_z g p, vel_r p, vel_z p) = Some (local_r g p, local_z g p, vel_r p, vel_z p)).
  { destruct fuel; cbn [refl_loop]; now rewrite E, andb_false_r. }
  fold (local_r g p) (local_z g p). rewrite F. unfold local_r, local_z. f_equal. destruct p; cbn.
  f_equal; ring.
Qed.
(** A particle exactly on the border of the domain is not reflected ([isnormal(0)] is false), neither there nor
    at the wall in the other direction. *)
Theorem C30_zero_refuted : forall g p fuel, wide g -> w_r0 g = true -> local_r g p = 0 ->
  reflect g fuel p = Some p /\ ~ inside g p.
Proof.
  intros g p fuel [[H1 _] _] Hw Hl. split.
  - unfold reflect. fold (local_r g p). rewrite Hl.
    assert (F : forall z v w, refl_loop g fuel (0, z, v, w) = Some (0, z, v, w)).
    { intros. destruct fuel; cbn [refl_loop]; unfold isnormal at 1; destruct (Req_EM_T 0 0); try contradiction; reflexivity. }
    rewrite F. f_equal. unfold local_r in Hl. destruct p; cbn in *. f_equal; lra.
  - intros (_ & A & _). specialize (A Hw). rewrite Hl in A. lra.
Qed.
Definition g_ex : geo :=
  {| g_dr := 1; g_dz := 1; g_size_r := 10; g_size_z := 20; g_bot := 0; g_left := 0; g_top := 10; g_right := 20;
     w_r0 := true; w_z0 := true; w_rr := true; w_zz := true |}.
Example C30_example : wide g_ex /\ no_zero true true (10 - 1 / 2) 31 /\
  mirrored (1/2) (10 - 1/2) 31 5 6 (-5).
Proof.
  split; [unfold wide, g_ex; cbn; lra|]. split; [unfold no_zero; split; [lra|discriminate]|].
  exists 2%Z. right. split; lra.
Qed.

(** * C31: reflection of beam particles at the axis *)
Theorem C31_beam_reflect : forall g p, 0 < g_dr g ->
  let p' := beam_reflect g p in
  (w_r0 g = true -> local_r g p < g_dr g / 2 ->
     local_r g p' = g_dr g - local_r g p /\ vel_r p' = - vel_r p /\ vel_phi p' = vel_phi p /\ vel_z p' = vel_z p /\
     pos_z p' = pos_z p /\ pos_phi p' = pos_phi p /\ weight p' = weight p) /\
  ((w_r0 g = false \/ g_dr g / 2 <= local_r g p) -> p' = p) /\
  vel_r p' ^ 2 + vel_phi p' ^ 2 + vel_z p' ^ 2 = vel_r p ^ 2 + vel_phi p ^ 2 + vel_z p ^ 2 /\
  (w_r0 g = true -> g_dr g / 2 <= local_r g p') /\
  beam_reflect g p' = p'.
Proof.
  intros g p Hdr. cbv zeta.
  assert (U : forall q, (w_r0 g = false \/ g_dr g / 2 <= local_r g q) -> beam_reflect g q = q).
  { intros q H. unfold beam_reflect. fold (local_r g q).
    destruct H as [H|H]; [now rewrite H, andb_false_r|].
    now replace (Rltb (local_r g q) (half_dr g)) with false by (symmetry; apply Rltb_false; exact H). }
  assert (V : w_r0 g = true -> local_r g p < g_dr g / 2 ->
     beam_reflect g p = {| pos_r := g_dr g - local_r g p + IZR (g_bot g) * g_dr g; pos_phi := pos_phi p; pos_z := pos_z p;
       vel_r := - vel_r p; vel_phi := vel_phi p; vel_z := vel_z p; p_sin := p_sin p; weight := weight p |}).
  { intros H1 H2. unfold beam_reflect. fold (local_r g p).
    replace (Rltb (local_r g p) (half_dr g)) with true by (symmetry; apply Rltb_true; exact H2). now rewrite H1. }
  assert (L : w_r0 g = true -> local_r g p < g_dr g / 2 -> local_r g (beam_reflect g p) = g_dr g - local_r g p).
  { intros H1 H2. rewrite (V H1 H2). unfold local_r at 1. cbn [pos_r]. ring. }
  split; [intros H1 H2; split; [now apply L|]; rewrite (V H1 H2); repeat split|].
  split; [apply U|].
  destruct (w_r0 g) eqn:W.
  - destruct (Rlt_le_dec (local_r g p) (g_dr g / 2)) as [H|H].
    + split; [rewrite V by auto; cbn [vel_r vel_phi vel_z]; ring|].
      assert (G : g_dr g / 2 <= local_r g (beam_reflect g p)) by (rewrite L; auto; lra).
      split; [auto|]. apply U. now right.
    + rewrite (U p) by auto. split; [reflexivity|]. split; [auto|]. apply U. now right.
  - rewrite (U p) by auto. split; [reflexivity|]. split; [discriminate|]. apply U. now left.
Qed.
Example C31_example : let p := {| pos_r := 1/4; pos_phi := 0; pos_z := 3; vel_r := -2; vel_phi := 0; vel_z := 7; p_sin := 0; weight := 1 |} in
  0 < g_dr g_ex /\ w_r0 g_ex = true /\ local_r g_ex p < g_dr g_ex / 2.
Proof. cbn. unfold local_r, g_ex. cbn. split; [lra|]. split; [reflexivity|lra]. Qed.

(** * C32, C33: return to the half plane *)
Definition off_axis (p : part) : Prop := pos_r p <> 0 \/ pos_phi p <> 0.
Definition dist (p : part) : R := sqrt (pos_r p ^ 2 + pos_phi p ^ 2).
Lemma dist_pos p : off_axis p -> 0 < dist p.
Proof.
  intros H. unfold dist. apply sqrt_lt_R0.
  assert (A := pow2_ge_0 (pos_r p)). assert (B := pow2_ge_0 (pos_phi p)).
  destruct H as [H|H]; [assert (0 < pos_r p ^ 2)|assert (0 < pos_phi p ^ 2)]; try lra;
    rewrite <- Rsqr_pow2; now apply Rsqr_pos_lt.
Qed.
Lemma dist_sqr p : dist p * dist p = pos_r p ^ 2 + pos_phi p ^ 2.
Proof.
  unfold dist. apply sqrt_sqrt. assert (A := pow2_ge_0 (pos_r p)). assert (B := pow2_ge_0 (pos_phi p)). lra.
Qed.
Lemma back_dist p : sqrt (pos_r p * pos_r p + pos_phi p * pos_phi p) = dist p.
Proof. unfold dist. f_equal. ring. Qed.
Lemma cos_formula p : off_axis p -> sqrt (1 - pos_phi p / dist p * (pos_phi p / dist p)) = Rabs (pos_r p) / dist p.
Proof.
  intros H. pose proof (dist_pos p H) as P. pose proof (dist_sqr p) as Q.
  replace (1 - pos_phi p / dist p * (pos_phi p / dist p)) with ((pos_r p / dist p) ^ 2).
  - rewrite <- Rsqr_pow2, sqrt_Rsqr_abs. unfold Rdiv. rewrite Rabs_mult.
    f_equal. apply Rabs_right. left. now apply Rinv_0_lt_compat.
  - assert (E : pos_r p ^ 2 = dist p * dist p - pos_phi p ^ 2) by lra.
    replace ((pos_r p / dist p) ^ 2) with (pos_r p ^ 2 / (dist p * dist p)) by (field; lra).
    rewrite E. field. lra.
Qed.
Lemma back_formula p : off_axis p ->
  vel_r (back_velocity (back_position p)) = (Rabs (pos_r p) * vel_r p - pos_phi p * vel_phi p) / dist p /\
  vel_phi (back_velocity (back_position p)) = (pos_phi p * vel_r p + Rabs (pos_r p) * vel_phi p) / dist p.
Proof.
  intros H. pose proof (dist_pos p H) as P. unfold back_velocity, back_position. cbn [vel_r vel_phi p_sin pos_r pos_phi].
  rewrite back_dist, cos_formula by auto. split; field; lra.
Qed.

Theorem C32_back_to_plane : forall p, off_axis p ->
  let p' := back_velocity (back_position p) in
  pos_phi p' = 0 /\ pos_r p' = dist p /\ pos_z p' = pos_z p /\ vel_z p' = vel_z p /\ weight p' = weight p /\
  vel_r p' ^ 2 + vel_phi p' ^ 2 = vel_r p ^ 2 + vel_phi p ^ 2.
Proof.
  intros p H. cbv zeta. destruct (back_formula p H) as [A B]. rewrite A, B.
  pose proof (dist_pos p H) as P. pose proof (dist_sqr p) as Q.
  split; [reflexivity|]. split; [cbn [back_velocity back_position pos_r]; apply back_dist|].
  repeat (split; [reflexivity|]).
  assert (E : Rabs (pos_r p) * Rabs (pos_r p) = pos_r p ^ 2).
  { rewrite <- Rabs_mult. rewrite Rabs_right; [ring|]. apply Rle_ge. nra. }
  replace (((Rabs (pos_r p) * vel_r p - pos_phi p * vel_phi p) / dist p) ^ 2 + ((pos_phi p * vel_r p + Rabs (pos_r p) * vel_phi p) / dist p) ^ 2)
    with ((Rabs (pos_r p) * Rabs (pos_r p) + pos_phi p ^ 2) * (vel_r p ^ 2 + vel_phi p ^ 2) / (dist p * dist p)) by (field; lra).
  rewrite E, Q. field. rewrite <- Q. apply Rgt_not_eq. now apply Rmult_lt_0_compat.
Qed.
(** a reflection in between does not change this: it keeps the stored sine *)
Theorem C32_energy_with_reflection : forall g fuel p p', off_axis p ->
  reflect g fuel (back_position p) = Some p' ->
  vel_r (back_velocity p') ^ 2 + vel_phi (back_velocity p') ^ 2 = vel_r p' ^ 2 + vel_phi p' ^ 2.
Proof.
  intros g fuel p p' H E.
  assert (S : p_sin p' = pos_phi p / dist p).
  { unfold reflect in E. destruct (refl_loop _ _ _) as [[[[a b] c] d]|]; [|discriminate].
    injection E as <-. cbn [p_sin back_position]. now rewrite back_dist. }
  unfold back_velocity. cbn [vel_r vel_phi]. rewrite S, cos_formula by auto.
  pose proof (dist_pos p H) as P. pose proof (dist_sqr p) as Q.
  assert (A : Rabs (pos_r p) * Rabs (pos_r p) = pos_r p ^ 2).
  { rewrite <- Rabs_mult. rewrite Rabs_right; [ring|]. apply Rle_ge. nra. }
  match goal with |- ?l = ?r => replace l with ((Rabs (pos_r p) * Rabs (pos_r p) + pos_phi p ^ 2) * r / (dist p * dist p)) by (field; lra) end.
  rewrite A, Q. field. rewrite <- Q. apply Rgt_not_eq. now apply Rmult_lt_0_compat.
Qed.
Example C32_example : off_axis {| pos_r := 3; pos_phi := 4; pos_z := 1; vel_r := 1; vel_phi := 2; vel_z := 3; p_sin := 0; weight := 1 |}.
Proof. left. cbn. lra. Qed.

(** specification: the components along and across the new radius vector (r, phi)/R *)
Definition rotated_r (p : part) : R := (pos_r p * vel_r p + pos_phi p * vel_phi p) / dist p.
Definition rotated_phi (p : part) : R := (pos_r p * vel_phi p - pos_phi p * vel_r p) / dist p.
(** It is the right rotation exactly when the particle did not leave the half plane, or has no velocity there. *)
Theorem C33_rotation_partial : forall p, off_axis p -> 0 <= pos_r p ->
  (vel_r (back_velocity (back_position p)) = rotated_r p <-> pos_phi p * vel_phi p = 0) /\
  (vel_phi (back_velocity (back_position p)) = rotated_phi p <-> pos_phi p * vel_r p = 0).
Proof.
  intros p H Hr. pose proof (dist_pos p H) as P. destruct (back_formula p H) as [A B]. rewrite A, B.
  rewrite Rabs_right by lra. unfold rotated_r, rotated_phi.
  assert (D : forall x y, x / dist p = y / dist p -> x = y).
  { intros x y E. apply Rmult_eq_reg_r with (/ dist p); [exact E|]. apply Rinv_neq_0_compat. lra. }
  split; split; intros E; try (apply D in E; lra); unfold Rdiv; f_equal; lra.
Qed.
(** A particle flying past the axis on a straight line: it moves outwards, the code makes it move inwards. *)
Theorem C33_rotation_refuted : forall r v dt, 0 < r -> 0 < v -> 0 < dt ->
  let p := mover dt {| pos_r := r; pos_phi := 0; pos_z := 0; vel_r := 0; vel_phi := v; vel_z := 0; p_sin := 0; weight := 1 |} in
  0 < rotated_r p /\ vel_r (back_velocity (back_position p)) = - rotated_r p.
Proof.
  intros r v dt Hr Hv Ht p. assert (H : off_axis p) by (left; unfold p, mover; cbn; lra).
  pose proof (dist_pos p H) as P. destruct (back_formula p H) as [A _]. rewrite A. unfold rotated_r.
  assert (E1 : vel_r p = 0) by reflexivity. assert (E2 : pos_phi p = v * dt) by (unfold p, mover; cbn; lra).
  assert (E3 : vel_phi p = v) by reflexivity. rewrite E1, E2, E3. split.
  - apply Rmult_lt_0_compat; [|now apply Rinv_0_lt_compat].
    assert (0 < v * dt) by (apply Rmult_lt_0_compat; lra). assert (0 < v * dt * v) by (apply Rmult_lt_0_compat; lra). lra.
  - field. lra.
Qed.
(** Crossing the axis (negative x) loses the sign of the radial velocity. *)
Theorem C33_crossing_refuted : forall x v, x < 0 -> v < 0 ->
  let p := {| pos_r := x; pos_phi := 0; pos_z := 0; vel_r := v; vel_phi := 0; vel_z := 0; p_sin := 0; weight := 1 |} in
  0 < rotated_r p /\ vel_r (back_velocity (back_position p)) = - rotated_r p.
Proof.
  intros x v Hx Hv p. assert (H : off_axis p) by (left; unfold p; cbn; lra).
  pose proof (dist_pos p H) as P. destruct (back_formula p H) as [A _]. rewrite A. unfold rotated_r, p at 1 2 3 4 6 7 8 9 11 12 13 14. cbn [pos_r pos_phi vel_r vel_phi].
  rewrite Rabs_left by lra. split; [|fold p; field; lra].
  apply Rmult_lt_0_compat; [nra|]. now apply Rinv_0_lt_compat.
Qed.

(** * C29: initial weights *)
Definition total (l : list R) : R := fold_right Rplus 0 l.
Lemma fold_left_sum (f : R -> R) l : forall a, fold_left (fun acc r => acc + f r) l a = a + total (map f l).
Proof. induction l as [|x l IH]; intros a; cbn [fold_left map total fold_right]; [lra|]. rewrite IH. unfold total. lra. Qed.
Lemma total_scale c (f : R -> R) l : total (map (fun r => c * f r) l) = c * total (map f l).
Proof. induction l as [|x l IH]; cbn [map total fold_right]; [lra|]. unfold total in IH. rewrite IH. lra. Qed.
Lemma ring_volume_pos dr dz r : 0 < dr -> 0 < dz -> 0 < r -> 0 < ring_volume dr dz r.
Proof.
  intros H1 H2 H3. unfold ring_volume. pose proof PI_RGT_0.
  destruct (Rltb (dr / 2) r); mpos.
Qed.
Lemma total_ring_pos dr dz rs : 0 < dr -> 0 < dz -> Forall (fun r => 0 < r) rs -> rs <> [] ->
  0 < total (map (ring_volume dr dz) rs).
Proof.
  intros H1 H2 H Hne. destruct H as [|r rs Hr H]; [congruence|]. cbn [map total fold_right].
  pose proof (ring_volume_pos dr dz r H1 H2 Hr).
  assert (0 <= fold_right Rplus 0 (map (ring_volume dr dz) rs)); [|lra].
  induction H as [|x l Hx Hl IH]; cbn [map fold_right]; [lra|]. pose proof (ring_volume_pos dr dz x H1 H2 Hx).
  assert (0 <= fold_right Rplus 0 (map (ring_volume dr dz) l)) by (apply IH; discriminate). lra.
Qed.
(** specification: mean density times the volume of the cylindrical ring between the radii [ra] and [rb] *)
Definition real_particles (d0 d1 ra rb len : R) : R := (d0 + d1) / 2 * (PI * (rb ^ 2 - ra ^ 2)) * len.

Theorem C29_density : forall g d0 d1 macro rs,
  0 < g_dr g -> 0 < g_dz g -> (0 < macro)%Z -> rs <> [] -> Forall (fun r => 0 < r) rs ->
  let top := IZR (g_top g) - (if w_rr g then 1 else 0) in
  let len := (IZR (g_right g) - IZR (g_left g) - (if w_zz g then 1 else 0)) * g_dz g in
  total (set_weight g d0 d1 macro rs) = real_particles d0 d1 (IZR (g_bot g) * g_dr g) (top * g_dr g) len /\
  (0 < d0 + d1 -> IZR (g_bot g) < top -> (0 <= g_bot g)%Z -> 0 < len -> Forall (fun w => 0 < w) (set_weight g d0 d1 macro rs)).
Proof.
  intros g d0 d1 macro rs Hdr Hdz Hm Hne Hrs top len.
  assert (M : 0 < IZR macro) by (apply IZR_lt in Hm; lra).
  pose proof (total_ring_pos _ _ _ Hdr Hdz Hrs Hne) as V.
  assert (EN : N_total g d0 d1 = real_particles d0 d1 (IZR (g_bot g) * g_dr g) (top * g_dr g) len).
  { unfold N_total, real_particles, filled_z_size, top_r_num. fold top. unfold len. rewrite minus_IZR.
    destruct (w_zz g); field. }
  assert (EV : v_sum g rs = total (map (ring_volume (g_dr g) (g_dz g)) rs)) by (unfold v_sum; rewrite fold_left_sum; lra).
  split.
  - unfold set_weight, v_avg. rewrite EV, EN.
    set (T := total _) in *. set (N := real_particles _ _ _ _ _).
    replace (total _) with (total (map (fun r => N / T * ring_volume (g_dr g) (g_dz g) r) rs)).
    + rewrite total_scale. fold T. field. lra.
    + f_equal. apply map_ext. intros r. field. lra.
  - intros Hd Htop Hbot Hlen. unfold set_weight. rewrite Forall_map. apply Forall_impl with (2 := Hrs).
    intros r Hr. pose proof (ring_volume_pos _ _ r Hdr Hdz Hr) as Vr. unfold v_avg. rewrite EV, EN.
    set (T := total _) in *.
    assert (P : 0 < real_particles d0 d1 (IZR (g_bot g) * g_dr g) (top * g_dr g) len).
    { unfold real_particles. apply IZR_le in Hbot. pose proof PI_RGT_0.
      assert (0 < (top * g_dr g) ^ 2 - (IZR (g_bot g) * g_dr g) ^ 2).
      { replace ((top * g_dr g) ^ 2 - (IZR (g_bot g) * g_dr g) ^ 2) with ((top - IZR (g_bot g)) * (top + IZR (g_bot g)) * (g_dr g * g_dr g)) by ring.
        apply Rmult_lt_0_compat; apply Rmult_lt_0_compat; lra. }
      apply Rmult_lt_0_compat; [|lra]. apply Rmult_lt_0_compat; [lra|]. apply Rmult_lt_0_compat; lra. }
    apply Rmult_lt_0_compat; [apply Rmult_lt_0_compat; auto; now apply Rinv_0_lt_compat|].
    apply Rmult_lt_0_compat; auto. apply Rinv_0_lt_compat. apply Rmult_lt_0_compat; auto. now apply Rinv_0_lt_compat.
Qed.
Example C29_example : 0 < g_dr g_ex /\ 0 < g_dz g_ex /\ Forall (fun r => 0 < r) [1/4; 2; 5; 9] /\
  real_particles 3 5 0 (9 * 1) 19 = 4 * (PI * 81) * 19.
Proof.
  unfold g_ex; cbn [g_dr g_dz]. split; [lra|]. split; [lra|]. split; [repeat constructor; lra|].
  unfold real_particles. field.
Qed.

(** The placement follows the linear density profile: a uniform sample [u] lands where the profile has accumulated
    the fraction [u] of the particles. *)
Theorem C29_linear_profile : forall L dl dn u, 0 < L -> dn <> 0 -> 0 <= dl -> 0 <= dl + dn -> 0 <= u <= 1 ->
  let z := linear_profile_z L dl dn u in
  0 <= z <= L /\ dl * z + dn * z ^ 2 / (2 * L) = u * (dl * L + dn * L / 2).
Proof.
  intros L dl dn u HL Hdn Hdl Hdr Hu. cbv zeta. unfold linear_profile_z.
  set (X := dl ^ 2 + u * (2 * dl * dn + dn ^ 2)). set (s := sqrt X).
  assert (EX : X = (1 - u) * dl ^ 2 + u * (dl + dn) ^ 2) by (unfold X; ring).
  assert (HX : 0 <= X).
  { rewrite EX. assert (A := pow2_ge_0 dl). assert (B := pow2_ge_0 (dl + dn)).
    assert (0 <= (1 - u) * dl ^ 2) by (apply Rmult_le_pos; lra). assert (0 <= u * (dl + dn) ^ 2) by (apply Rmult_le_pos; lra). lra. }
  assert (Hs : 0 <= s) by apply sqrt_pos.
  assert (Es : s * s = X) by (now apply sqrt_sqrt).
  split.
  - assert (T : 0 <= (s - dl) / dn <= 1).
    { destruct (Rtotal_order dn 0) as [N|[N|N]]; [|contradiction|].
      - assert (D0 : 0 <= dl ^ 2 - (dl + dn) ^ 2) by (replace (dl ^ 2 - (dl + dn) ^ 2) with (- dn * (dl + (dl + dn))) by ring; apply Rmult_le_pos; lra).
        assert (D1 : 0 <= u * (dl ^ 2 - (dl + dn) ^ 2)) by (apply Rmult_le_pos; lra).
        assert (D2 : 0 <= (1 - u) * (dl ^ 2 - (dl + dn) ^ 2)) by (apply Rmult_le_pos; lra).
        assert (s <= dl) by (apply Rsqr_incr_0; unfold Rsqr; try lra; rewrite Es, EX; lra).
        assert (dl + dn <= s) by (apply Rsqr_incr_0; unfold Rsqr; try lra; rewrite Es, EX; lra).
        split; apply Rmult_le_reg_r with (- dn); try lra; replace ((s - dl) / dn * - dn) with (dl - s) by (field; lra); lra.
      - assert (D0 : 0 <= (dl + dn) ^ 2 - dl ^ 2) by (replace ((dl + dn) ^ 2 - dl ^ 2) with (dn * (dl + (dl + dn))) by ring; apply Rmult_le_pos; lra).
        assert (D1 : 0 <= u * ((dl + dn) ^ 2 - dl ^ 2)) by (apply Rmult_le_pos; lra).
        assert (D2 : 0 <= (1 - u) * ((dl + dn) ^ 2 - dl ^ 2)) by (apply Rmult_le_pos; lra).
        assert (dl <= s) by (apply Rsqr_incr_0; unfold Rsqr; try lra; rewrite Es, EX; lra).
        assert (s <= dl + dn) by (apply Rsqr_incr_0; unfold Rsqr; try lra; rewrite Es, EX; lra).
        split; apply Rmult_le_reg_r with dn; try lra; replace ((s - dl) / dn * dn) with (s - dl) by (field; lra); lra. }
    replace (L / dn * (s - dl)) with (L * ((s - dl) / dn)) by (field; lra). split.
    + apply Rmult_le_pos; lra.
    + rewrite <- (Rmult_1_r L) at 2. apply Rmult_le_compat_l; lra.
  - replace (dl * (L / dn * (s - dl)) + dn * (L / dn * (s - dl)) ^ 2 / (2 * L))
      with (L / (2 * dn) * (s * s - dl ^ 2)) by (field; lra).
    rewrite Es. unfold X. field. lra.
Qed.

(** * C34, C35: weighting to the grid *)
(** volumes used for the lower (own) and the upper (next) node row of the cell of a particle *)
Definition own_volume (i : Z) (dr dz pr : R) : R :=
  if Rltb (dr / 2) pr && Rleb pr dr then PI * dz * dr ^ 2 else PI * dz * dr ^ 2 * (2 * IZR i + 1).
Definition next_volume (i : Z) (dr dz : R) : R := PI * dz * dr ^ 2 * (2 * IZR i + 2).

Lemma cell_bounds pos dx : 0 < dx -> IZR (cell_number pos dx) * dx <= pos < (IZR (cell_number pos dx) + 1) * dx.
Proof.
  intros H. unfold cell_number. destruct (Int_part_bounds (pos / dx)) as [A B].
  replace pos with (pos / dx * dx) at 2 3 by (field; lra). split.
  - apply Rmult_le_compat_r; lra.
  - apply Rmult_lt_compat_r; lra.
Qed.
Lemma cell_nonneg pos dx : 0 < dx -> 0 <= pos -> (0 <= cell_number pos dx)%Z.
Proof. intros. unfold cell_number. apply Int_part_nonneg. apply Rmult_le_pos; [lra|]. left. now apply Rinv_0_lt_compat. Qed.
Lemma cell_zero pos dx : 0 < dx -> 0 <= pos < dx -> cell_number pos dx = 0%Z.
Proof.
  intros. unfold cell_number. apply Int_part_unique. split.
  - apply Rmult_le_pos; [lra|]. left. now apply Rinv_0_lt_compat.
  - apply Rmult_lt_reg_r with dx; [lra|]. replace (pos / dx * dx) with pos by (field; lra). lra.
Qed.

Theorem C34_weighting : forall dr dz bottom left pr pz w, 0 < dr -> 0 < dz -> 0 <= pr -> 0 <= pz -> 0 <= w ->
  let i := cell_number pr dr in let k := cell_number pz dz in
  (0 <= bottom <= i)%Z -> (0 <= left <= k)%Z -> (i + 1 < 2 ^ 32)%Z -> (k + 1 < 2 ^ 32)%Z ->
  exists a b c d,
    weight_cylindrical dr dz bottom left pr pz w =
      [(i - bottom, k - left, a); (i - bottom + 1, k - left, b); (i - bottom, k - left + 1, c); (i - bottom + 1, k - left + 1, d)]%Z /\
    0 <= a /\ 0 <= b /\ 0 <= c /\ 0 <= d /\
    (a + c) * own_volume i dr dz pr + (b + d) * next_volume i dr dz = w.
Proof.
  intros dr dz bottom left pr pz w Hdr Hdz Hpr Hpz Hw i k Hb Hl Hi Hk.
  destruct (cell_bounds pr dr Hdr) as [Ri1 Ri2]. destruct (cell_bounds pz dz Hdz) as [Rk1 Rk2].
  fold i in Ri1, Ri2. fold k in Rk1, Rk2.
  assert (I0 : 0 <= IZR i) by (apply IZR_le, cell_nonneg; auto).
  pose proof PI_RGT_0 as HPI.
  assert (V1 : 0 < cell_volume_i i dr dz) by (unfold cell_volume_i; mpos).
  assert (V2 : 0 < cell_volume_i1 i dr dz) by (unfold cell_volume_i1; mpos).
  assert (V3 : 0 < cyl_vol dz dr) by (unfold cyl_vol; mpos).
  assert (D1 : 0 <= (IZR k + / 2) * dz - (pz - / 2 * dz)) by lra.
  assert (D2 : 0 <= (pz + / 2 * dz) - (IZR k + / 2) * dz) by lra.
  assert (U1 : u32 (i - bottom) = (i - bottom)%Z) by (apply u32_small; lia).
  assert (U2 : u32 (k - left) = (k - left)%Z) by (apply u32_small; lia).
  assert (U3 : u32 (i - bottom + 1) = (i - bottom + 1)%Z) by (apply u32_small; lia).
  assert (U4 : u32 (k - left + 1) = (k - left + 1)%Z) by (apply u32_small; lia).
  assert (EN : next_volume i dr dz = cell_volume_i1 i dr dz) by (unfold next_volume, cell_volume_i1; ring).
  rewrite EN. unfold weight_cylindrical. fold i k. rewrite U1, U2, U3, U4.
  assert (Q : forall rho x v, 0 <= rho -> 0 <= x -> 0 < v -> 0 <= rho * (x / v)).
  { intros. apply Rmult_le_pos; auto. apply Rmult_le_pos; auto. left. now apply Rinv_0_lt_compat. }
  assert (CR : forall z r1 r2, 0 <= z -> 0 <= r1 <= r2 -> 0 <= cyl_rng_vol z r1 r2).
  { intros z r1 r2 Hz Hr. unfold cyl_rng_vol. apply Rmult_le_pos; [apply Rmult_le_pos; lra|]. nra. }
  assert (RHO : forall v, 0 < v -> 0 <= w / v).
  { intros v Hv. apply Rmult_le_pos; auto. left. now apply Rinv_0_lt_compat. }
  assert (SUM1 : forall v1 v2 z1 z2 r2, v1 <> 0 -> v2 <> 0 -> 0 < pr -> z1 + z2 = dz ->
    (w / (2 * PI * dz * dr * pr) * (cyl_rng_vol z1 (pr - / 2 * dr) r2 / v1) + w / (2 * PI * dz * dr * pr) * (cyl_rng_vol z2 (pr - / 2 * dr) r2 / v1)) * v1 +
    (w / (2 * PI * dz * dr * pr) * (cyl_rng_vol z1 r2 (pr + / 2 * dr) / v2) + w / (2 * PI * dz * dr * pr) * (cyl_rng_vol z2 r2 (pr + / 2 * dr) / v2)) * v2 = w).
  { intros v1 v2 z1 z2 r2 A1 A2 A3 A4. unfold cyl_rng_vol. subst dz. field. repeat split; try lra. }
  assert (ZS : (IZR k + / 2) * dz - (pz - / 2 * dz) + ((pz + / 2 * dz) - (IZR k + / 2) * dz) = dz) by field.
  destruct (Rltb dr pr) eqn:C1; [apply Rltb_true in C1|apply Rltb_false in C1].
  - assert (V0 : 0 < 2 * PI * dz * dr * pr) by mpos.
    assert (EO : own_volume i dr dz pr = cell_volume_i i dr dz).
    { unfold own_volume. replace (Rleb pr dr) with false by (symmetry; apply Rleb_false; lra). rewrite andb_false_r.
      unfold cell_volume_i. ring. }
    rewrite EO. do 4 eexists. split; [reflexivity|].
    split; [apply Q; auto; apply CR; auto; lra|]. split; [apply Q; auto; apply CR; auto; nra|].
    split; [apply Q; auto; apply CR; auto; lra|]. split; [apply Q; auto; apply CR; auto; nra|].
    apply SUM1; lra.
  - destruct (Rleb pr (dr / 2)) eqn:C2; [apply Rleb_true in C2|apply Rleb_false in C2].
    + assert (EO : own_volume i dr dz pr = cell_volume_i i dr dz).
      { unfold own_volume. replace (Rltb (dr / 2) pr) with false by (symmetry; apply Rltb_false; lra). cbn [andb].
        unfold cell_volume_i. ring. }
      rewrite EO.
      assert (W0 : 0 < 2 * pr * pr + dr * dr / 2).
      { assert (0 < dr * dr) by mpos. assert (0 <= pr * pr) by (apply Rmult_le_pos; lra). lra. }
      assert (V0 : 0 < PI * dz * (2 * pr * pr + dr * dr / 2)) by mpos.
      assert (SQ : 0 <= dr * dr / 2 - pr * dr + pr * pr) by nra.
      do 4 eexists. split; [reflexivity|].
      split; [apply Q; auto; apply Rmult_le_pos; auto; apply Rmult_le_pos; lra|]. split; [apply Q; auto; apply CR; auto; lra|].
      split; [apply Q; auto; apply Rmult_le_pos; auto; apply Rmult_le_pos; lra|]. split; [apply Q; auto; apply CR; auto; lra|].
      clear - ZS V1 V2 W0 HPI Hdz Hdr. unfold cyl_rng_vol.
      set (z1 := (IZR k + / 2) * dz - (pz - / 2 * dz)) in *. set (z2 := pz + / 2 * dz - (IZR k + / 2) * dz) in *.
      clearbody z1 z2. set (v1 := cell_volume_i i dr dz) in *. set (v2 := cell_volume_i1 i dr dz) in *. clearbody v1 v2.
      subst dz. field. repeat split; try lra; nra.
    + assert (V0 : 0 < 2 * PI * dz * dr * pr) by mpos.
      assert (EO : own_volume i dr dz pr = cyl_vol dz dr).
      { unfold own_volume. replace (Rltb (dr / 2) pr) with true by (symmetry; apply Rltb_true; lra).
        replace (Rleb pr dr) with true by (symmetry; apply Rleb_true; lra). cbn [andb]. unfold cyl_vol. ring. }
      rewrite EO. do 4 eexists. split; [reflexivity|].
      split; [apply Q; auto; apply CR; auto; lra|]. split; [apply Q; auto; apply CR; auto; nra|].
      split; [apply Q; auto; apply CR; auto; lra|]. split; [apply Q; auto; apply CR; auto; nra|].
      apply SUM1; lra.
Qed.
Example C34_example : cell_number (9/4) (1/2) = 4%Z /\ cell_number 7 1 = 7%Z.
Proof. split; apply Int_part_unique; lra. Qed.

(** Particles of the same cell (and the same side of the axis cell) use the same volume for a node. *)
Theorem C35_same_cell_partial : forall dr dz pr pr', 0 < dr -> 0 <= pr -> 0 <= pr' ->
  cell_number pr dr = cell_number pr' dr -> pr <> dr -> pr' <> dr ->
  own_volume (cell_number pr dr) dr dz pr = own_volume (cell_number pr' dr) dr dz pr' /\ next_volume (cell_number pr dr) dr dz = next_volume (cell_number pr' dr) dr dz.
Proof.
  intros dr dz pr pr' Hdr H1 H2 E N1 N2. split; [|now rewrite E].
  assert (G : forall x, 0 <= x -> x <> dr -> own_volume (cell_number x dr) dr dz x = PI * dz * dr ^ 2 * (2 * IZR (cell_number x dr) + 1)).
  { intros x Hx Nx. unfold own_volume. destruct (Rltb (dr / 2) x && Rleb x dr) eqn:C; [|reflexivity].
    apply andb_true_iff in C. destruct C as [_ C]. apply Rleb_true in C.
    rewrite cell_zero by lra. ring. }
  rewrite !G by auto. now rewrite E.
Qed.
(** Node i >= 1 has the volume 2i+1 (in units of pi dz dr^2) for a particle in its own cell and 2i for a particle in
    the cell below. *)
Theorem C35_node_volume_refuted : forall dr dz pr pr' i, 0 < dr -> 0 < dz -> (1 <= i)%Z ->
  cell_number pr dr = i -> cell_number pr' dr = (i - 1)%Z -> dr < pr ->
  own_volume (cell_number pr dr) dr dz pr = PI * dz * dr ^ 2 * (2 * IZR i + 1) /\ next_volume (cell_number pr' dr) dr dz = PI * dz * dr ^ 2 * (2 * IZR i) /\ next_volume (cell_number pr' dr) dr dz < own_volume (cell_number pr dr) dr dz pr.
Proof.
  intros dr dz pr pr' i Hdr Hdz Hi E1 E2 Hp.
  assert (A : own_volume (cell_number pr dr) dr dz pr = PI * dz * dr ^ 2 * (2 * IZR i + 1)).
  { rewrite E1. unfold own_volume. replace (Rleb pr dr) with false by (symmetry; apply Rleb_false; lra). now rewrite andb_false_r. }
  assert (B : next_volume (cell_number pr' dr) dr dz = PI * dz * dr ^ 2 * (2 * IZR i)).
  { rewrite E2. unfold next_volume. rewrite minus_IZR. ring. }
  split; [exact A|]. split; [exact B|]. rewrite A, B. pose proof PI_RGT_0.
  assert (0 < PI * dz * dr ^ 2); [|nra].
  apply Rmult_lt_0_compat; [mpos|]. apply pow_lt. lra.
Qed.
(** There are no node volumes with which the density map integrates to the weight of every particle. *)
Definition integral (V : Z -> R) (l : list (Z * Z * R)) : R := fold_right (fun '(i, _, x) s => V i * x + s) 0 l.
Theorem C35_integral_refuted : forall dr dz, 0 < dr -> 0 < dz ->
  ~ exists V : Z -> R, forall pr pz, dr < pr -> 0 <= pz -> integral V (weight_cylindrical dr dz 0 0 pr pz 1) = 1.
Proof.
  intros dr dz Hdr Hdz (V & HV). pose proof PI_RGT_0 as HPI.
  assert (K0 : cell_number 0 dz = 0%Z) by (apply cell_zero; lra).
  assert (C : forall x i, IZR i <= x < IZR i + 1 -> cell_number (x * dr) dr = i).
  { intros x i Hx. unfold cell_number. apply Int_part_unique. replace (x * dr / dr) with x by (field; lra). exact Hx. }
  assert (F : forall x i, (0 <= i < 1000)%Z -> 1 < x -> IZR i <= x < IZR i + 1 ->
     V i * ((((IZR i + / 2) ^ 2 - (x - / 2) ^ 2) / (2 * x)) / (PI * dz * dr ^ 2 * (2 * IZR i + 1))) +
     V (i + 1)%Z * ((((x + / 2) ^ 2 - (IZR i + / 2) ^ 2) / (2 * x)) / (PI * dz * dr ^ 2 * (2 * IZR i + 2))) = 1).
  { intros x i Hi Hx Hc. assert (Hp : dr < x * dr) by nra.
    specialize (HV (x * dr) 0 Hp ltac:(lra)). unfold weight_cylindrical in HV.
    rewrite (C x i Hc), K0 in HV.
    replace (Rltb dr (x * dr)) with true in HV by (symmetry; apply Rltb_true; exact Hp).
    rewrite !Z.sub_0_r, (u32_small i), (u32_small (i + 1)) in HV by lia.
    unfold integral, cyl_rng_vol, cell_volume_i, cell_volume_i1 in HV. cbn [fold_right] in HV.
    assert (I0 : 0 <= IZR i) by (apply IZR_le; lia).
    etransitivity; [|exact HV]. field. repeat split; try lra. }
  assert (F2 := F 2 2%Z ltac:(lia) ltac:(lra) ltac:(lra)).
  assert (F25 := F (5 / 2) 2%Z ltac:(lia) ltac:(lra) ltac:(lra)).
  assert (F3 := F 3 3%Z ltac:(lia) ltac:(lra) ltac:(lra)).
  assert (P : 0 < PI * dz * dr ^ 2) by (apply Rmult_lt_0_compat; [mpos|apply pow_lt; lra]).
  set (u := PI * dz * dr ^ 2) in *. clearbody u. change (2 + 1)%Z with 3%Z in *. change (3 + 1)%Z with 4%Z in *.
  assert (V2 : V 2%Z = u * 5).
  { replace (V 2%Z) with (u * 5 * (V 2%Z * (((2 + / 2) ^ 2 - (2 - / 2) ^ 2) / (2 * 2) / (u * (2 * 2 + 1))) +
      V 3%Z * (((2 + / 2) ^ 2 - (2 + / 2) ^ 2) / (2 * 2) / (u * (2 * 2 + 2))))) by (field; lra).
    rewrite F2. ring. }
  assert (V3 : V 3%Z = u * 7).
  { replace (V 3%Z) with (u * 7 * (V 3%Z * (((3 + / 2) ^ 2 - (3 - / 2) ^ 2) / (2 * 3) / (u * (2 * 3 + 1))) +
      V 4%Z * (((3 + / 2) ^ 2 - (3 + / 2) ^ 2) / (2 * 3) / (u * (2 * 3 + 2))))) by (field; lra).
    rewrite F3. ring. }
  rewrite V2, V3 in F25.
  assert (E : 9 / 20 + 77 / 120 = 1); [|lra].
  etransitivity; [|exact F25]. field. lra.
Qed.

Print Assumptions C29_density.
Print Assumptions C29_linear_profile.
Print Assumptions C30_terminates.
Print Assumptions C30_reflect_partial.
Print Assumptions C30_untouched.
Print Assumptions C30_zero_refuted.
Print Assumptions C31_beam_reflect.
Print Assumptions C32_back_to_plane.
Print Assumptions C32_energy_with_reflection.
Print Assumptions C33_rotation_partial.
Print Assumptions C33_rotation_refuted.
Print Assumptions C33_crossing_refuted.
Print Assumptions C34_weighting.
Print Assumptions C35_same_cell_partial.
Print Assumptions C35_node_volume_refuted.
Print Assumptions C35_integral_refuted.
