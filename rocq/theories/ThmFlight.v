(** C124: where a particle goes does not depend on the division into domains. *)
From Coq Require Import Reals Lra Psatz ZifyBool.
From Verif Require Import Base RndUtil DecompModel DecompProofs CollectorModel CollectorProofs ParticleModel ParticleProofs StepModel ThmParticle ThmInit ThmDecomp ThmStep.
Open Scope R_scope.

(** ** specification *)
(** reflection at two walls *)
Definition bounce (lo hi x v : R) : R * R := if Rlt_dec hi x then (2 * hi - x, - v) else if Rlt_dec x lo then (2 * lo - x, - v) else (x, v).
(** the flight of a particle of the r-z plane through an area of N times M cells: uniform motion, turn back to the plane,
    reflection half a cell from the walls of the area, turn of the velocity *)
Definition flight (N M : Z) (dr dz dt : R) (p : part) : part :=
  let x := pos_r p + vel_r p * dt in let y := vel_phi p * dt in
  let r := sqrt (x * x + y * y) in
  let u := bounce (dr / 2) (IZR N * dr - dr / 2) r (vel_r p) in
  let w := bounce (dz / 2) (IZR M * dz - dz / 2) (pos_z p + vel_z p * dt) (vel_z p) in
  let s := y / r in let c := sqrt (1 - s * s) in
  {| pos_r := fst u; pos_phi := 0; pos_z := fst w; vel_r := c * snd u - s * vel_phi p; vel_phi := s * snd u + c * vel_phi p; vel_z := snd w;
     p_sin := s; weight := weight p |}.
(** the move is shorter than the domain by more than one cell and a half *)
Definition small_move (g : geo) (dt : R) (p : part) : Prop :=
  sqrt ((vel_r p * dt) ^ 2 + (vel_phi p * dt) ^ 2) < g_size_r g - 3 / 2 * g_dr g /\ Rabs (vel_z p * dt) < g_size_z g - 3 / 2 * g_dz g.

(** ** one direction *)
Lemma row_bounce lo hi wlo whi d n m i k x0 x1 v : 0 < d -> (2 <= n)%Z -> (0 <= i < m)%Z -> lo = d / 2 -> hi = IZR n * d - d / 2 ->
  wlo = (i =? 0)%Z -> whi = (i =? m - 1)%Z -> 0 <= x0 < IZR n * d -> Rabs (x1 - x0) < IZR n * d - 3 / 2 * d ->
  out1 lo hi wlo whi (fst (iter1 lo hi wlo whi k (x1, v))) = false ->
  (fst (iter1 lo hi wlo whi k (x1, v)) + IZR (n * i) * d, snd (iter1 lo hi wlo whi k (x1, v))) =
  bounce (d / 2) (IZR (n * m) * d - d / 2) (x1 + IZR (n * i) * d) v.
Proof.
  intros Hd Hn Hi Elo Ehi Ewlo Ewhi X0 X1 Hout.
  assert (N2 : 2 <= IZR n) by (apply IZR_le; lia). set (L := IZR n * d) in *.
  assert (LD : 2 * d <= L) by (unfold L; nra).
  assert (A1 : - (L - 3 / 2 * d) < x1 - x0 < L - 3 / 2 * d) by (unfold Rabs in X1; destruct (Rcase_abs (x1 - x0)); lra).
  assert (I0 : (i = 0)%Z \/ 1 <= IZR i) by (destruct (Z.eq_dec i 0); [now left|right; apply IZR_le; lia]).
  assert (I1 : (i = m - 1)%Z \/ IZR i + 2 <= IZR m) by (destruct (Z.eq_dec i (m - 1)); [now left|right; rewrite <- plus_IZR; apply IZR_le; lia]).
  assert (EB : IZR (n * i) * d = IZR i * L) by (rewrite mult_IZR; unfold L; ring).
  assert (ET : IZR (n * m) * d = IZR m * L) by (rewrite mult_IZR; unfold L; ring).
  rewrite EB, ET. clear EB ET.
  assert (E : pass1 lo hi wlo whi (x1, v) = if Rltb hi x1 && whi then (hi * 2 - x1, - v) else if Rltb x1 lo && wlo then (2 * lo - x1, - v) else (x1, v)).
  { unfold pass1, up1, dn1. cbn [fst snd]. destruct (Rltb hi x1) eqn:H1; cbn [andb].
    - destruct whi eqn:W; cbn [andb fst snd].
      + replace (Rltb (hi * 2 - x1) lo) with false by (symmetry; apply Rltb_false; apply Rltb_true in H1; lra). reflexivity.
      + apply Rltb_true in H1. replace (Rltb x1 lo) with false by (symmetry; apply Rltb_false; lra). reflexivity.
    - cbn [fst snd]. destruct (Rltb x1 lo) eqn:H2; [|reflexivity]. destruct wlo; [|reflexivity]. cbn [andb]. apply Rltb_true in H2.
      replace (Rltb (2 * lo - x1) lo) with false by (symmetry; apply Rltb_false; lra). reflexivity. }
  rewrite (iter1_once _ _ _ _ k (x1, v)).
  - rewrite E. clear E Hout. unfold bounce.
    assert (Top : whi = true -> IZR m * L = IZR i * L + L).
    { intros W. rewrite Ewhi in W. assert (i = m - 1)%Z by lia. subst i. rewrite minus_IZR. ring. }
    assert (NoTop : whi = false -> IZR i * L + 2 * L <= IZR m * L).
    { intros W. destruct I1 as [I1|I1]; [lia|]. assert ((IZR i + 2) * L <= IZR m * L) by (apply Rmult_le_compat_r; lra). lra. }
    assert (Bot : wlo = true -> IZR i * L = 0) by (intros W; assert (i = 0)%Z by lia; subst i; lra).
    assert (NoBot : wlo = false -> L <= IZR i * L) by (intros W; destruct I0 as [I0|I0]; [lia|nra]).
    destruct (Rltb hi x1) eqn:H1; [apply Rltb_true in H1|apply Rltb_false in H1]; (destruct (Rltb x1 lo) eqn:H2; [apply Rltb_true in H2|apply Rltb_false in H2]);
    destruct whi, wlo; cbn [andb fst snd];
    repeat match goal with H : true = true -> _ |- _ => specialize (H eq_refl) | H : false = false -> _ |- _ => specialize (H eq_refl) end;
    repeat match goal with |- context [Rlt_dec ?a ?b] => destruct (Rlt_dec a b) end; try (exfalso; lra); f_equal; lra.
  - rewrite E. clear E Hout. unfold out1. destruct (Rltb hi x1) eqn:H1; [apply Rltb_true in H1|apply Rltb_false in H1]; (destruct (Rltb x1 lo) eqn:H2; [apply Rltb_true in H2|apply Rltb_false in H2]);
    destruct whi, wlo; cbn [andb fst snd]; rewrite ?andb_false_r, ?andb_true_r; cbn [orb]; try reflexivity; try (apply orb_false_iff; split); try reflexivity; try (apply Rltb_false; lra); exfalso; lra.
  - exact Hout.
Qed.

Lemma radius_change2 r a b L : 0 <= r -> sqrt (a ^ 2 + b ^ 2) < L -> Rabs (sqrt ((r + a) * (r + a) + (0 + b) * (0 + b)) - r) < L.
Proof.
  intros Hr H. assert (S0 := sqrt_pos (a ^ 2 + b ^ 2)). apply radius_change; auto; [lra|].
  assert (Q : 0 <= a ^ 2 + b ^ 2) by nra. rewrite <- (sqrt_sqrt _ Q). nra.
Qed.

Section Flight.
Variables (a : area) (dr dz : R).
Hypothesis HA : good_area a.
Hypothesis Hdr : 0 < dr.
Hypothesis Hdz : 0 < dz.
(** at least two cells in each domain *)
Hypothesis Hwr : (2 * rd_ a <= nr a)%Z.
Hypothesis Hwz : (2 * zd_ a <= nz a)%Z.
Lemma flight_particle i j p : (0 <= i < rd_ a)%Z -> (0 <= j < zd_ a)%Z -> home (part_cr dr) (part_cz dz) a i j p ->
  (- 2 ^ 31 <= cell_number (pos_r p) dr < 2 ^ 31)%Z -> (- 2 ^ 31 <= cell_number (pos_z p) dz < 2 ^ 31)%Z ->
  on_plane p -> forall dt, small_move (domain_geo a dr dz i j) dt p -> avoids_zero (domain_geo a dr dz i j) dt p ->
  advanced (domain_geo a dr dz i j) dt p (flight (nr a) (nz a) dr dz dt p).
Proof using HA Hdr Hdz Hwr Hwz.
  intros Hi Hj Hh Ir Iz [Pr Pphi] dt [M1 M2] [Z1 Z2].
  destruct (divided a HA Hwr Hwz) as (qr & qz & E1 & E2 & _ & _ & P1 & P2).
  assert (Q1 : (2 <= qr)%Z) by nia. assert (Q2 : (2 <= qz)%Z) by nia.
  destruct HA as (S1 & S2 & B1 & B2 & _). rewrite E1 in S1. rewrite E2 in S2.
  destruct Hh as [H1 H2]. rewrite E1, !bound_mult in H1 by (auto; lia). rewrite E2, !bound_mult in H2 by (auto; lia).
  assert (CR : part_cr dr p = cell_number (pos_r p) dr) by (unfold part_cr; apply s32_small; lia).
  assert (CZ : part_cz dz p = cell_number (pos_z p) dz) by (unfold part_cz; apply s32_small; lia).
  rewrite CR in H1. rewrite CZ in H2.
  destruct (geo_wide a dr dz HA Hdr Hdz Hwr Hwz i j) as [[W1 W2] [W3 W4]].
  set (g := domain_geo a dr dz i j) in *.
  assert (Gr : g_size_r g = IZR qr * dr) by (unfold g, domain_geo; cbn; rewrite E1; apply size_eq; auto).
  assert (Gz : g_size_z g = IZR qz * dz) by (unfold g, domain_geo; cbn; rewrite E2; apply size_eq; auto).
  assert (Gb : g_bot g = (qr * i)%Z) by (unfold g, domain_geo; cbn; rewrite E1; apply bound_mult; auto; lia).
  assert (Gl : g_left g = (qz * j)%Z) by (unfold g, domain_geo; cbn; rewrite E2; apply bound_mult; auto; lia).
  rewrite Gr in M1. rewrite Gz in M2. change (g_dr g) with dr in M1. change (g_dz g) with dz in M2.
  set (q := back_position (mover dt p)) in *.
  destruct (loop_stops g W1 W3 W2 W4 (local_r g q, vel_r q) (local_z g q, vel_z q)) as (n & N1 & N2).
  cbn [fst snd] in N2. specialize (N2 Z1 Z2). destruct N2 as [O1 O2].
  assert (Rq : pos_r q = sqrt ((pos_r p + vel_r p * dt) * (pos_r p + vel_r p * dt) + (0 + vel_phi p * dt) * (0 + vel_phi p * dt))).
  { unfold q. cbn. now rewrite Pphi. }
  assert (Zq : pos_z q = pos_z p + vel_z p * dt) by reflexivity.
  assert (DRp : Rabs (pos_r q - pos_r p) < IZR qr * dr - 3 / 2 * dr) by (rewrite Rq; apply radius_change2; auto; lra).
  assert (DZp : Rabs (pos_z q - pos_z p) < IZR qz * dz - 3 / 2 * dz) by (rewrite Zq; replace (pos_z p + vel_z p * dt - pos_z p) with (vel_z p * dt) by ring; auto).
  assert (C1 : IZR (qr * i) * dr <= pos_r p < IZR (qr * i) * dr + IZR qr * dr).
  { set (c := cell_number (pos_r p) dr) in *. pose proof (proj1 (cell_number_spec (pos_r p) dr c Hdr) eq_refl) as [X Y].
    assert (IZR (qr * i) <= IZR c) by (apply IZR_le; lia). assert (IZR c + 1 <= IZR (qr * i) + IZR qr) by (rewrite <- !plus_IZR; apply IZR_le; lia).
    split; nra. }
  assert (C2 : IZR (qz * j) * dz <= pos_z p < IZR (qz * j) * dz + IZR qz * dz).
  { set (c := cell_number (pos_z p) dz) in *. pose proof (proj1 (cell_number_spec (pos_z p) dz c Hdz) eq_refl) as [X Y].
    assert (IZR (qz * j) <= IZR c) by (apply IZR_le; lia). assert (IZR c + 1 <= IZR (qz * j) + IZR qz) by (rewrite <- !plus_IZR; apply IZR_le; lia).
    split; nra. }
  assert (RR := row_bounce (half_dr g) (radius_wall g) (w_r0 g) (w_rr g) dr qr (rd_ a) i n (pos_r p - IZR (qr * i) * dr) (local_r g q) (vel_r q)
     Hdr Q1 Hi eq_refl ltac:(unfold radius_wall; rewrite Gr; reflexivity) eq_refl eq_refl ltac:(lra)
     ltac:(unfold local_r; rewrite Gb; change (g_dr g) with dr; replace (pos_r q - IZR (qr * i) * dr - (pos_r p - IZR (qr * i) * dr)) with (pos_r q - pos_r p) by ring; exact DRp) O1).
  assert (ZZ := row_bounce (half_dz g) (longitude_wall g) (w_z0 g) (w_zz g) dz qz (zd_ a) j n (pos_z p - IZR (qz * j) * dz) (local_z g q) (vel_z q)
     Hdz Q2 Hj eq_refl ltac:(unfold longitude_wall; rewrite Gz; reflexivity) eq_refl eq_refl ltac:(lra)
     ltac:(unfold local_z; rewrite Gl; change (g_dz g) with dz; replace (pos_z q - IZR (qz * j) * dz - (pos_z p - IZR (qz * j) * dz)) with (pos_z q - pos_z p) by ring; exact DZp) O2).
  exists n. intros fuel Hf. unfold advance. fold q. unfold reflect.
  change (pos_r q - IZR (g_bot g) * g_dr g, pos_z q - IZR (g_left g) * g_dz g, vel_r q, vel_z q)
      with (fst (local_r g q, vel_r q), fst (local_z g q, vel_z q), snd (local_r g q, vel_r q), snd (local_z g q, vel_z q)).
  rewrite (N1 fuel) by auto.
  set (u := iter1 _ _ _ _ n (local_r g q, vel_r q)) in *. set (w := iter1 _ _ _ _ n (local_z g q, vel_z q)) in *.
  assert (Lr : local_r g q + IZR (qr * i) * dr = pos_r q) by (unfold local_r; rewrite Gb; change (g_dr g) with dr; ring).
  assert (Lz : local_z g q + IZR (qz * j) * dz = pos_z q) by (unfold local_z; rewrite Gl; change (g_dz g) with dz; ring).
  rewrite Lr, <- E1 in RR. rewrite Lz, <- E2 in ZZ. clear Lr Lz.
  f_equal. unfold flight, back_velocity. cbn [pos_r pos_phi pos_z vel_r vel_phi vel_z p_sin weight].
  rewrite Gb, Gl. change (g_dr g) with dr. change (g_dz g) with dz.
  assert (SR : sqrt ((pos_r p + vel_r p * dt) * (pos_r p + vel_r p * dt) + vel_phi p * dt * (vel_phi p * dt)) = pos_r q) by (rewrite Rq; f_equal; ring).
  rewrite SR. change (vel_r q) with (vel_r p) in RR. change (vel_z q) with (vel_z p) in ZZ. rewrite Zq in ZZ. rewrite <- RR, <- ZZ. cbn [fst snd].
  assert (Sn : p_sin q = vel_phi p * dt / pos_r q).
  { unfold q. cbn [p_sin back_position pos_r pos_phi mover]. rewrite Pphi, Rplus_0_l. reflexivity. }
  rewrite Sn. reflexivity.
Qed.
End Flight.

(** A move shorter than the domain by more than a cell and a half ends where the flight through the whole area leads, with the velocity of that flight,
    whatever domain makes it. *)
Theorem C124_flight_partial : forall a dr dz dt i j p, good_area a -> 0 < dr -> 0 < dz -> (2 * rd_ a <= nr a)%Z -> (2 * zd_ a <= nz a)%Z ->
  (0 <= i < rd_ a)%Z -> (0 <= j < zd_ a)%Z -> home (part_cr dr) (part_cz dz) a i j p ->
  (- 2 ^ 31 <= cell_number (pos_r p) dr < 2 ^ 31)%Z -> (- 2 ^ 31 <= cell_number (pos_z p) dz < 2 ^ 31)%Z ->
  on_plane p -> small_move (domain_geo a dr dz i j) dt p -> avoids_zero (domain_geo a dr dz i j) dt p ->
  advanced (domain_geo a dr dz i j) dt p (flight (nr a) (nz a) dr dz dt p).
Proof. intros. apply flight_particle; auto. Qed.
(** ... so that two divisions of the same area lead to the same place *)
Theorem C124_divisions_partial : forall a b dr dz dt i j k l p p1 p2, good_area a -> good_area b -> nr a = nr b -> nz a = nz b -> 0 < dr -> 0 < dz ->
  (2 * rd_ a <= nr a)%Z -> (2 * zd_ a <= nz a)%Z -> (2 * rd_ b <= nr b)%Z -> (2 * zd_ b <= nz b)%Z ->
  (0 <= i < rd_ a)%Z -> (0 <= j < zd_ a)%Z -> (0 <= k < rd_ b)%Z -> (0 <= l < zd_ b)%Z ->
  home (part_cr dr) (part_cz dz) a i j p -> home (part_cr dr) (part_cz dz) b k l p ->
  (- 2 ^ 31 <= cell_number (pos_r p) dr < 2 ^ 31)%Z -> (- 2 ^ 31 <= cell_number (pos_z p) dz < 2 ^ 31)%Z ->
  on_plane p -> small_move (domain_geo a dr dz i j) dt p -> small_move (domain_geo b dr dz k l) dt p -> avoids_zero (domain_geo a dr dz i j) dt p -> avoids_zero (domain_geo b dr dz k l) dt p ->
  advanced (domain_geo a dr dz i j) dt p p1 -> advanced (domain_geo b dr dz k l) dt p p2 -> p1 = p2.
Proof.
  intros a b dr dz dt i j k l p p1 p2 Ha Hb En Em Hdr Hdz A1 A2 B1 B2 Hi Hj Hk Hl Ea Eb Ir Iz O M M' Za Zb P1 P2.
  assert (Fa := C124_flight_partial a dr dz dt i j p Ha Hdr Hdz A1 A2 Hi Hj Ea Ir Iz O M Za).
  assert (Fb := C124_flight_partial b dr dz dt k l p Hb Hdr Hdz B1 B2 Hk Hl Eb Ir Iz O M' Zb).
  rewrite (advanced_unique _ _ _ _ _ P1 Fa), (advanced_unique _ _ _ _ _ P2 Fb), En, Em. reflexivity.
Qed.

(** ** where the division is seen *)
(** the same area in one piece *)
Definition box1 : area := {| nr := 8; nz := 8; rd_ := 1; zd_ := 1 |}.
Lemma box1_good : good_area box1 /\ (2 * rd_ box1 <= nr box1)%Z /\ (2 * zd_ box1 <= nz box1)%Z.
Proof. unfold good_area, sane; cbn. repeat split; try lia; exists 8%Z; reflexivity. Qed.
Lemma bullet_home1 r z v cr cz : cell_number r 1 = cr -> cell_number z 1 = cz -> (0 <= cr < 8)%Z -> (0 <= cz < 8)%Z -> home (part_cr 1) (part_cz 1) box1 0 0 (bullet r z v).
Proof. intros E1 E2 B1 B2. unfold home, part_cr, part_cz. cbn [bullet pos_r pos_z box1 nr nz rd_ zd_]. rewrite E1, E2, !s32_small by lia. vm_compute bound. lia. Qed.
Lemma bullet_radius r v : 0 <= r + v -> sqrt ((r + v * 1) * (r + v * 1) + 0 * 1 * (0 * 1)) = r + v.
Proof. intros H. replace ((r + v * 1) * (r + v * 1) + 0 * 1 * (0 * 1)) with ((r + v) * (r + v)) by ring. now apply sqrt_square. Qed.
Lemma bullet_small g r z v : Rabs v < g_size_r g - 3 / 2 * g_dr g -> 0 < g_size_z g - 3 / 2 * g_dz g -> small_move g 1 (bullet r z v).
Proof.
  intros H1 H2. split; cbn [bullet vel_r vel_phi vel_z].
  - replace ((v * 1) ^ 2 + (0 * 1) ^ 2) with (Rsqr v) by (unfold Rsqr; ring). now rewrite sqrt_Rsqr_abs.
  - now rewrite Rmult_0_l, Rabs_R0.
Qed.
Lemma bullet_off g r z v : 0 <= r + v -> r + v - IZR (g_bot g) * g_dr g <> 0 -> z - IZR (g_left g) * g_dz g <> 0 ->
  (w_r0 g = true \/ r + v - IZR (g_bot g) * g_dr g < 2 * (g_size_r g - g_dr g / 2)) -> z - IZR (g_left g) * g_dz g < 2 * (g_size_z g - g_dz g / 2) ->
  avoids_zero g 1 (bullet r z v).
Proof.
  intros H0 H1 H2 H3 H4. unfold avoids_zero, no_zero, local_r, local_z. cbn [back_position mover bullet pos_r pos_phi pos_z vel_r vel_phi vel_z].
  replace (sqrt ((r + v * 1) * (r + v * 1) + (0 + 0 * 1) * (0 + 0 * 1))) with (r + v).
  2: { rewrite <- (sqrt_square (r + v)) at 1 by auto. f_equal. ring. }
  rewrite Rmult_0_l, Rplus_0_r. repeat split; auto; intros; [destruct H3; [congruence|lra]|lra].
Qed.
(** a particle that comes to a border between two domains passes the outer wall; in the undivided area it is reflected *)
Theorem C124_border_refuted : exists p p1 p2, on_plane p /\ home (part_cr 1) (part_cz 1) box 1 1 p /\ home (part_cr 1) (part_cz 1) box1 0 0 p /\
  small_move (domain_geo box 1 1 1 1) 1 p /\ small_move (domain_geo box1 1 1 0 0) 1 p /\ avoids_zero (domain_geo box1 1 1 0 0) 1 p /\
  advanced (domain_geo box 1 1 1 1) 1 p p1 /\ advanced (domain_geo box1 1 1 0 0) 1 p p2 /\ pos_r p1 = 82 / 10 /\ pos_r p2 = 68 / 10.
Proof.
  assert (C1 : cell_number (72 / 10) 1 = 7%Z) by (apply cell_is; lra). assert (C2 : cell_number 4 1 = 4%Z) by (apply cell_is; lra).
  destruct (bullet_flies (domain_geo box 1 1 1 1) (72 / 10) 4 1) as (p' & A & Pr & Pz); [lra|left; unfold local_z; cbn; lra|].
  assert (O : on_plane (bullet (72 / 10) 4 1)) by (split; cbn; lra).
  assert (H1 : home (part_cr 1) (part_cz 1) box1 0 0 (bullet (72 / 10) 4 1)) by (apply (bullet_home1 _ _ _ 7 4); auto; lia).
  assert (M1 : small_move (domain_geo box1 1 1 0 0) 1 (bullet (72 / 10) 4 1)) by (apply bullet_small; [rewrite Rabs_right by lra|]; cbn; lra).
  assert (Z1 : avoids_zero (domain_geo box1 1 1 0 0) 1 (bullet (72 / 10) 4 1)) by (apply bullet_off; cbn; (lra || now left)).
  exists (bullet (72 / 10) 4 1), p', (flight 8 8 1 1 1 (bullet (72 / 10) 4 1)).
  split; [exact O|]. split; [apply (bullet_home _ _ _ _ _ 7 4); auto; vm_compute; intuition congruence|]. split; [exact H1|].
  split; [apply bullet_small; [rewrite Rabs_right by lra|]; cbn; lra|]. split; [exact M1|]. split; [exact Z1|]. split; [exact A|]. split.
  - destruct box1_good as (G & Gr & Gz).
    apply (C124_flight_partial box1 1 1 1 0 0 (bullet (72 / 10) 4 1)); auto; cbn [bullet pos_r pos_z box1 nr nz rd_ zd_]; try lra; try lia; rewrite ?C1, ?C2; lia.
  - rewrite Pr. split; [lra|]. cbn [flight bullet pos_r pos_z vel_r vel_phi vel_z]. rewrite bullet_radius by lra. unfold bounce.
    repeat match goal with |- context [Rlt_dec ?x ?y] => destruct (Rlt_dec x y) end; cbn [fst]; lra.
Qed.
(** a particle that comes from the inner domain right to the wall of the area is not reflected in the same step; in the undivided area it is *)
Theorem C124_long_refuted : exists p p1 p2, on_plane p /\ home (part_cr 1) (part_cz 1) box 0 0 p /\ home (part_cr 1) (part_cz 1) box1 0 0 p /\
  short_move (domain_geo box 1 1 0 0) 1 p /\ small_move (domain_geo box1 1 1 0 0) 1 p /\ avoids_zero (domain_geo box 1 1 0 0) 1 p /\ avoids_zero (domain_geo box1 1 1 0 0) 1 p /\
  advanced (domain_geo box 1 1 0 0) 1 p p1 /\ advanced (domain_geo box1 1 1 0 0) 1 p p2 /\ pos_r p1 = 77 / 10 /\ pos_r p2 = 73 / 10.
Proof.
  set (r := 39 / 10). set (v := 38 / 10).
  assert (C1 : cell_number r 1 = 3%Z) by (apply cell_is; unfold r; lra). assert (C2 : cell_number 2 1 = 2%Z) by (apply cell_is; lra).
  destruct (bullet_flies (domain_geo box 1 1 0 0) r 2 v) as (p' & A & Pr & Pz); [unfold r, v; lra| |].
  { right. unfold beyond, radius_wall, longitude_wall, half_dr, half_dz. cbn. unfold Rltb.
    destruct (Rlt_dec (r + v - 0 * 1) (1 / 2)); [unfold r, v in *; lra|]. destruct (Rlt_dec (2 - 0 * 1) (1 / 2)); [lra|]. cbn. now rewrite !andb_false_r. }
  assert (O : on_plane (bullet r 2 v)) by (split; cbn; unfold r; lra).
  assert (H1 : home (part_cr 1) (part_cz 1) box1 0 0 (bullet r 2 v)) by (apply (bullet_home1 _ _ _ 3 2); auto; lia).
  assert (M1 : small_move (domain_geo box1 1 1 0 0) 1 (bullet r 2 v)) by (apply bullet_small; [rewrite Rabs_right by (unfold v; lra)|]; cbn; unfold v; lra).
  assert (Z1 : avoids_zero (domain_geo box1 1 1 0 0) 1 (bullet r 2 v)) by (apply bullet_off; cbn; unfold r, v; (lra || now left)).
  exists (bullet r 2 v), p', (flight 8 8 1 1 1 (bullet r 2 v)).
  split; [exact O|]. split; [apply (bullet_home _ _ _ _ _ 3 2); auto; vm_compute; intuition congruence|]. split; [exact H1|].
  split; [split; cbn; [unfold v; lra|]; rewrite Rmult_0_l, Rabs_R0; lra|]. split; [exact M1|].
  split; [apply bullet_off; cbn; unfold r, v; (lra || now left)|]. split; [exact Z1|]. split; [exact A|]. split.
  - destruct box1_good as (G & Gr & Gz).
    apply (C124_flight_partial box1 1 1 1 0 0 (bullet r 2 v)); auto; cbn [bullet pos_r pos_z box1 nr nz rd_ zd_]; try lra; try lia; rewrite ?C1, ?C2; lia.
  - rewrite Pr. split; [unfold r, v; lra|]. cbn [flight bullet pos_r pos_z vel_r vel_phi vel_z]. rewrite bullet_radius by (unfold r, v; lra). unfold bounce, r, v.
    repeat match goal with |- context [Rlt_dec ?x ?y] => destruct (Rlt_dec x y) end; cbn [fst]; lra.
Qed.
(** the hypotheses of the theorem hold in both divisions for a particle that is reflected *)
Example C124_ex : let p := bullet (72 / 10) 2 1 in on_plane p /\ home (part_cr 1) (part_cz 1) box 1 0 p /\ home (part_cr 1) (part_cz 1) box1 0 0 p /\
  small_move (domain_geo box 1 1 1 0) 1 p /\ small_move (domain_geo box1 1 1 0 0) 1 p /\ avoids_zero (domain_geo box 1 1 1 0) 1 p /\ avoids_zero (domain_geo box1 1 1 0 0) 1 p /\
  pos_r (flight 8 8 1 1 1 p) = 68 / 10 /\ vel_r (flight 8 8 1 1 1 p) = - 1.
Proof.
  assert (C1 : cell_number (72 / 10) 1 = 7%Z) by (apply cell_is; lra). assert (C2 : cell_number 2 1 = 2%Z) by (apply cell_is; lra).
  cbv zeta. split; [split; cbn; lra|]. split; [apply (bullet_home _ _ _ _ _ 7 2); auto; vm_compute; intuition congruence|].
  split; [apply (bullet_home1 _ _ _ 7 2); auto; lia|]. split; [apply bullet_small; [rewrite Rabs_right by lra|]; cbn; lra|].
  split; [apply bullet_small; [rewrite Rabs_right by lra|]; cbn; lra|]. split; [apply bullet_off; cbn; (lra || (right; lra))|]. split; [apply bullet_off; cbn; (lra || (right; lra))|].
  cbn [flight bullet pos_r pos_z vel_r vel_phi vel_z]. rewrite bullet_radius by lra. unfold bounce.
  repeat match goal with |- context [Rlt_dec ?x ?y] => destruct (Rlt_dec x y) end; cbn [fst snd]; try lra. split; [lra|].
  replace (1 - 0 * 1 / (72 / 10 + 1) * (0 * 1 / (72 / 10 + 1))) with 1 by field. rewrite sqrt_1. field.
Qed.
Print Assumptions C124_flight_partial.
Print Assumptions C124_divisions_partial.
Print Assumptions C124_border_refuted.
Print Assumptions C124_long_refuted.
