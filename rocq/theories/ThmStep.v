(** Theorems about a whole step of the particles: properties C93 and C94. *)
From Coq Require Import Reals Lra Psatz ZifyBool Permutation.
From Verif Require Import Base ListUtil RndUtil DecompModel DecompProofs CollectorModel CollectorProofs ParticleModel ParticleProofs StepModel ThmParticle ThmInit ThmDecomp.
Open Scope R_scope.

(** * Reflection in one direction *)
Section One.
Variables lo hi : R.
Variables wlo whi : bool.
Lemma iter1_once n s : out1 lo hi wlo whi (fst (pass1 lo hi wlo whi s)) = false -> out1 lo hi wlo whi (fst (iter1 lo hi wlo whi n s)) = false ->
  iter1 lo hi wlo whi n s = pass1 lo hi wlo whi s.
Proof.
  intros A B. destruct n as [|n].
  - cbn [iter1] in *. symmetry. now apply pass1_inside.
  - cbn [iter1] in *. now apply iter1_inside.
Qed.
End One.
Lemma one_upper lo hi wlo whi n s : wlo = false -> whi = true -> out1 lo hi wlo whi (fst (iter1 lo hi wlo whi n s)) = false ->
  fst (iter1 lo hi wlo whi n s) = if Rltb hi (fst s) then hi * 2 - fst s else fst s.
Proof.
  intros -> -> H.
  assert (E : pass1 lo hi false true s = if Rltb hi (fst s) then (hi * 2 - fst s, - snd s) else s).
  { unfold pass1, up1, dn1. rewrite !andb_true_r, andb_false_r. reflexivity. }
  rewrite iter1_once, E; auto; [now destruct (Rltb hi (fst s))|]. unfold out1. rewrite andb_true_r, andb_false_r, orb_false_r.
  rewrite E. destruct (Rltb hi (fst s)) eqn:L; [|exact L]. apply Rltb_true in L. apply Rltb_false. cbn [fst]. lra.
Qed.
Lemma one_lower lo hi wlo whi n s : wlo = true -> whi = false -> out1 lo hi wlo whi (fst (iter1 lo hi wlo whi n s)) = false ->
  fst (iter1 lo hi wlo whi n s) = if Rltb (fst s) lo then 2 * lo - fst s else fst s.
Proof.
  intros -> -> H.
  assert (E : pass1 lo hi true false s = if Rltb (fst s) lo then (2 * lo - fst s, - snd s) else s).
  { unfold pass1, up1, dn1. rewrite !andb_true_r, andb_false_r. destruct (Rltb (fst s) lo) eqn:L; [|reflexivity].
    apply Rltb_true in L. replace (Rltb (2 * lo - fst s) lo) with false by (symmetry; apply Rltb_false; lra). reflexivity. }
  rewrite iter1_once, E; auto; [now destruct (Rltb (fst s) lo)|]. unfold out1. rewrite andb_true_r, andb_false_r, orb_false_l.
  rewrite E. destruct (Rltb (fst s) lo) eqn:L; [|exact L]. apply Rltb_true in L. apply Rltb_false. cbn [fst]. lra.
Qed.
Lemma one_none lo hi wlo whi n s : wlo = false -> whi = false -> iter1 lo hi wlo whi n s = s.
Proof. intros E1 E2. apply iter1_inside. unfold out1. rewrite E1, E2. now rewrite !andb_false_r. Qed.
(** a row of m domains of n cells each: a particle of domain i that moves by less than a domain stays in the area *)
Lemma stays_in_row lo hi wlo whi d n m i k x0 x1 v : 0 < d -> (2 <= n)%Z -> (0 <= i < m)%Z -> lo = d / 2 -> hi = IZR n * d - d / 2 ->
  wlo = (i =? 0)%Z -> whi = (i =? m - 1)%Z -> 0 <= x0 < IZR n * d -> Rabs (x1 - x0) < IZR n * d ->
  out1 lo hi wlo whi (fst (iter1 lo hi wlo whi k (x1, v))) = false ->
  0 <= fst (iter1 lo hi wlo whi k (x1, v)) + IZR (n * i) * d < IZR (n * m) * d.
Proof.
  intros Hd Hn Hi Elo Ehi Ewlo Ewhi X0 X1 Hout.
  assert (N2 : 2 <= IZR n) by (apply IZR_le; lia). set (L := IZR n * d) in *.
  assert (LD : 2 * d <= L) by (unfold L; nra).
  assert (A1 : - L < x1 - x0 < L) by (unfold Rabs in X1; destruct (Rcase_abs (x1 - x0)); lra).
  assert (I0 : (i = 0)%Z \/ 1 <= IZR i) by (destruct (Z.eq_dec i 0); [now left|right; apply IZR_le; lia]).
  assert (I1 : (i = m - 1)%Z \/ IZR i + 2 <= IZR m) by (destruct (Z.eq_dec i (m - 1)); [now left|right; rewrite <- plus_IZR; apply IZR_le; lia]).
  assert (EB : IZR (n * i) * d = IZR i * L) by (rewrite mult_IZR; unfold L; ring).
  assert (ET : IZR (n * m) * d = IZR m * L) by (rewrite mult_IZR; unfold L; ring).
  rewrite EB, ET. clear EB ET.
  assert (IM : IZR i + 1 <= IZR m) by (rewrite <- plus_IZR; apply IZR_le; lia). assert (I2 : 0 <= IZR i) by (apply IZR_le; lia).
  destruct wlo eqn:Wlo, whi eqn:Whi.
  - assert (i = 0)%Z by lia. assert (m = 1)%Z by lia. subst i m. cbn [IZR].
    unfold out1 in Hout. rewrite !andb_true_r in Hout. apply orb_false_iff in Hout. destruct Hout as [Q1 Q2].
    apply Rltb_false in Q1, Q2. lra.
  - assert (i = 0)%Z by lia. subst i. destruct I1 as [I1|I1]; [lia|].
    rewrite (one_lower _ _ _ _ k (x1, v)) by auto. cbn [fst]. assert (2 * L <= IZR m * L) by nra.
    destruct (Rltb x1 lo) eqn:Q; [apply Rltb_true in Q|apply Rltb_false in Q]; lra.
  - assert (E : (i = m - 1)%Z) by lia. destruct I0 as [I0|I0]; [lia|].
    rewrite (one_upper _ _ _ _ k (x1, v)) by auto. cbn [fst]. assert (EM : IZR m = IZR i + 1) by (rewrite E, minus_IZR; lra). rewrite EM.
    assert (L <= IZR i * L) by nra.
    destruct (Rltb hi x1) eqn:Q; [apply Rltb_true in Q|apply Rltb_false in Q]; lra.
  - destruct I0 as [I0|I0]; [lia|]. destruct I1 as [I1|I1]; [lia|]. rewrite one_none by auto. cbn [fst].
    assert (L <= IZR i * L) by nra. assert ((IZR i + 2) * L <= IZR m * L) by (apply Rmult_le_compat_r; lra). lra.
Qed.

(** * C93: a closed box keeps its particles *)
(** the end of a movement *)
Definition advanced (g : geo) (dt : R) (p p' : part) : Prop := exists n, forall fuel, (n <= fuel)%nat -> advance g dt fuel p = Some p'.
(** the movement is shorter than a domain *)
Definition short_move (g : geo) (dt : R) (p : part) : Prop :=
  (vel_r p * dt) ^ 2 + (vel_phi p * dt) ^ 2 < g_size_r g ^ 2 /\ Rabs (vel_z p * dt) < g_size_z g.
(** no local coordinate becomes exactly zero *)
Definition avoids_zero (g : geo) (dt : R) (p : part) : Prop :=
  let q := back_position (mover dt p) in
  no_zero (w_r0 g) (w_rr g) (g_size_r g - g_dr g / 2) (local_r g q) /\ no_zero (w_z0 g) (w_zz g) (g_size_z g - g_dz g / 2) (local_z g q).
Definition on_plane (p : part) : Prop := 0 <= pos_r p /\ pos_phi p = 0.

Lemma radius_change r a b L : 0 <= r -> 0 <= L -> a ^ 2 + b ^ 2 < L ^ 2 -> Rabs (sqrt ((r + a) * (r + a) + (0 + b) * (0 + b)) - r) < L.
Proof.
  intros Hr HL H. set (q := (r + a) * (r + a) + (0 + b) * (0 + b)). assert (Q : 0 <= q) by (unfold q; assert (A := Rle_0_sqr (r + a)); assert (B := Rle_0_sqr (0 + b)); unfold Rsqr in *; lra).
  pose proof (sqrt_pos q) as S0. pose proof (sqrt_sqrt q Q) as S1. set (s := sqrt q) in *. clearbody s. unfold q in S1.
  assert (AL : - L < a < L) by (assert (0 <= b ^ 2) by (rewrite <- Rsqr_pow2; apply Rle_0_sqr); split; nra).
  apply Rabs_def1.
  - assert (s < r + L); [|lra]. apply Rsqr_incrst_0; [unfold Rsqr; nra|auto|lra].
  - assert (r - L < s); [|lra]. destruct (Rle_dec (r - L) 0) as [N|N].
    + destruct (Req_dec s 0) as [Z|Z]; [|lra]. destruct (Req_dec (r - L) 0) as [Z2|Z2]; [|lra]. exfalso.
      subst s. assert (E : (r + a) * (r + a) + (0 + b) * (0 + b) = 0) by lra.
      assert (A := Rle_0_sqr (r + a)). assert (B := Rle_0_sqr b). unfold Rsqr in *. assert ((r + a) * (r + a) = 0) by lra.
      assert (r + a = 0) by (apply Rmult_integral in H0; tauto). lra.
    + apply Rsqr_incrst_0; [unfold Rsqr; nra|lra|auto].
Qed.
Section Box.
Variables (a : area) (dr dz : R).
Hypothesis HA : good_area a.
Hypothesis Hdr : 0 < dr.
Hypothesis Hdz : 0 < dz.
(** at least two cells in each domain *)
Hypothesis Hwr : (2 * rd_ a <= nr a)%Z.
Hypothesis Hwz : (2 * zd_ a <= nz a)%Z.
Let G := domain_geo a dr dz.
Lemma bound_mult n m q : sane (q * m) m 0 -> (0 <= n <= m)%Z -> bound (q * m) m 0 n = (q * n)%Z.
Proof.
  intros S H. rewrite bound_eq by auto. destruct S as (_ & S & _). rewrite Z.add_0_r.
  replace (q * m * n)%Z with (q * n * m)%Z by ring. apply Z.div_mul. lia.
Qed.
Lemma divided : exists qr qz, (nr a = qr * rd_ a /\ nz a = qz * zd_ a /\ 2 <= qr /\ 2 <= qz /\ 1 <= rd_ a /\ 1 <= zd_ a)%Z.
Proof.
  destruct HA as (S1 & S2 & B1 & B2 & [qr D1] & [qz D2]). exists qr, qz. destruct S1 as (_ & S1 & _). destruct S2 as (_ & S2 & _).
  repeat split; auto; nia.
Qed.
Lemma size_eq q m d : (1 <= m)%Z -> IZR (q * m) * d / IZR m = IZR q * d.
Proof. intros H. rewrite mult_IZR. assert (1 <= IZR m) by (apply IZR_le; lia). field. lra. Qed.
Lemma geo_wide i j : wide (G i j).
Proof.
  destruct divided as (qr & qz & E1 & E2 & Q1 & Q2 & P1 & P2). unfold wide, G, domain_geo. cbn. rewrite E1, E2, !size_eq by auto.
  assert (2 <= IZR qr) by (apply IZR_le; lia). assert (2 <= IZR qz) by (apply IZR_le; lia). split; split; try lra; nra.
Qed.
(** one particle *)
Lemma box_particle i j p : (0 <= i < rd_ a)%Z -> (0 <= j < zd_ a)%Z -> home (part_cr dr) (part_cz dz) a i j p ->
  (- 2 ^ 31 <= cell_number (pos_r p) dr < 2 ^ 31)%Z -> (- 2 ^ 31 <= cell_number (pos_z p) dz < 2 ^ 31)%Z ->
  on_plane p -> forall dt, short_move (G i j) dt p -> avoids_zero (G i j) dt p ->
  exists p', advanced (G i j) dt p p' /\ on_plane p' /\ inside (G i j) p' /\
    (0 <= pos_r p' < IZR (nr a) * dr) /\ (0 <= pos_z p' < IZR (nz a) * dz).
Proof.
  intros Hi Hj Hh Ir Iz [Pr Pphi] dt [M1 M2] [Z1 Z2].
  destruct divided as (qr & qz & E1 & E2 & Q1 & Q2 & P1 & P2).
  destruct HA as (S1 & S2 & B1 & B2 & _). rewrite E1 in S1. rewrite E2 in S2.
  destruct Hh as [H1 H2]. rewrite E1, !bound_mult in H1 by (auto; lia). rewrite E2, !bound_mult in H2 by (auto; lia).
  assert (CR : part_cr dr p = cell_number (pos_r p) dr) by (unfold part_cr; apply s32_small; lia).
  assert (CZ : part_cz dz p = cell_number (pos_z p) dz) by (unfold part_cz; apply s32_small; lia).
  rewrite CR in H1. rewrite CZ in H2.
  set (g := G i j) in *.
  assert (Gr : g_size_r g = IZR qr * dr) by (unfold g, G, domain_geo; cbn; rewrite E1; apply size_eq; auto).
  assert (Gz : g_size_z g = IZR qz * dz) by (unfold g, G, domain_geo; cbn; rewrite E2; apply size_eq; auto).
  assert (Gb : g_bot g = (qr * i)%Z) by (unfold g, G, domain_geo; cbn; rewrite E1; apply bound_mult; auto; lia).
  assert (Gl : g_left g = (qz * j)%Z) by (unfold g, G, domain_geo; cbn; rewrite E2; apply bound_mult; auto; lia).
  destruct (geo_wide i j) as [[W1 W2] [W3 W4]]. fold g in W1, W2, W3, W4.
  set (q := back_position (mover dt p)) in *.
  destruct (loop_stops g W1 W3 W2 W4 (local_r g q, vel_r q) (local_z g q, vel_z q)) as (n & N1 & N2).
  cbn [fst snd] in N2. specialize (N2 Z1 Z2). destruct N2 as [O1 O2].
  set (u := iter1 _ _ _ _ n (local_r g q, vel_r q)) in *. set (w := iter1 _ _ _ _ n (local_z g q, vel_z q)) in *.
  assert (Rq : pos_r q = sqrt ((pos_r p + vel_r p * dt) * (pos_r p + vel_r p * dt) + (0 + vel_phi p * dt) * (0 + vel_phi p * dt))).
  { unfold q. cbn. now rewrite Pphi. }
  assert (Zq : pos_z q = pos_z p + vel_z p * dt) by reflexivity.
  assert (DRp : Rabs (pos_r q - pos_r p) < IZR qr * dr).
  { rewrite Rq, <- Gr. apply radius_change; auto. rewrite Gr. assert (2 <= IZR qr) by (apply IZR_le; lia). nra. }
  assert (DZp : Rabs (pos_z q - pos_z p) < IZR qz * dz) by (rewrite Zq, <- Gz; replace (pos_z p + vel_z p * dt - pos_z p) with (vel_z p * dt) by ring; auto).
  assert (C1 : IZR (qr * i) * dr <= pos_r p < IZR (qr * i) * dr + IZR qr * dr).
  { set (c := cell_number (pos_r p) dr) in *. pose proof (proj1 (cell_number_spec (pos_r p) dr c Hdr) eq_refl) as [X Y].
    assert (IZR (qr * i) <= IZR c) by (apply IZR_le; lia). assert (IZR c + 1 <= IZR (qr * i) + IZR qr) by (rewrite <- !plus_IZR; apply IZR_le; lia).
    split; nra. }
  assert (C2 : IZR (qz * j) * dz <= pos_z p < IZR (qz * j) * dz + IZR qz * dz).
  { set (c := cell_number (pos_z p) dz) in *. pose proof (proj1 (cell_number_spec (pos_z p) dz c Hdz) eq_refl) as [X Y].
    assert (IZR (qz * j) <= IZR c) by (apply IZR_le; lia). assert (IZR c + 1 <= IZR (qz * j) + IZR qz) by (rewrite <- !plus_IZR; apply IZR_le; lia).
    split; nra. }
  assert (RR : 0 <= fst u + IZR (qr * i) * dr < IZR (qr * rd_ a) * dr).
  { apply (stays_in_row (half_dr g) (radius_wall g) (w_r0 g) (w_rr g) dr qr (rd_ a) i n (pos_r p - IZR (qr * i) * dr) (local_r g q) (vel_r q)); auto.
    - unfold radius_wall. rewrite Gr. reflexivity.
    - lra.
    - unfold local_r. rewrite Gb. change (g_dr g) with dr. replace (pos_r q - IZR (qr * i) * dr - (pos_r p - IZR (qr * i) * dr)) with (pos_r q - pos_r p) by ring. auto. }
  assert (ZZ : 0 <= fst w + IZR (qz * j) * dz < IZR (qz * zd_ a) * dz).
  { apply (stays_in_row (half_dz g) (longitude_wall g) (w_z0 g) (w_zz g) dz qz (zd_ a) j n (pos_z p - IZR (qz * j) * dz) (local_z g q) (vel_z q)); auto.
    - unfold longitude_wall. rewrite Gz. reflexivity.
    - lra.
    - unfold local_z. rewrite Gl. change (g_dz g) with dz. replace (pos_z q - IZR (qz * j) * dz - (pos_z p - IZR (qz * j) * dz)) with (pos_z q - pos_z p) by ring. auto. }
  eexists. split; [exists n; intros fuel Hf; unfold advance; fold q; unfold reflect;
    change (pos_r q - IZR (g_bot g) * g_dr g, pos_z q - IZR (g_left g) * g_dz g, vel_r q, vel_z q)
      with (fst (local_r g q, vel_r q), fst (local_z g q, vel_z q), snd (local_r g q, vel_r q), snd (local_z g q, vel_z q));
    rewrite (N1 fuel) by auto; reflexivity|].
  apply out1_inside in O1. apply out1_inside in O2.
  unfold on_plane, inside, local_r, local_z. cbn [back_velocity pos_r pos_z pos_phi].
  change (g_dr g) with dr in *. change (g_dz g) with dz in *.
  replace (fst u + IZR (g_bot g) * dr - IZR (g_bot g) * dr) with (fst u) by ring.
  replace (fst w + IZR (g_left g) * dz - IZR (g_left g) * dz) with (fst w) by ring.
  unfold half_dr, radius_wall, half_dz, longitude_wall in *. change (g_dr g) with dr in *. change (g_dz g) with dz in *.
  rewrite Gb, Gl, E1, E2. split; [split; [tauto|reflexivity]|]. split; [tauto|]. tauto.
Qed.
Lemma advanced_unique g dt p p1 p2 : advanced g dt p p1 -> advanced g dt p p2 -> p1 = p2.
Proof. intros [n A] [m B]. specialize (A (max n m) ltac:(lia)). specialize (B (max n m) ltac:(lia)). congruence. Qed.
Lemma advanced_weight g dt p p' : advanced g dt p p' -> weight p' = weight p.
Proof.
  intros [n A]. specialize (A n (le_n n)). unfold advance, reflect in A.
  destruct (refl_loop _ _ _) as [[[[x y] u] v]|]; [|discriminate]. injection A as <-. reflexivity.
Qed.
Lemma int_cells_part p : int_cells (part_cr dr) (part_cz dz) p.
Proof.
  unfold int_cells, part_cr, part_cz, s32. set (r := cell_number _ dr). set (z := cell_number _ dz).
  pose proof (Z.mod_pos_bound (r + 2 ^ 31) (2 ^ 32) ltac:(lia)). pose proof (Z.mod_pos_bound (z + 2 ^ 31) (2 ^ 32) ltac:(lia)). lia.
Qed.
Lemma in_area_alive p : 0 <= pos_r p < IZR (nr a) * dr -> 0 <= pos_z p < IZR (nz a) * dz -> alive (part_cr dr) (part_cz dz) a p = true.
Proof.
  intros Hr Hz. destruct HA as (_ & _ & B1 & B2 & _).
  assert (C : forall x d n, 0 < d -> (0 < n < 2 ^ 31)%Z -> 0 <= x < IZR n * d -> (0 <= cell_number x d < n)%Z).
  { intros x d n Hd Hn Hx. set (c := cell_number x d). pose proof (proj1 (cell_number_spec x d c Hd) eq_refl) as [X Y].
    split.
    - assert (0 < IZR (c + 1)); [|apply lt_IZR in H; lia]. rewrite plus_IZR. apply Rmult_lt_reg_r with d; lra.
    - apply lt_IZR. apply Rmult_lt_reg_r with d; lra. }
  pose proof (C (pos_r p) dr (nr a) Hdr B1 Hr). pose proof (C (pos_z p) dz (nz a) Hdz B2 Hz).
  unfold alive, part_cr, part_cz. rewrite !s32_small by lia. lia.
Qed.
(** ** all particles *)
(** what a particle of domain (i, j) must satisfy before the step *)
Definition fit (dt : R) (i j : Z) (p : part) : Prop :=
  home (part_cr dr) (part_cz dz) a i j p /\ (- 2 ^ 31 <= cell_number (pos_r p) dr < 2 ^ 31)%Z /\ (- 2 ^ 31 <= cell_number (pos_z p) dz < 2 ^ 31)%Z /\
  on_plane p /\ short_move (G i j) dt p /\ avoids_zero (G i j) dt p.
Definition all_fit (dt : R) (st : smb part) : Prop :=
  forall i j, (0 <= i < rd_ a)%Z -> (0 <= j < zd_ a)%Z -> Forall (fun s => Forall (fit dt i j) (snd s)) (st i j).
(** all particles of all domains are moved *)
Definition moved (dt : R) (st st1 : smb part) : Prop :=
  forall i j, (0 <= i < rd_ a)%Z -> (0 <= j < zd_ a)%Z ->
  Forall2 (fun s s1 => fst s = fst s1 /\ Forall2 (advanced (G i j) dt) (snd s) (snd s1)) (st i j) (st1 i j).
(** the summed weight of a species is its charge divided by the charge of one particle *)
Definition total_weight (l : list part) : R := fold_right Rplus 0 (map weight l).
Lemma total_weight_app l m : total_weight (l ++ m) = total_weight l + total_weight m.
Proof. unfold total_weight. induction l as [|x l IH]; cbn; [lra|]. rewrite IH. lra. Qed.
Lemma total_weight_perm l m : Permutation l m -> total_weight l = total_weight m.
Proof. intros H. unfold total_weight. induction H; cbn; lra. Qed.
Lemma forall2_measure g dt l l' : Forall2 (advanced g dt) l l' -> length l' = length l /\ total_weight l' = total_weight l.
Proof.
  intros H. induction H as [|x y l l' H1 H2 [I1 I2]]; [split; reflexivity|].
  cbn [length]. split; [lia|]. unfold total_weight in *. cbn. rewrite (advanced_weight _ _ _ _ H1), I2. reflexivity.
Qed.
Lemma moved_measure dt st st1 sid : moved dt st st1 ->
  length (particles_of a sid st1) = length (particles_of a sid st) /\ total_weight (particles_of a sid st1) = total_weight (particles_of a sid st).
Proof.
  intros H. unfold particles_of.
  assert (A : forall ij, In ij (pairs (rd_ a) (zd_ a)) -> (0 <= fst ij < rd_ a)%Z /\ (0 <= snd ij < zd_ a)%Z).
  { intros [i j] Hin. now apply In_pairs in Hin. }
  induction (pairs (rd_ a) (zd_ a)) as [|[i j] l IH]; [split; reflexivity|].
  cbn [flat_map fst snd]. rewrite !app_length, !total_weight_app.
  destruct IH as [I1 I2]; [intros; apply A; now right|]. rewrite I1, I2.
  destruct (A (i, j) (or_introl eq_refl)) as [Hi Hj]. cbn [fst snd] in Hi, Hj. specialize (H i j Hi Hj).
  assert (B : length (flat_map (fun s => if (fst s =? sid)%Z then snd s else []) (st1 i j)) = length (flat_map (fun s => if (fst s =? sid)%Z then snd s else []) (st i j)) /\
    total_weight (flat_map (fun s => if (fst s =? sid)%Z then snd s else []) (st1 i j)) = total_weight (flat_map (fun s => if (fst s =? sid)%Z then snd s else []) (st i j))).
  { clear - H. induction H as [|s s1 l l1 [E F] _ [I1 I2]]; [split; reflexivity|]. cbn [flat_map]. rewrite !app_length, !total_weight_app, I1, I2, E.
    destruct (fst s1 =? sid)%Z; [|split; reflexivity]. destruct (forall2_measure _ _ _ _ F) as [X Y]. rewrite X, Y. split; reflexivity. }
  destruct B as [B1 B2]. rewrite B1, B2. split; reflexivity.
Qed.
Lemma forall2_in {A B} (R : A -> B -> Prop) l l' y : Forall2 R l l' -> In y l' -> exists x, In x l /\ R x y.
Proof. intros H. induction H as [|u v l l' H1 H2 IH]; intros I; [destruct I|]. destruct I as [->|I]; [exists u; split; [now left|auto]|]. destruct (IH I) as (x & X & Y). exists x. split; [now right|auto]. Qed.
Lemma moved_exists dt st : all_fit dt st -> exists st1, moved dt st st1.
Proof.
  intros H.
  assert (One : forall i j, (0 <= i < rd_ a)%Z -> (0 <= j < zd_ a)%Z -> exists d,
     Forall2 (fun s s1 => fst s = fst s1 /\ Forall2 (advanced (G i j) dt) (snd s) (snd s1)) (st i j) d).
  { intros i j Hi Hj. specialize (H i j Hi Hj).
    induction H as [|s l F _ [d D]]; [exists []; constructor|].
    assert (Y : exists l', Forall2 (advanced (G i j) dt) (snd s) l').
    { clear D d. induction F as [|p m P _ [d D]]; [exists []; constructor|].
      destruct P as (P1 & P2 & P3 & P4 & P5 & P6). destruct (box_particle i j p Hi Hj P1 P2 P3 P4 dt P5 P6) as (p' & A & _).
      exists (p' :: d). constructor; auto. }
    destruct Y as [l' Y]. exists ((fst s, l') :: d). constructor; [split; [reflexivity|exact Y]|exact D]. }
  assert (All : forall L, exists st1, forall i j, In (i, j) L -> (0 <= i < rd_ a)%Z -> (0 <= j < zd_ a)%Z ->
     Forall2 (fun s s1 => fst s = fst s1 /\ Forall2 (advanced (G i j) dt) (snd s) (snd s1)) (st i j) (st1 i j)).
  { intros L. induction L as [|[i j] L [st1 IH]]; [exists st; intros i j []|].
    destruct (Z_le_dec 0 i), (Z_lt_dec i (rd_ a)), (Z_le_dec 0 j), (Z_lt_dec j (zd_ a));
      try (exists st1; intros i' j' [[= <- <-]|Hin]; [lia|now apply IH]).
    destruct (One i j ltac:(lia) ltac:(lia)) as [d D]. exists (upd_dom part st1 i j d). intros i' j' Hin Hi' Hj'. unfold upd_dom.
    destruct ((i' =? i) && (j' =? j))%Z eqn:E; [assert (i' = i /\ j' = j) as [-> ->] by lia; exact D|].
    destruct Hin as [[= <- <-]|Hin]; [lia|now apply IH]. }
  destruct (All (pairs (rd_ a) (zd_ a))) as [st1 S]. exists st1. intros i j Hi Hj. apply S; auto. now apply In_pairs.
Qed.
End Box.
Lemma part_eq_dec (x y : part) : {x = y} + {x <> y}.
Proof. decide equality; apply Req_EM_T. Qed.

(** a single particle *)
Theorem C93_particle_partial : forall a dr dz dt i j p, good_area a -> 0 < dr -> 0 < dz -> (2 * rd_ a <= nr a)%Z -> (2 * zd_ a <= nz a)%Z ->
  (0 <= i < rd_ a)%Z -> (0 <= j < zd_ a)%Z -> fit a dr dz dt i j p ->
  exists p', advanced (domain_geo a dr dz i j) dt p p' /\ weight p' = weight p /\ on_plane p' /\ inside (domain_geo a dr dz i j) p' /\
    (0 <= pos_r p' < IZR (nr a) * dr) /\ (0 <= pos_z p' < IZR (nz a) * dz).
Proof.
  intros a dr dz dt i j p HA Hdr Hdz Hr Hz Hi Hj (F1 & F2 & F3 & F4 & F5 & F6).
  destruct (box_particle a dr dz HA Hdr Hdz Hr Hz i j p Hi Hj F1 F2 F3 F4 dt F5 F6) as (p' & A & B & C & D & E).
  exists p'. split; [exact A|]. split; [exact (advanced_weight _ _ _ _ A)|]. auto.
Qed.
(** all particles of all domains: none is lost, the charge of every species is kept, all are in their domains again *)
Theorem C93_box_partial : forall a dr dz dt ids st, good_area a -> 0 < dr -> 0 < dz -> (2 * rd_ a <= nr a)%Z -> (2 * zd_ a <= nz a)%Z ->
  ids_ok a ids st -> all_fit a dr dz dt st ->
  (exists st1, moved a dr dz dt st st1) /\
  forall st1, moved a dr dz dt st st1 -> exists st', collect part (part_cr dr) (part_cz dz) a (code_order a) st1 = Ok st' /\ ids_ok a ids st' /\
    (forall sid, Permutation (particles_of a sid st') (particles_of a sid st1)) /\
    (forall sid, length (particles_of a sid st') = length (particles_of a sid st) /\ total_weight (particles_of a sid st') = total_weight (particles_of a sid st)) /\
    (forall i j s l p, (0 <= i < rd_ a)%Z -> (0 <= j < zd_ a)%Z -> In (s, l) (st' i j) -> In p l -> home (part_cr dr) (part_cz dz) a i j p).
Proof.
  intros a dr dz dt ids st HA Hdr Hdz Hr Hz Hids Hfit. split; [now apply moved_exists|]. intros st1 Hm.
  assert (Hids1 : ids_ok a ids st1).
  { destruct Hids as [N I]. split; [auto|]. intros i j Hi Hj. rewrite <- (I i j Hi Hj). specialize (Hm i j Hi Hj). clear - Hm.
    induction Hm as [|s s1 l l1 [E _] _ IH]; [reflexivity|]. cbn. now rewrite IH, E. }
  destruct (C08_collector_conserves part part_eq_dec (part_cr dr) (part_cz dz) a ids st1 HA (int_cells_part dr dz) Hids1) as (st' & C & I' & P & Hh).
  exists st'. split; [exact C|]. split; [exact I'|].
  assert (P' : forall sid, Permutation (particles_of a sid st') (particles_of a sid st1)).
  { intros sid. specialize (P sid). assert (F : filter (alive (part_cr dr) (part_cz dz) a) (particles_of a sid st1) = particles_of a sid st1); [|now rewrite F in P].
    assert (AL : forall q, In q (particles_of a sid st1) -> alive (part_cr dr) (part_cz dz) a q = true).
    { intros q Hq. apply in_flat_map in Hq. destruct Hq as ([i j] & Hij & Hq). apply In_pairs in Hij. destruct Hij as [Hi Hj]. cbn [fst snd] in Hq.
      apply in_flat_map in Hq. destruct Hq as (s1 & Hs1 & Hq). destruct (fst s1 =? sid)%Z; [|destruct Hq].
      destruct (forall2_in _ _ _ s1 (Hm i j Hi Hj) Hs1) as (s & Hs & _ & F2). destruct (forall2_in _ _ _ q F2 Hq) as (p & Hp & Ad).
      specialize (Hfit i j Hi Hj). rewrite Forall_forall in Hfit. specialize (Hfit s Hs). rewrite Forall_forall in Hfit. specialize (Hfit p Hp).
      destruct (C93_particle_partial a dr dz dt i j p HA Hdr Hdz Hr Hz Hi Hj Hfit) as (p' & Ad' & _ & _ & _ & X & Y).
      rewrite (advanced_unique _ _ _ _ _ Ad Ad'). now apply in_area_alive. }
    clear - AL. induction (particles_of a sid st1) as [|q l IH]; [reflexivity|]. cbn. rewrite AL by now left. f_equal. apply IH. intros; apply AL; now right. }
  split; [exact P'|]. split; [|exact Hh]. intros sid. destruct (moved_measure a dr dz dt st st1 sid Hm) as [L W].
  rewrite (Permutation_length (P' sid)), (total_weight_perm _ _ (P' sid)). auto.
Qed.

(** ** counterexamples without the hypotheses *)
Definition box : area := {| nr := 8; nz := 8; rd_ := 2; zd_ := 2 |}.
Lemma box_good : good_area box /\ (2 * rd_ box <= nr box)%Z /\ (2 * zd_ box <= nz box)%Z.
Proof. unfold good_area, sane; cbn. repeat split; try lia; exists 4%Z; reflexivity. Qed.
Definition bullet (r z vr : R) : part := {| pos_r := r; pos_phi := 0; pos_z := z; vel_r := vr; vel_phi := 0; vel_z := 0; p_sin := 0; weight := 1 |}.
Lemma bullet_flies g r z vr : 0 <= r + vr -> (local_z g (bullet r z vr) = 0 \/ (beyond g (r + vr - IZR (g_bot g) * g_dr g) (z - IZR (g_left g) * g_dz g) = false)) ->
  exists p', advanced g 1 (bullet r z vr) p' /\ pos_r p' = r + vr /\ pos_z p' = z.
Proof.
  intros H0 H. set (q := back_position (mover 1 (bullet r z vr))).
  assert (Rq : pos_r q = r + vr).
  { unfold q. cbn. replace ((r + vr * 1) * (r + vr * 1) + (0 + 0 * 1) * (0 + 0 * 1)) with ((r + vr) * (r + vr)) by ring. now apply sqrt_square. }
  assert (Zq : pos_z q = z) by (unfold q; cbn; ring).
  assert (E : forall fuel, refl_loop g fuel (pos_r q - IZR (g_bot g) * g_dr g, pos_z q - IZR (g_left g) * g_dz g, vel_r q, vel_z q) =
                    Some (pos_r q - IZR (g_bot g) * g_dr g, pos_z q - IZR (g_left g) * g_dz g, vel_r q, vel_z q)).
  { intros fuel. assert (X : isnormal (pos_r q - IZR (g_bot g) * g_dr g) && isnormal (pos_z q - IZR (g_left g) * g_dz g) &&
       beyond g (pos_r q - IZR (g_bot g) * g_dr g) (pos_z q - IZR (g_left g) * g_dz g) = false).
    { rewrite Rq, Zq. destruct H as [H|H]; [|rewrite H; apply andb_false_r].
      unfold local_z in H. cbn [bullet pos_z] in H. unfold isnormal at 2. destruct (Req_EM_T (z - IZR (g_left g) * g_dz g) 0); [|contradiction].
      now rewrite andb_false_r. }
    destruct fuel; cbn [refl_loop]; rewrite X; reflexivity. }
  eexists. split; [exists 0%nat; intros fuel _; unfold advance; fold q; unfold reflect; rewrite E; reflexivity|].
  cbn [back_velocity pos_r pos_z]. rewrite Rq, Zq. split; ring.
Qed.
Lemma cell_is x d k : 0 < d -> IZR k * d <= x < (IZR k + 1) * d -> cell_number x d = k.
Proof. intros Hd H. now apply cell_number_spec. Qed.
Lemma bullet_home i j r z v cr cz : cell_number r 1 = cr -> cell_number z 1 = cz -> (0 <= cr < 2 ^ 31)%Z -> (0 <= cz < 2 ^ 31)%Z ->
  (bound 8 2 0 i <= cr < bound 8 2 0 (i + 1))%Z -> (bound 8 2 0 j <= cz < bound 8 2 0 (j + 1))%Z -> home (part_cr 1) (part_cz 1) box i j (bullet r z v).
Proof. intros E1 E2 B1 B2 H1 H2. unfold home, part_cr, part_cz. cbn [bullet pos_r pos_z box nr nz rd_ zd_]. rewrite E1, E2, !s32_small by lia. auto. Qed.
(** a particle at a border of its domain (local longitude exactly zero) flies through the outer wall *)
Theorem C93_zero_refuted : exists p p', home (part_cr 1) (part_cz 1) box 1 1 p /\ on_plane p /\ inside (domain_geo box 1 1 1 1) p /\
  short_move (domain_geo box 1 1 1 1) 1 p /\ advanced (domain_geo box 1 1 1 1) 1 p p' /\ alive (part_cr 1) (part_cz 1) box p' = false.
Proof.
  destruct (bullet_flies (domain_geo box 1 1 1 1) (72 / 10) 4 1) as (p' & A & Pr & Pz); [lra|left; unfold local_z; cbn; lra|].
  exists (bullet (72 / 10) 4 1), p'.
  split; [apply (bullet_home _ _ _ _ _ 7 4); try (apply cell_is; lra); vm_compute; intuition congruence|].
  split; [split; cbn; lra|]. split; [unfold inside, local_r, local_z; cbn; repeat split; intros; try discriminate; lra|].
  split; [split; cbn; [lra|]; rewrite Rmult_0_l, Rabs_R0; lra|]. split; [exact A|].
  unfold alive, part_cr, part_cz. rewrite Pr, Pz. rewrite (cell_is _ 1 8) by lra. reflexivity.
Qed.
(** a particle of the inner domain that passes the outer domain in one step is not reflected *)
Theorem C93_long_refuted : exists p p', home (part_cr 1) (part_cz 1) box 0 0 p /\ on_plane p /\ inside (domain_geo box 1 1 0 0) p /\
  avoids_zero (domain_geo box 1 1 0 0) 1 p /\ advanced (domain_geo box 1 1 0 0) 1 p p' /\ alive (part_cr 1) (part_cz 1) box p' = false.
Proof.
  destruct (bullet_flies (domain_geo box 1 1 0 0) 3 2 6) as (p' & A & Pr & Pz); [lra| |].
  { right. unfold beyond, radius_wall, longitude_wall, half_dr, half_dz. cbn. unfold Rltb.
    destruct (Rlt_dec (3 + 6 - 0 * 1) (1 / 2)); [lra|]. destruct (Rlt_dec (2 - 0 * 1) (1 / 2)); [lra|]. cbn. now rewrite !andb_false_r. }
  exists (bullet 3 2 6), p'.
  split; [apply (bullet_home _ _ _ _ _ 3 2); try (apply cell_is; lra); vm_compute; intuition congruence|].
  split; [split; cbn; lra|]. split; [unfold inside, local_r, local_z; cbn; repeat split; intros; try discriminate; lra|].
  split; [|split; [exact A|]].
  - unfold avoids_zero, no_zero, local_r, local_z. cbn.
    replace (sqrt ((3 + 6 * 1) * (3 + 6 * 1) + (0 + 0 * 1) * (0 + 0 * 1))) with 9 by (replace ((3 + 6 * 1) * (3 + 6 * 1) + (0 + 0 * 1) * (0 + 0 * 1)) with (9 * 9) by ring; rewrite sqrt_square; lra).
    repeat split; intros; try discriminate; lra.
  - unfold alive, part_cr, part_cz. rewrite Pr, Pz. rewrite (cell_is _ 1 9) by lra. reflexivity.
Qed.
Example C93_ex : fit box 1 1 1 1 0 (bullet (72 / 10) 2 1).
Proof.
  assert (C1 : cell_number (72 / 10) 1 = 7%Z) by (apply cell_is; lra). assert (C2 : cell_number 2 1 = 2%Z) by (apply cell_is; lra).
  split; [apply (bullet_home _ _ _ _ _ 7 2); auto; vm_compute; intuition congruence|].
  cbn [bullet pos_r pos_z]. rewrite C1, C2. split; [lia|]. split; [lia|]. split; [split; cbn; lra|].
  split; [split; cbn; [lra|]; rewrite Rmult_0_l, Rabs_R0; lra|].
  unfold avoids_zero, no_zero, local_r, local_z. cbn.
  replace (sqrt ((72 / 10 + 1 * 1) * (72 / 10 + 1 * 1) + (0 + 0 * 1) * (0 + 0 * 1))) with (82 / 10).
  - repeat split; intros; try discriminate; lra.
  - replace ((72 / 10 + 1 * 1) * (72 / 10 + 1 * 1) + (0 + 0 * 1) * (0 + 0 * 1)) with (82 / 10 * (82 / 10)) by field. rewrite sqrt_square; lra.
Qed.

(** * C94: the velocity after a reflection at the outer wall *)
(** the velocity of [back_velocity] for a given stored sine and radial velocity *)
Lemma back_velocity_formula q v : off_axis q -> 0 <= pos_r q ->
  sqrt (1 - pos_phi q / dist q * (pos_phi q / dist q)) * v - pos_phi q / dist q * vel_phi q = (pos_r q * v - pos_phi q * vel_phi q) / dist q /\
  pos_phi q / dist q * v + sqrt (1 - pos_phi q / dist q * (pos_phi q / dist q)) * vel_phi q = (pos_phi q * v + pos_r q * vel_phi q) / dist q.
Proof.
  intros H Hr. pose proof (dist_pos q H) as P. rewrite cos_formula by auto. rewrite Rabs_right by lra. split; field; lra.
Qed.
(** one reflection at the outer wall: the position is mirrored at the wall, the radial velocity is reversed and the azimuthal
    velocity is kept, both in the frame of the new position *)
Theorem C94_mirror : forall g dt p, wide g -> w_rr g = true ->
  let q := mover dt p in off_axis q -> 0 <= pos_r q ->
  let wall := IZR (g_bot g) * g_dr g + g_size_r g - g_dr g / 2 in
  wall < dist q -> IZR (g_bot g) * g_dr g + g_dr g / 2 <= 2 * wall - dist q -> avoids_zero g dt p ->
  exists p', advanced g dt p p' /\ pos_r p' = 2 * wall - dist q /\ pos_phi p' = 0 /\
    vel_r p' = - rotated_r q /\ vel_phi p' = rotated_phi q.
Proof.
  intros g dt p [[W1 W2] [W3 W4]] Wr q Hoff Hr wall B1 B2 [Z1 Z2]. fold q in Z1, Z2.
  set (b := back_position q) in *. assert (Rb : pos_r b = dist q) by exact (back_dist q).
  destruct (loop_stops g W1 W3 W2 W4 (local_r g b, vel_r b) (local_z g b, vel_z b)) as (n & N1 & N2).
  cbn [fst snd] in N2. specialize (N2 Z1 Z2). destruct N2 as [O1 _].
  assert (LR : local_r g b = dist q - IZR (g_bot g) * g_dr g) by (unfold local_r; now rewrite Rb).
  assert (EP : pass1 (half_dr g) (radius_wall g) (w_r0 g) (w_rr g) (local_r g b, vel_r b) = (radius_wall g * 2 - local_r g b, - vel_r b)).
  { unfold pass1, up1, dn1. rewrite Wr. cbn [fst snd]. unfold wall in *.
    replace (Rltb (radius_wall g) (local_r g b)) with true by (symmetry; apply Rltb_true; rewrite LR; unfold radius_wall; lra).
    cbn [andb fst snd]. replace (Rltb (radius_wall g * 2 - local_r g b) (half_dr g)) with false; [reflexivity|].
    symmetry. apply Rltb_false. rewrite LR. unfold radius_wall, half_dr. lra. }
  rewrite iter1_once in N1; [|rewrite EP; cbn [fst]|exact O1].
  2:{ unfold out1. rewrite Wr. unfold wall in *.
      replace (Rltb (radius_wall g) (radius_wall g * 2 - local_r g b)) with false by (symmetry; apply Rltb_false; rewrite LR; unfold radius_wall; lra).
      replace (Rltb (radius_wall g * 2 - local_r g b) (half_dr g)) with false by (symmetry; apply Rltb_false; rewrite LR; unfold radius_wall, half_dr; lra).
      reflexivity. }
  rewrite EP in N1.
  eexists. split; [exists n; intros fuel Hf; unfold advance; fold q; fold b; unfold reflect;
    change (pos_r b - IZR (g_bot g) * g_dr g, pos_z b - IZR (g_left g) * g_dz g, vel_r b, vel_z b)
      with (fst (local_r g b, vel_r b), fst (local_z g b, vel_z b), snd (local_r g b, vel_r b), snd (local_z g b, vel_z b));
    rewrite (N1 fuel) by auto; reflexivity|].
  assert (Sb : p_sin b = pos_phi q / dist q) by (change (p_sin b) with (pos_phi q / sqrt (pos_r q * pos_r q + pos_phi q * pos_phi q)); now rewrite back_dist).
  cbn [back_velocity pos_r pos_phi vel_r vel_phi p_sin fst snd]. rewrite Sb.
  change (vel_r b) with (vel_r q). change (vel_phi b) with (vel_phi q). change (pos_phi b) with 0.
  destruct (back_velocity_formula q (- vel_r q) Hoff Hr) as [F1 F2]. rewrite F1, F2. pose proof (dist_pos q Hoff) as P.
  split; [rewrite LR; unfold radius_wall, wall; lra|]. split; [reflexivity|].
  unfold rotated_r, rotated_phi. split; field; lra.
Qed.
(** without reflection the azimuthal part of the radial velocity has the wrong sign (C33); a second reflection brings this back *)
Theorem C94_unreflected_refuted : forall g dt p, wide g -> let q := mover dt p in off_axis q -> 0 <= pos_r q -> inside g (back_position q) ->
  exists p', advanced g dt p p' /\ vel_r p' = rotated_r q - 2 * (pos_phi q / dist q) * vel_phi q.
Proof.
  intros g dt p W q Hoff Hr Hin. exists (back_velocity (back_position q)). split.
  - exists 0%nat. intros fuel _. unfold advance. fold q. rewrite C30_untouched by auto. reflexivity.
  - pose proof (dist_pos q Hoff) as P. destruct (back_formula q Hoff) as [A _]. rewrite A, Rabs_right by lra. unfold rotated_r. field. lra.
Qed.
(** free flight: without reflection the particle ends where a uniform motion with its velocity leads, turned back to the plane *)
Theorem C94_free_flight : forall g dt p, wide g -> on_plane p ->
  let x := pos_r p + vel_r p * dt in let y := vel_phi p * dt in let z := pos_z p + vel_z p * dt in
  let r := sqrt (x ^ 2 + y ^ 2) in
  r <> 0 ->
  (w_rr g = true -> r - IZR (g_bot g) * g_dr g <= g_size_r g - g_dr g / 2) ->
  (w_r0 g = true -> g_dr g / 2 <= r - IZR (g_bot g) * g_dr g) ->
  (w_zz g = true -> z - IZR (g_left g) * g_dz g <= g_size_z g - g_dz g / 2) ->
  (w_z0 g = true -> g_dz g / 2 <= z - IZR (g_left g) * g_dz g) ->
  exists p', advanced g dt p p' /\ pos_r p' = r /\ pos_phi p' = 0 /\ pos_z p' = z /\
    vel_z p' = vel_z p /\ weight p' = weight p /\ vel_r p' ^ 2 + vel_phi p' ^ 2 = vel_r p ^ 2 + vel_phi p ^ 2.
Proof.
  intros g dt p W [_ Hphi] x y z r Hr I1 I2 I3 I4.
  assert (D : dist (mover dt p) = r).
  { unfold dist, r, x, y. cbn [mover pos_r pos_phi]. rewrite Hphi. f_equal. ring. }
  assert (Hoff : off_axis (mover dt p)).
  { unfold off_axis. cbn [mover pos_r pos_phi]. rewrite Hphi. fold x.
    destruct (Req_dec x 0) as [X|X]; [|now left]. right. intros Y. apply Hr. unfold r. rewrite X.
    replace y with 0 by (unfold y; lra). replace (0 ^ 2 + 0 ^ 2) with 0 by ring. apply sqrt_0. }
  exists (back_velocity (back_position (mover dt p))). split.
  - exists 0%nat. intros fuel _. unfold advance. rewrite C30_untouched; [reflexivity|].
    unfold inside, local_r, local_z. change (pos_r (back_position (mover dt p))) with (sqrt (pos_r (mover dt p) * pos_r (mover dt p) + pos_phi (mover dt p) * pos_phi (mover dt p))).
    rewrite back_dist, D. cbn [back_position mover pos_z]. fold z. auto.
  - destruct (C32_back_to_plane _ Hoff) as (A & B & C & E & F & G). cbv zeta in *. rewrite D in B.
    repeat (split; [assumption|]). exact G.
Qed.
Example C94_free_flight_ex : let p := {| pos_r := 3; pos_phi := 0; pos_z := 5; vel_r := 0; vel_phi := 4; vel_z := 2; p_sin := 0; weight := 1 |} in
  wide (domain_geo box 1 1 1 1) /\ on_plane p /\ sqrt ((pos_r p + vel_r p * 1) ^ 2 + (vel_phi p * 1) ^ 2) = 5.
Proof.
  cbv zeta. split; [split; split; cbn; lra|]. split; [split; cbn; lra|]. cbn [pos_r vel_r vel_phi].
  replace ((3 + 0 * 1) ^ 2 + (4 * 1) ^ 2) with (5 * 5) by ring. apply sqrt_square. lra.
Qed.
(** a particle that moves from (7, 0) to (8, 6), radius 10, outside of the wall at 7.5 *)
Definition orbit : part := {| pos_r := 7; pos_phi := 0; pos_z := 5; vel_r := 1; vel_phi := 6; vel_z := 0; p_sin := 0; weight := 1 |}.
Example C94_ex : let q := mover 1 orbit in off_axis q /\ dist q = 10 /\ avoids_zero (domain_geo box 1 1 1 1) 1 orbit /\
  rotated_r q = 44 / 10 /\ rotated_phi q = 42 / 10.
Proof.
  cbv zeta. assert (D : dist (mover 1 orbit) = 10).
  { unfold dist. cbn. replace ((7 + 1 * 1) * ((7 + 1 * 1) * 1) + (0 + 6 * 1) * ((0 + 6 * 1) * 1)) with (10 * 10) by ring. apply sqrt_square. lra. }
  split; [left; cbn; lra|]. split; [exact D|]. split.
  - unfold avoids_zero, no_zero, local_r, local_z. change (pos_r (back_position (mover 1 orbit))) with (sqrt (pos_r (mover 1 orbit) * pos_r (mover 1 orbit) + pos_phi (mover 1 orbit) * pos_phi (mover 1 orbit))).
    rewrite back_dist, D. cbn. repeat split; intros; try discriminate; lra.
  - unfold rotated_r, rotated_phi. rewrite D. cbn. split; field.
Qed.

Print Assumptions C93_particle_partial.
Print Assumptions C93_box_partial.
Print Assumptions C93_zero_refuted.
Print Assumptions C93_long_refuted.
Print Assumptions C94_mirror.
Print Assumptions C94_unreflected_refuted.
Print Assumptions C94_free_flight.
