(** C125: a run of particles and fields together does not depend on the division into domains. *)
From Coq Require Import ZifyBool Reals Lra Psatz Permutation.
From Verif Require Import Base RndUtil DecompModel DecompProofs CollectorModel CollectorProofs ListUtil PushModel ParticleModel ParticleProofs StepModel
  ThmParticle ThmInit ThmDecomp ThmStep ThmFlight GridModel GridProofs OverlayModel YeeModel YeeProofs ThmYee ExtModel ThmExt CurrentModel CurrentProofs ThmCurrent ThmCurrent2
  YeeSmb ThmYeeSmb SmbCorner SmbCurrent ThmDivide RoundModel RoundProofs.
Open Scope Z_scope.

(** ** the movement *)
Section Flies.
Variable g : YeeModel.geo.
Variable s : Z.
Hypothesis Hdr : (0 < g_dr g)%R.
Hypothesis Hdz : (0 < g_dz g)%R.
Hypothesis Nr : 0 <= g_nr g < 2 ^ 31.
Hypothesis Nz : 0 <= g_nz g < 2 ^ 31.
Lemma calm_cells p : calm g s p -> 0 <= cell_number (pos_r p) (g_dr g) < g_nr g /\ 0 <= cell_number (pos_z p) (g_dz g) < g_nz g.
Proof using Hdr Hdz. intros (_ & A & B & _). split; apply cell_number_range; auto; lra. Qed.
Lemma calm_flies b i k p : good_area b -> nr b = g_nr g -> nz b = g_nz g -> 4 * rd_ b <= nr b -> 4 * zd_ b <= nz b ->
  (forall i, 0 <= i < rd_ b -> exists n, DecompModel.bound (nr b) (rd_ b) 0 i = n * s) -> (forall i, 0 <= i < zd_ b -> exists n, DecompModel.bound (nz b) (zd_ b) 0 i = n * s) ->
  0 <= i < rd_ b -> 0 <= k < zd_ b -> home (part_cr (g_dr g)) (part_cz (g_dz g)) b i k p -> calm g s p ->
  advanced (domain_geo b (g_dr g) (g_dz g) i k) (g_dt g) p (flight (g_nr g) (g_nz g) (g_dr g) (g_dz g) (g_dt g) p).
Proof using Hdr Hdz Nr Nz.
  intros HA En Em R4 Z4 Br Bz Hi Hk Hh Cm. pose proof (calm_cells p Cm) as [CR CZ]. rewrite <- En, <- Em.
  destruct Cm as (Pphi & Ir & Iz & Mr & Mz & Ob).
  set (dr := g_dr g) in *. set (dz := g_dz g) in *. set (dt := g_dt g) in *.
  assert (O : on_plane p) by (split; [|exact Pphi]; lra).
  assert (W1 : 2 * rd_ b <= nr b) by (destruct HA as (A & _); unfold sane in A; lia). assert (W2 : 2 * zd_ b <= nz b) by (destruct HA as (_ & A & _); unfold sane in A; lia).
  destruct (divided b HA W1 W2) as (qr & qz & E1 & E2 & _ & _ & P1 & P2).
  assert (Q1 : 4 <= qr) by nia. assert (Q2 : 4 <= qz) by nia.
  assert (S1 : sane (qr * rd_ b) (rd_ b) 0) by (rewrite <- E1; apply HA). assert (S2 : sane (qz * zd_ b) (zd_ b) 0) by (rewrite <- E2; apply HA).
  assert (Gr : ParticleModel.g_size_r (domain_geo b dr dz i k) = (IZR qr * dr)%R) by (cbn; rewrite E1; apply size_eq; auto).
  assert (Gz : ParticleModel.g_size_z (domain_geo b dr dz i k) = (IZR qz * dz)%R) by (cbn; rewrite E2; apply size_eq; auto).
  assert (R4' : (4 <= IZR qr)%R) by (apply IZR_le; lia). assert (Z4' : (4 <= IZR qz)%R) by (apply IZR_le; lia).
  apply flight_particle; auto; try lia.
  - change (- 2 ^ 31 <= cell_number (pos_r p) dr < 2 ^ 31). lia.
  - change (- 2 ^ 31 <= cell_number (pos_z p) dz < 2 ^ 31). lia.
  - unfold small_move. rewrite Gr, Gz. cbn [ParticleModel.g_dr ParticleModel.g_dz domain_geo]. split; [eapply Rlt_trans; [exact Mr|nra]|eapply Rlt_trans; [exact Mz|nra]].
  - destruct Hh as [H1 H2].
    assert (X1 : part_cr dr p = cell_number (pos_r p) dr) by (unfold part_cr; change (ParticleModel.cell_number (pos_r p) dr) with (cell_number (pos_r p) dr); apply s32_small; lia).
    assert (X2 : part_cz dz p = cell_number (pos_z p) dz) by (unfold part_cz; change (ParticleModel.cell_number (pos_z p) dz) with (cell_number (pos_z p) dz); apply s32_small; lia).
    rewrite X1, E1, !bound_mult in H1 by (auto; lia). rewrite X2, E2, !bound_mult in H2 by (auto; lia).
    pose proof (cell_number_bounds (pos_r p) dr Hdr) as B1. pose proof (cell_number_bounds (pos_z p) dz Hdz) as B2.
    set (cr := cell_number (pos_r p) dr) in *. set (cz := cell_number (pos_z p) dz) in *.
    assert (L1 : (IZR cr + 1 <= IZR (qr * i) + IZR qr)%R) by (rewrite <- !plus_IZR; apply IZR_le; lia).
    assert (L2 : (IZR cz + 1 <= IZR (qz * k) + IZR qz)%R) by (rewrite <- !plus_IZR; apply IZR_le; lia).
    assert (Rq : pos_r (back_position (ParticleModel.mover dt p)) = sqrt ((pos_r p + vel_r p * dt) * (pos_r p + vel_r p * dt) + (0 + vel_phi p * dt) * (0 + vel_phi p * dt))) by (cbn; now rewrite Pphi).
    assert (DR := radius_change2 (pos_r p) (vel_r p * dt) (vel_phi p * dt) dr ltac:(lra) Mr). rewrite <- Rq in DR.
    assert (Zq : pos_z (back_position (ParticleModel.mover dt p)) = (pos_z p + vel_z p * dt)%R) by reflexivity.
    assert (DZ : (Rabs (pos_z (back_position (ParticleModel.mover dt p)) - pos_z p) < dz)%R) by (rewrite Zq; replace (pos_z p + vel_z p * dt - pos_z p)%R with (vel_z p * dt)%R by ring; exact Mz).
    destruct (Br i Hi) as [nb Eb]. destruct (Bz k Hk) as [nl El].
    unfold avoids_zero, no_zero, local_r, local_z. rewrite Gr, Gz. cbn [ParticleModel.g_dr ParticleModel.g_dz g_bot g_left w_r0 w_rr w_z0 w_zz domain_geo].
    assert (DR' : (pos_r (back_position (ParticleModel.mover dt p)) - pos_r p < dr)%R) by (eapply Rle_lt_trans; [apply Rle_abs|exact DR]).
    assert (DZ' : (pos_z (back_position (ParticleModel.mover dt p)) - pos_z p < dz)%R) by (eapply Rle_lt_trans; [apply Rle_abs|exact DZ]).
    assert (K1 : ((IZR cr + 1) * dr <= (IZR (qr * i) + IZR qr) * dr)%R) by (apply Rmult_le_compat_r; lra).
    assert (K2 : ((IZR cz + 1) * dz <= (IZR (qz * k) + IZR qz) * dz)%R) by (apply Rmult_le_compat_r; lra).
    assert (K3 : (4 * dr <= IZR qr * dr)%R) by (apply Rmult_le_compat_r; lra).
    assert (K4 : (4 * dz <= IZR qz * dz)%R) by (apply Rmult_le_compat_r; lra).
    split; split.
    + rewrite Eb, Rq. destruct (Ob nb) as [Ob1 _]. intros X. apply Ob1. rewrite <- (Rminus_diag_uniq _ _ X). f_equal. ring.
    + intros _ _. rewrite E1, bound_mult by (auto; lia). lra.
    + rewrite El, Zq. destruct (Ob nl) as [_ Ob1]. intros X. apply Ob1. now apply Rminus_diag_uniq.
    + intros _ _. rewrite E2, bound_mult by (auto; lia). lra.
Qed.
Lemma bounce_near lo hi x0 x1 v d : (lo <= x0 <= hi -> Rabs (x1 - x0) < d -> Rabs (fst (bounce lo hi x1 v) - x0) < d)%R.
Proof.
  clear. intros H0 H1. unfold bounce. destruct (Rlt_dec hi x1); [|destruct (Rlt_dec x1 lo)]; cbn [fst]; auto; unfold Rabs in *;
  repeat match goal with |- context [Rcase_abs ?a] => destruct (Rcase_abs a) | H : context [Rcase_abs ?a] |- _ => destruct (Rcase_abs a) end; lra.
Qed.
Lemma near_cells x y d : (0 < d)%R -> (Rabs (x - y) < d)%R -> cell_number x d - 1 <= cell_number y d <= cell_number x d + 1.
Proof.
  clear. intros Hd H. pose proof (cell_number_bounds x d Hd) as B. set (c := cell_number x d) in *.
  assert (- d < x - y < d)%R by (unfold Rabs in H; destruct (Rcase_abs (x - y)); lra).
  assert (X := cell_number_range y d (c - 1) (c + 2) Hd). rewrite minus_IZR, plus_IZR in X. cut (c - 1 <= cell_number y d < c + 2); [lia|]. apply X. lra.
Qed.
(** after a calm move the particle is at most one cell away from where it was *)
Lemma calm_near p : calm g s p -> let p' := flight (g_nr g) (g_nz g) (g_dr g) (g_dz g) (g_dt g) p in
  cell_number (pos_r p') (g_dr g) - 1 <= cell_number (pos_r p) (g_dr g) <= cell_number (pos_r p') (g_dr g) + 1 /\
  cell_number (pos_z p') (g_dz g) - 1 <= cell_number (pos_z p) (g_dz g) <= cell_number (pos_z p') (g_dz g) + 1.
Proof using Hdr Hdz.
  intros (Pphi & Ir & Iz & Mr & Mz & _). cbv zeta. split; apply near_cells; auto; cbn [flight pos_r pos_z]; apply bounce_near; auto.
  - assert (DR := radius_change2 (pos_r p) (vel_r p * g_dt g) (vel_phi p * g_dt g) (g_dr g) ltac:(lra) Mr). now rewrite !Rplus_0_l in DR.
  - replace (pos_z p + vel_z p * g_dt g - pos_z p)%R with (vel_z p * g_dt g)%R by ring. exact Mz.
Qed.
End Flies.

(** ** specification *)
(** the velocity that the pusher gives to a particle in the fields [y] *)
Definition new_velocity (pusher : Z -> v3 -> v3 -> v3 -> outcome v3) (g : YeeModel.geo) (y : yee) (sid : Z) (q : pt) (v : v3) : Prop :=
  exists e b, get_field_e g (y_e y) (pos_r (now q)) (pos_z (now q)) = Ok e /\ get_field_h g (y_h y) (pos_r (now q)) (pos_z (now q)) = Ok b /\
    pusher sid (vec e) (vec b) (V3 (vel_r (now q)) (vel_phi (now q)) (vel_z (now q))) = Ok v.
(** the domain of s x s cells that a particle is in *)
Definition domain_of (g : YeeModel.geo) (s : Z) (q : pt) : Z * Z := (cell_number (pos_r (now q)) (g_dr g) / s, cell_number (pos_z (now q)) (g_dz g) / s).
(** a round of the undivided area in which all particles move calmly and, with more than one row and column of domains, neither start
    near the lower right or the upper left corner of a domain nor move across it *)
Definition calm_round pusher charge (g : YeeModel.geo) (R C s : Z) (w w' : world1) : Prop :=
  (forall t q v, In t (o_p w 0 0) -> In q (snd t) -> new_velocity pusher g (o_f w') (fst t) q v -> calm g s (set_vel (now q) v)) /\
  (R = 1 \/ C = 1 \/ forall t q, In t (o_p w 0 0) -> In q (snd t) -> ~ crossing g s (pos_r (now q)) (pos_z (now q))) /\
  (R = 1 \/ C = 1 \/ forall t q, In t (o_p w' 0 0) -> In q (snd t) ->
     off_corner (dom_geo g R C s (domain_of g s q)) (mover_of charge (g_dr g) (g_dz g) (fst t) q)).
(** for the scheme of Villasenor and Buneman: all particles move calmly and noticeably in the radial direction; a particle with an
    azimuthal velocity does not end in the last row or column of cells of its domain, and with more than one row and column of
    domains no particle ends within two cells of the lower right or the upper left corner of its domain *)
Definition calm_moves pusher (g : YeeModel.geo) (R C s : Z) (w w' : world1) : Prop :=
  (forall t q v, In t (o_p w 0 0) -> In q (snd t) -> new_velocity pusher g (o_f w') (fst t) q v -> calm g s (set_vel (now q) v)) /\
  (R = 1 \/ C = 1 \/ forall t q, In t (o_p w 0 0) -> In q (snd t) -> ~ crossing g s (pos_r (now q)) (pos_z (now q))).
Definition away_from_corner (h : YeeModel.geo) (p : CurrentModel.mover) : Prop :=
  let i := m_cr p - g_d0 h in let k := m_cz p - g_d1 h in ~ (i = 0 /\ g_nz h - 2 <= k) /\ ~ (g_nr h - 2 <= i /\ k = 0).
Definition calm_round_vb pusher charge (g : YeeModel.geo) (R C s : Z) (w w' : world1) : Prop :=
  calm_moves pusher g R C s w w' /\ (0 < g_dt g)%R /\
  forall t q, In t (o_p w' 0 0) -> In q (snd t) ->
    let p := mover_of charge (g_dr g) (g_dz g) (fst t) q in let h := dom_geo g R C s (domain_of g s q) in
    long_r p /\ own_phi h p /\ (R = 1 \/ C = 1 \/ away_from_corner h p).
Lemma rz_deps_no_corner h p n : sizes h -> g_nr h = n -> g_nz h = n -> lands h p -> away_from_corner h p -> no_corner n (rz_deps h p).
Proof.
  intros S N1 N2 (B & L1 & L2) (O1 & O2). unfold rz_deps. rewrite (rz_particle_eq h p S B).
  destruct (1 <? _); [constructor|]. destruct (_ || _).
  - destruct B as (_ & _ & B3 & B4). unfold strict. rewrite <- B3, <- B4. unfold no_corner, anti.
    repeat match goal with |- context [if ?b then _ else _] => lazymatch type of b with bool => destruct b end end;
    repeat (apply Forall_app; split); repeat apply Forall_cons; try apply Forall_nil; lia.
  - apply Forall_flat_map. eapply Forall_impl; [|exact (legs_near h p)].
    intros [[[[[r1 z1] r0] z0] i] k] H. cbn [near_leg] in H. cbn [simple_leg]. unfold simple, anti.
    destruct (_ || _); repeat (apply Forall_app; split); repeat apply Forall_cons; try apply Forall_nil; lia.
Qed.
Lemma calm_positive g s p : (0 < g_dr g)%R -> 2 <= g_nr g -> calm g s p -> (0 < pos_r (flight (g_nr g) (g_nz g) (g_dr g) (g_dz g) (g_dt g) p))%R.
Proof.
  intros Hd N (Pphi & Ir & Iz & Mr & _). assert (N' : (2 * g_dr g <= IZR (g_nr g) * g_dr g)%R) by (apply Rmult_le_compat_r; [lra|now apply IZR_le]).
  assert (DR := radius_change2 (pos_r p) (vel_r p * g_dt g) (vel_phi p * g_dt g) (g_dr g) ltac:(lra) Mr). rewrite !Rplus_0_l in DR. clear Mr.
  cbn [flight pos_r]. set (x := sqrt _) in *. assert (0 <= x)%R by apply sqrt_pos. unfold bounce.
  assert (x - pos_r p < g_dr g)%R by (eapply Rle_lt_trans; [apply Rle_abs|exact DR]).
  destruct (Rlt_dec _ x); [cbn [fst]; lra|]. destruct (Rlt_dec x _); cbn [fst]; lra.
Qed.
(** the divided area holds what the undivided one holds: fields and currents cell by cell, the particles of each species in
    any order, each of them in the domain that its cell belongs to *)
Definition same_world (g : YeeModel.geo) (R C s : Z) (w1 : world1) (w : world) : Prop :=
  same_fields g R C s (w_f w) (o_f w1) /\ same_current R C s (w_j w) (o_j w1) /\
  (exists ids, ids_ok {| nr := R * s; nz := C * s; rd_ := R; zd_ := C |} ids (w_p w) /\ ids_ok {| nr := g_nr g; nz := g_nz g; rd_ := 1; zd_ := 1 |} ids (o_p w1)) /\
  (forall sid, Permutation (particles_of {| nr := R * s; nz := C * s; rd_ := R; zd_ := C |} sid (w_p w))
                           (particles_of {| nr := g_nr g; nz := g_nz g; rd_ := 1; zd_ := 1 |} sid (o_p w1))) /\
  (forall i k t q, 0 <= i < R -> 0 <= k < C -> In t (w_p w i k) -> In q (snd t) ->
     home (pt_cr (g_dr g)) (pt_cz (g_dz g)) {| nr := R * s; nz := C * s; rd_ := R; zd_ := C |} i k q).

Section Round.
Variable pusher : Z -> v3 -> v3 -> v3 -> outcome v3.
Variable charge : Z -> R.
Variable mu : R.
Variable g : YeeModel.geo.
Variables R C s : Z.
Hypothesis HR : 1 <= R.
Hypothesis HC : 1 <= C.
Hypothesis Hs : 4 <= s.
Hypothesis Gr : g_nr g = R * s.
Hypothesis Gz : g_nz g = C * s.
Hypothesis GrL : g_nr g < 2 ^ 31.
Hypothesis GzL : g_nz g < 2 ^ 31.
Hypothesis D0 : g_d0 g = 0.
Hypothesis D1 : g_d1 g = 0.
Hypothesis Hdr : (0 < g_dr g)%R.
Hypothesis Hdz : (0 < g_dz g)%R.
Variables eps sg : doms (grid Rdefinitions.R).
Variables Eps Sg : grid Rdefinitions.R.
Hypothesis Heps : inner2 R C s eps Eps.
Hypothesis Hsg : inner2 R C s sg Sg.
Let a := {| nr := R * s; nz := C * s; rd_ := R; zd_ := C |}.
Let a1 := {| nr := g_nr g; nz := g_nz g; rd_ := 1; zd_ := 1 |}.
Let dr := g_dr g.
Let dz := g_dz g.

Lemma area_good : good_area a.
Proof using HR HC Hs Gr Gz GrL GzL. rewrite Gr in GrL. rewrite Gz in GzL. unfold good_area, sane, a. cbn [nr nz rd_ zd_]. repeat split; try nia; [exists s|exists s]; ring. Qed.
Lemma area1_good : good_area a1.
Proof using HR HC Hs Gr Gz GrL GzL. unfold good_area, sane, a1. cbn [nr nz rd_ zd_]. repeat split; try nia; [exists (g_nr g)|exists (g_nz g)]; ring. Qed.
Lemma bound_dom n i : 1 <= n -> n * s < 2 ^ 31 -> 0 <= i <= n -> DecompModel.bound (n * s) n 0 i = i * s.
Proof using Hs. intros Hn HL Hi. rewrite (Z.mul_comm n s), bound_mult; [ring| |exact Hi]. unfold sane. nia. Qed.
Lemma bound_one n : 0 <= n < 2 ^ 31 -> DecompModel.bound n 1 0 0 = 0 /\ DecompModel.bound n 1 0 1 = n.
Proof using.
  clear. intros H. assert (S : sane (n * 1) 1 0) by (unfold sane; lia).
  assert (A := bound_mult 0 1 n S ltac:(lia)). assert (B := bound_mult 1 1 n S ltac:(lia)). rewrite Z.mul_1_r in A, B. lia.
Qed.
Lemma home_cells i k q : 0 <= i < R -> 0 <= k < C -> -1 <= cell_number (pos_r (now q)) dr <= g_nr g -> -1 <= cell_number (pos_z (now q)) dz <= g_nz g ->
  home (pt_cr dr) (pt_cz dz) a i k q -> i * s <= cell_number (pos_r (now q)) dr < i * s + s /\ k * s <= cell_number (pos_z (now q)) dz < k * s + s.
Proof using HR HC Hs Gr Gz GrL GzL.
  intros Hi Hk Cr' Cz' [H1 H2]. cbn [nr nz rd_ zd_ a] in H1, H2.
  unfold pt_cr, part_cr in H1. unfold pt_cz, part_cz in H2.
  change (ParticleModel.cell_number (pos_r (now q)) dr) with (cell_number (pos_r (now q)) dr) in H1. change (ParticleModel.cell_number (pos_z (now q)) dz) with (cell_number (pos_z (now q)) dz) in H2.
  rewrite s32_small, !bound_dom in H1 by lia. rewrite s32_small, !bound_dom in H2 by lia. lia.
Qed.
Lemma set_vel_home b i k q v : home (pt_cr dr) (pt_cz dz) b i k q -> home (part_cr dr) (part_cz dz) b i k (set_vel (now q) v).
Proof using. auto. Qed.
Lemma flies_dom i k q v : 0 <= i < R -> 0 <= k < C -> home (pt_cr dr) (pt_cz dz) a i k q -> calm g s (set_vel (now q) v) ->
  advanced (domain_geo a dr dz i k) (g_dt g) (set_vel (now q) v) (flight (g_nr g) (g_nz g) dr dz (g_dt g) (set_vel (now q) v)).
Proof using HR HC Hs Gr Gz GrL GzL Hdr Hdz.
  intros Hi Hk Hh Cm. apply (calm_flies g s Hdr Hdz ltac:(nia) ltac:(nia) a i k); auto; cbn [nr nz rd_ zd_ a]; try lia; try nia.
  - apply area_good.
  - intros n Hn. exists n. apply bound_dom; lia.
  - intros n Hn. exists n. apply bound_dom; lia.
Qed.
Lemma flies_one p : calm g s p -> advanced (domain_geo a1 dr dz 0 0) (g_dt g) p (flight (g_nr g) (g_nz g) dr dz (g_dt g) p).
Proof using HR HC Hs Gr Gz GrL GzL Hdr Hdz.
  intros Cm. assert (R0 : 0 <= g_nr g < 2 ^ 31) by nia. assert (Z0 : 0 <= g_nz g < 2 ^ 31) by nia.
  destruct (bound_one (g_nr g) R0) as [B1 B2]. destruct (bound_one (g_nz g) Z0) as [B3 B4]. destruct (calm_cells g s Hdr Hdz p Cm) as [CR CZ].
  apply (calm_flies g s Hdr Hdz ltac:(nia) ltac:(nia) a1 0 0); auto; cbn [nr nz rd_ zd_ a1]; try lia; try nia.
  - apply area1_good.
  - intros n Hn. exists 0. replace n with 0 by lia. now rewrite B1.
  - intros n Hn. exists 0. replace n with 0 by lia. now rewrite B3.
  - unfold home. cbn [nr nz rd_ zd_ a1]. rewrite B1, B3. change (0 + 1) with 1. rewrite B2, B4. unfold part_cr, part_cz.
    change (ParticleModel.cell_number (pos_r p) (g_dr g)) with (cell_number (pos_r p) (g_dr g)). change (ParticleModel.cell_number (pos_z p) (g_dz g)) with (cell_number (pos_z p) (g_dz g)).
    rewrite !s32_small by lia. lia.
Qed.
(** one particle: what the undivided area does with it, its domain does *)
Lemma step_same m y i k sid q q' : 0 <= i < R -> 0 <= k < C -> same_fields g R C s m y ->
  matches R C s (fun p => y_e (m p)) (y_e y) -> matches R C s (fun p => y_h (m p)) (y_h y) -> home (pt_cr dr) (pt_cz dz) a i k q ->
  R = 1 \/ C = 1 \/ ~ crossing g s (pos_r (now q)) (pos_z (now q)) -> (forall v, new_velocity pusher g y sid q v -> calm g s (set_vel (now q) v)) ->
  step_particle pusher g (domain_geo a1 dr dz 0 0) y sid q q' ->
  step_particle pusher (dom_geo g R C s (i, k)) (domain_geo a dr dz i k) (m (i, k)) sid q q' /\
  exists v, calm g s (set_vel (now q) v) /\ now q' = flight (g_nr g) (g_nz g) dr dz (g_dt g) (set_vel (now q) v) /\ old_r q' = pos_r (now q) /\ old_z q' = pos_z (now q).
Proof using HR HC Hs Gr Gz GrL GzL D0 D1 Hdr Hdz.
  intros Hi Hk ((Fe & Fh & _) & Le & Lh & _) Ae Ah Hh Nb Cm (e & b & v & Ee & Eb & Ev & Adv & O1 & O2).
  assert (Cv : calm g s (set_vel (now q) v)) by (apply Cm; exists e, b; auto).
  destruct (calm_cells g s Hdr Hdz _ Cv) as [CR CZ]. cbn [set_vel pos_r pos_z] in CR, CZ.
  fold dr in CR. fold dz in CZ. destruct (home_cells i k q Hi Hk ltac:(lia) ltac:(lia) Hh) as [Hr Hz]. rewrite Gr, Gz in Fe, Fh.
  destruct (interpolation_dom g R C s HR HC Hs D0 D1 Hdr Hdz _ _ i k _ _ Hi Hk Le Fe Ae Hr Hz Nb) as [I1 _].
  destruct (interpolation_dom g R C s HR HC Hs D0 D1 Hdr Hdz _ _ i k _ _ Hi Hk Lh Fh Ah Hr Hz Nb) as [_ I2].
  assert (E' : now q' = flight (g_nr g) (g_nz g) dr dz (g_dt g) (set_vel (now q) v)).
  { apply (advanced_unique (domain_geo a1 dr dz 0 0) (g_dt g) (set_vel (now q) v)); [exact Adv|now apply flies_one]. }
  split; [|exists v; auto].
  exists e, b, v. cbv beta in I1, I2. rewrite I1, I2. split; [exact Ee|]. split; [exact Eb|]. split; [exact Ev|]. split; [|auto].
  rewrite E'. apply (flies_dom i k q v Hi Hk Hh Cv).
Qed.
Lemma step_particle_fun h G y sid q q1 q2 : step_particle pusher h G y sid q q1 -> step_particle pusher h G y sid q q2 -> q1 = q2.
Proof using.
  intros (e & b & v & E1 & E2 & E3 & A & O1 & O2) (e' & b' & v' & E1' & E2' & E3' & A' & O1' & O2').
  rewrite E1' in E1. injection E1 as ->. rewrite E2' in E2. injection E2 as ->. rewrite E3' in E3. injection E3 as ->.
  assert (X := advanced_unique _ _ _ _ _ A A'). destruct q1, q2. cbn in *. congruence.
Qed.

Lemma pt_eq_dec (x y : pt) : {x = y} + {x <> y}.
Proof using. decide equality; [apply Req_EM_T|apply Req_EM_T|apply part_eq_dec]. Qed.
Lemma pt_int q : int_cells (pt_cr dr) (pt_cz dz) q.
Proof using. exact (int_cells_part dr dz (now q)). Qed.
Lemma alive_same q : alive (pt_cr dr) (pt_cz dz) a1 q = alive (pt_cr dr) (pt_cz dz) a q.
Proof using Gr Gz. unfold alive. cbn [nr nz a a1]. now rewrite Gr, Gz. Qed.
(** what is known of a particle after its step in domain (i, k) *)
Let stepped (m : doms yee) (y : yee) (i k sid : Z) (q q' : pt) : Prop :=
  step_particle pusher (dom_geo g R C s (i, k)) (domain_geo a dr dz i k) (m (i, k)) sid q q' /\
  step_particle pusher g (domain_geo a1 dr dz 0 0) y sid q q' /\
  (cell_number (pos_r (now q')) dr - 1 <= cell_number (old_r q') dr <= cell_number (pos_r (now q')) dr + 1 /\
   cell_number (pos_z (now q')) dz - 1 <= cell_number (old_z q') dz <= cell_number (pos_z (now q')) dz + 1) /\
  0 <= cell_number (old_r q') dr < g_nr g /\ 0 <= cell_number (old_z q') dz < g_nz g /\ (0 < pos_r (now q'))%R /\ (0 < old_r q')%R.

(** a particle of domain (i, k) after a round of the undivided area *)
Let arrived (w1' : world1) (i k : Z) (p : CurrentModel.mover) : Prop :=
  lands_from_near (dom_geo g R C s (i, k)) p /\ lands (dom_geo g R C s (i, k)) p /\
  exists t q, In t (o_p w1' 0 0) /\ In q (snd t) /\ p = mover_of charge dr dz (fst t) q /\ domain_of g s q = (i, k).
(** the round of the divided area exists if the scheme of the currents gives the same on both sides *)
Lemma round_any dist w1 w1' w : one_round pusher charge dist mu g Eps Sg w1 w1' -> calm_moves pusher g R C s w1 w1' ->
  (forall ps j J, all_fit R C s j -> fits3 (R * s) (C * s) J -> Permutation (movers charge dr dz (o_p w1' 0 0)) (everyone R C ps) ->
     (forall i k, 0 <= i < R -> 0 <= k < C -> Forall (arrived w1' i k) (ps (i, k))) ->
     exists j' J', smb_current dist g R C s ps j = Ok j' /\ one_current dist g (movers charge dr dz (o_p w1' 0 0)) J = Ok J' /\ same_current R C s j' J') ->
  same_world g R C s w1 w -> exists w', smb_round pusher charge dist mu g R C s eps sg w w' /\ same_world g R C s w1' w'.
Proof using HR HC Hs Gr Gz GrL GzL D0 D1 Hdr Hdz Heps Hsg.
  intros (p1 & Ey & [St _] & Ec & Ej) (Cm & Cx) Dep (SF & SJ & (ids & Ia & I1) & Pm & Hm).
  assert (HsL : s + 4 < 2 ^ 32) by nia.
  fold a in Ia, Pm, Hm. fold a1 in I1, Pm, St, Ec. fold dr in Hm, St, Ec, Ej. fold dz in Hm, St, Ec, Ej.
  destruct (C65_step mu g R C s HR HC Hs HsL Gr Gz ltac:(lia) ltac:(lia) eps sg Eps Sg Heps Hsg (w_j w) (o_j w1) (w_f w) (o_f w1) SF SJ) as (m' & y' & E1 & E2 & SF').
  rewrite Ey in E2. injection E2 as <-. set (y' := o_f w1') in *.
  destruct (step_corners mu g R C s HR HC Hs HsL Gr Gz ltac:(lia) ltac:(lia) eps sg Eps Sg Heps Hsg (w_j w) (o_j w1) (w_f w) (o_f w1) m' y' SF SJ E1 Ey) as (Me & Mh & _).
  assert (St0 := St 0 0 ltac:(cbn; lia) ltac:(cbn; lia)). cbv beta in St0. unfold step_domain in St0.
  (* every particle of the domains has its step in the undivided area *)
  assert (Has : forall i k t q, 0 <= i < R -> 0 <= k < C -> In t (w_p w i k) -> In q (snd t) -> exists q', stepped m' y' i k (fst t) q q').
  { intros i k t q Hi Hk Ht Hq.
    assert (Q : In q (particles_of a (fst t) (w_p w))) by (apply In_particles; exists i, k, t; cbn [rd_ zd_ a]; auto).
    apply (Permutation_in _ (Pm (fst t))), In_particles in Q as (i0 & k0 & t0 & Hi0 & Hk0 & Ht0 & Et & Hq0). cbn [rd_ zd_ a1] in Hi0, Hk0.
    replace i0 with 0 in Ht0 by lia. replace k0 with 0 in Ht0 by lia.
    assert (X : exists q', step_particle pusher g (domain_geo a1 dr dz 0 0) y' (fst t) q q').
    { clear - St0 Ht0 Et Hq0. induction St0 as [|u u' l l' [Eu Fu] _ IH]; [destruct Ht0|]. destruct Ht0 as [->|Ht0]; [|now apply IH].
      rewrite Et in Fu. clear - Fu Hq0. induction Fu as [|x x' l l' Hx _ IH]; [destruct Hq0|]. destruct Hq0 as [->|Hq0]; [now exists x'|now apply IH]. }
    destruct X as [q' Sq]. exists q'.
    destruct (step_same m' y' i k (fst t) q q' Hi Hk SF' Me Mh (Hm i k t q Hi Hk Ht Hq)) as (Sd & v & Cv & En & O1 & O2).
    - destruct Cx as [Cx|[Cx|Cx]]; auto. right. right. now apply (Cx t0).
    - intros v Nv. apply (Cm t0 q v Ht0 Hq0). now rewrite Et.
    - exact Sq.
    - split; [exact Sd|]. split; [exact Sq|]. rewrite O1, O2, En.
      destruct (calm_near g s Hdr Hdz _ Cv) as [N1 N2]. destruct (calm_cells g s Hdr Hdz _ Cv) as [K1 K2]. cbn [set_vel pos_r pos_z] in N1, N2, K1, K2.
      split; [split; [exact N1|exact N2]|]. split; [assumption|]. split; [assumption|]. split; [now apply (calm_positive g s); [exact Hdr|nia|]|].
      destruct Cv as (_ & Cv & _). cbn [set_vel pos_r] in Cv. fold dr in Cv. unfold dr in *. lra. }
  destruct (step_build a (stepped m' y') (w_p w) Has) as (st1 & Sd & So).
  assert (Perm1 : forall sid, Permutation (particles_of a sid st1) (particles_of a1 sid p1)).
  { intros sid. apply (perm_related (step_particle pusher g (domain_geo a1 dr dz 0 0) y' sid) (particles_of a sid (w_p w)) (particles_of a1 sid (o_p w1))); auto.
    - intros; eapply step_particle_fun; eauto.
    - apply (stepped_species a (stepped m' y') (step_particle pusher g (domain_geo a1 dr dz 0 0) y')); auto. intros i k q q' _ _ (_ & H & _). exact H.
    - apply (stepped_species a1 (fun i k => step_particle pusher g (domain_geo a1 dr dz i k) y') (step_particle pusher g (domain_geo a1 dr dz 0 0) y')).
      + intros i k q q' Hi Hk. cbn [rd_ zd_ a1] in Hi, Hk. replace i with 0 by lia. now replace k with 0 by lia.
      + exact St. }
  assert (Is : ids_ok a ids st1).
  { destruct Ia as [N I]. split; [exact N|]. intros i k Hi Hk. rewrite <- (I i k Hi Hk). specialize (Sd i k Hi Hk). clear - Sd.
    induction Sd as [|u u' l l' [E _] _ IH]; [reflexivity|]. cbn [map]. now rewrite E, IH. }
  assert (Ip : ids_ok a1 ids p1).
  { destruct I1 as [N I]. split; [exact N|]. intros i k Hi Hk. rewrite <- (I i k Hi Hk). specialize (St i k Hi Hk). clear - St. unfold step_domain in St.
    induction St as [|u u' l l' [E _] _ IH]; [reflexivity|]. cbn [map]. now rewrite E, IH. }
  destruct (C08_collector_conserves pt pt_eq_dec (pt_cr dr) (pt_cz dz) a ids st1 area_good pt_int Is) as (st' & Ec' & I' & P' & H').
  destruct (C08_collector_conserves pt pt_eq_dec (pt_cr dr) (pt_cz dz) a1 ids p1 area1_good pt_int Ip) as (so' & Eo & Io & Po & _).
  rewrite Ec in Eo. injection Eo as <-.
  assert (Hm' : forall i k t q, 0 <= i < R -> 0 <= k < C -> In t (st' i k) -> In q (snd t) -> home (pt_cr dr) (pt_cz dz) a i k q).
  { intros i k [sid l] q Hi Hk Ht Hq. exact (H' i k sid l q Hi Hk Ht Hq). }
  assert (PF : forall (f : pt -> bool) l l', Permutation l l' -> Permutation (filter f l) (filter f l')).
  { intros f l l' P. induction P as [|x l l' P IH|x y l|l l' l'' P1 IH1 P2 IH2]; cbn [filter]; [constructor| | |now rewrite IH1].
    - destruct (f x); [now constructor|exact IH].
    - destruct (f x), (f y); (reflexivity || apply perm_swap). }
  assert (Pm' : forall sid, Permutation (particles_of a sid st') (particles_of a1 sid (o_p w1'))).
  { intros sid. rewrite P', Po, (PF _ _ _ (Perm1 sid)). rewrite (filter_ext _ _ (fun q => eq_sym (alive_same q))). reflexivity. }
  (* where the particles of the domains come from *)
  assert (Fr : forall i k t q, 0 <= i < R -> 0 <= k < C -> In t (st' i k) -> In q (snd t) ->
     (i * s <= cell_number (pos_r (now q)) dr < i * s + s /\ k * s <= cell_number (pos_z (now q)) dz < k * s + s) /\
     cell_number (pos_r (now q)) dr - 1 <= cell_number (old_r q) dr <= cell_number (pos_r (now q)) dr + 1 /\
     cell_number (pos_z (now q)) dz - 1 <= cell_number (old_z q) dz <= cell_number (pos_z (now q)) dz + 1 /\ (0 < pos_r (now q))%R /\ (0 < old_r q)%R).
  { intros i k t q Hi Hk Ht Hq.
    assert (Q : In q (particles_of a (fst t) st')) by (apply In_particles; exists i, k, t; cbn [rd_ zd_ a]; auto).
    apply (Permutation_in _ (P' (fst t))), filter_In in Q as [Q _]. apply In_particles in Q as (i0 & k0 & t0 & Hi0 & Hk0 & Ht0 & Et & Hq0).
    destruct (forall2_in _ _ _ t0 (Sd i0 k0 Hi0 Hk0) Ht0) as (u & Hu & _ & Fu). destruct (forall2_in _ _ _ q Fu Hq0) as (q0 & _ & _ & _ & [N1 N2] & K1 & K2 & K3 & K4).
    split; [|auto]. apply home_cells; auto; try lia. now apply (Hm' i k t q). }
  set (ps := fun ik : Z * Z => movers charge dr dz (st' (fst ik) (snd ik))).
  assert (InP : forall i k p, In p (ps (i, k)) -> exists t q, In t (st' i k) /\ In q (snd t) /\ p = mover_of charge dr dz (fst t) q).
  { intros i k p Hp. unfold ps, movers in Hp. cbn [fst snd] in Hp. apply in_flat_map in Hp as (t & Ht & Hp). apply in_map_iff in Hp as (q & <- & Hq). eauto. }
  destruct (Dep ps (w_j w) (o_j w1)) as (j' & J' & Ej1 & Ej2 & SJ').
  - apply SJ.
  - apply SJ.
  - assert (X := everyone_species (mover_of charge dr dz) a ids st' I'). cbn [rd_ zd_ a] in X. change (fun ik => flat_map _ _) with ps in X. rewrite X.
    assert (Y := everyone_species (mover_of charge dr dz) a1 ids (o_p w1') Io). cbn [rd_ zd_ a1] in Y.
    unfold everyone, zrange in Y. change (Z.to_nat (1 - 0)) with 1%nat in Y. cbn [zseq flat_map fst snd] in Y. rewrite !app_nil_r in Y.
    unfold movers at 1. rewrite Y. apply perm_flat_ext. intros sid _. apply Permutation_map. symmetry. apply Pm'.
  - intros i k Hi Hk. apply Forall_forall. intros p Hp. destruct (InP i k p Hp) as (t & q & Ht & Hq & ->).
    destruct (Fr i k t q Hi Hk Ht Hq) as ([A1 A2] & A3 & A4 & A5 & A6). unfold arrived, lands_from_near, lands, ThmCurrent.bound, dom_geo.
    cbn [fst snd g_d0 g_d1 g_nr g_nz g_dr g_dz mover_of m_r m_z m_ro m_zo m_cr m_cz]. unfold pt_cr, pt_cz, part_cr, part_cz.
    change (ParticleModel.cell_number (pos_r (now q)) dr) with (cell_number (pos_r (now q)) dr). change (ParticleModel.cell_number (pos_z (now q)) dz) with (cell_number (pos_z (now q)) dz).
    fold dr dz. rewrite !s32_small by nia. rewrite D0, D1. split; [lia|]. split; [repeat split; auto; lia|].
    assert (Q : In q (particles_of a (fst t) st')) by (apply In_particles; exists i, k, t; cbn [rd_ zd_ a]; auto).
    apply (Permutation_in _ (Pm' (fst t))), In_particles in Q as (i0 & k0 & t0 & Hi0 & Hk0 & Ht0 & Et & Hq0). cbn [rd_ zd_ a1] in Hi0, Hk0.
    replace i0 with 0 in Ht0 by lia. replace k0 with 0 in Ht0 by lia. exists t0, q. split; [exact Ht0|]. split; [exact Hq0|]. split; [now rewrite Et|].
    unfold domain_of. fold dr dz. f_equal; symmetry; [apply (Z.div_unique _ _ _ (cell_number (pos_r (now q)) dr - i * s))|apply (Z.div_unique _ _ _ (cell_number (pos_z (now q)) dz - k * s))]; lia.
  - rewrite Ej in Ej2. injection Ej2 as <-.
    exists (mkWorld m' j' st'). split.
    + exists st1. cbn [w_f w_j w_p]. split; [exact E1|]. split; [|split; [exact Ec'|exact Ej1]].
      split; [|exact So]. intros i k Hi Hk. specialize (Sd i k Hi Hk). clear - Sd. unfold step_domain.
      induction Sd as [|u u' l l' [E F] _ IH]; constructor; auto. split; [exact E|]. clear - F. induction F as [|x x' l l' Hx _ IH]; constructor; auto. apply Hx.
    + split; [exact SF'|]. split; [exact SJ'|]. split; [exists ids; split; [exact I'|exact Io]|]. split; [exact Pm'|exact Hm'].
Qed.
Theorem C125_round_partial : forall w1 w1' w, one_round pusher charge zigzag_distribution mu g Eps Sg w1 w1' -> calm_round pusher charge g R C s w1 w1' ->
  same_world g R C s w1 w -> exists w', smb_round pusher charge zigzag_distribution mu g R C s eps sg w w' /\ same_world g R C s w1' w'.
Proof using HR HC Hs Gr Gz GrL GzL D0 D1 Hdr Hdz Heps Hsg.
  intros w1 w1' w O (Cm & Cx & Oc). apply round_any; [exact O|split; assumption|]. intros ps j J Fj FJ P A.
  assert (HsL : s + 4 < 2 ^ 32) by nia.
  destruct (C121_zigzag_partial g R C s HR HC Hs HsL Gr Gz ps (movers charge dr dz (o_p w1' 0 0)) j J Fj FJ P) as (j' & J' & E1 & E2 & S & _).
  - intros i k Hi Hk. eapply Forall_impl; [|apply (A i k Hi Hk)]. intros p H. apply H.
  - destruct Oc as [Oc|[Oc|Oc]]; auto. right. right. intros i k Hi Hk. eapply Forall_impl; [|apply (A i k Hi Hk)].
    intros p (_ & _ & t & q & Ht & Hq & -> & <-). now apply Oc.
  - eauto.
Qed.
(** the same with the scheme of Villasenor and Buneman *)
Theorem C125_vb_round_partial : forall w1 w1' w, one_round pusher charge vb_distribution mu g Eps Sg w1 w1' -> calm_round_vb pusher charge g R C s w1 w1' ->
  same_world g R C s w1 w -> exists w', smb_round pusher charge vb_distribution mu g R C s eps sg w w' /\ same_world g R C s w1' w'.
Proof using HR HC Hs Gr Gz GrL GzL D0 D1 Hdr Hdz Heps Hsg.
  intros w1 w1' w O (Cm & Dt & Ov). apply round_any; [exact O|exact Cm|]. intros ps j J Fj FJ P A.
  assert (HsL : s + 4 < 2 ^ 32) by nia.
  assert (Sz : sizes g) by (repeat split; assumption).
  apply C121_vb_own_partial; auto.
  - intros i k Hi Hk. eapply Forall_impl; [|apply (A i k Hi Hk)]. intros p H. apply H.
  - apply Forall_forall. intros p Hp. unfold movers in Hp. apply in_flat_map in Hp as (t & Ht & Hp). apply in_map_iff in Hp as (q & <- & Hq). now apply (Ov t q).
  - assert (N : (R = 1 \/ C = 1) \/ ~ (R = 1 \/ C = 1)) by lia. destruct N as [N|N]; [destruct N; auto|]. right. right. intros i k Hi Hk. apply Forall_fm. intros p Hp.
    specialize (A i k Hi Hk). rewrite Forall_forall in A. destruct (A p Hp) as (_ & L & t & q & Ht & Hq & -> & Ed).
    destruct (Ov t q Ht Hq) as (_ & _ & O3). apply rz_deps_no_corner; auto. destruct O3 as [O3|[O3|O3]]; [tauto|tauto|]. now rewrite <- Ed.
  - intros i k Hi Hk. eapply Forall_impl; [|apply (A i k Hi Hk)]. intros p (_ & _ & t & q & Ht & Hq & -> & <-). now apply Ov.
Qed.
End Round.

(** ** any number of rounds *)
Fixpoint rounds {W} (Q : W -> W -> Prop) (n : nat) (w w' : W) : Prop :=
  match n with O => w' = w | S n' => exists u, Q w u /\ rounds Q n' u w' end.
Section Run.
Variable pusher : Z -> v3 -> v3 -> v3 -> outcome v3.
Variable charge : Z -> R.
Variable mu : R.
Variable g : YeeModel.geo.
Variables R C s : Z.
Hypothesis HR : 1 <= R.
Hypothesis HC : 1 <= C.
Hypothesis Hs : 4 <= s.
Hypothesis Gr : g_nr g = R * s.
Hypothesis Gz : g_nz g = C * s.
Hypothesis GrL : g_nr g < 2 ^ 31.
Hypothesis GzL : g_nz g < 2 ^ 31.
Hypothesis D0 : g_d0 g = 0.
Hypothesis D1 : g_d1 g = 0.
Hypothesis Hdr : (0 < g_dr g)%R.
Hypothesis Hdz : (0 < g_dz g)%R.
Variables eps sg : doms (grid Rdefinitions.R).
Variables Eps Sg : grid Rdefinitions.R.
Hypothesis Heps : inner2 R C s eps Eps.
Hypothesis Hsg : inner2 R C s sg Sg.

Theorem C125_run_partial : forall n w1 w1' w,
  rounds (fun u v => one_round pusher charge zigzag_distribution mu g Eps Sg u v /\ calm_round pusher charge g R C s u v) n w1 w1' ->
  same_world g R C s w1 w -> exists w', rounds (smb_round pusher charge zigzag_distribution mu g R C s eps sg) n w w' /\ same_world g R C s w1' w'.
Proof using HR HC Hs Gr Gz GrL GzL D0 D1 Hdr Hdz Heps Hsg.
  induction n as [|n IH]; intros w1 w1' w; cbn [rounds].
  - intros -> S. exists w. auto.
  - intros (u & [O Cm] & Rn) S.
    destruct (C125_round_partial pusher charge mu g R C s HR HC Hs Gr Gz GrL GzL D0 D1 Hdr Hdz eps sg Eps Sg Heps Hsg w1 u w O Cm S) as (v & Sv & Sw).
    destruct (IH u w1' v Rn Sw) as (w' & Rw & S'). exists w'. split; [exists v; auto|exact S'].
Qed.
Theorem C125_vb_run_partial : forall n w1 w1' w,
  rounds (fun u v => one_round pusher charge vb_distribution mu g Eps Sg u v /\ calm_round_vb pusher charge g R C s u v) n w1 w1' ->
  same_world g R C s w1 w -> exists w', rounds (smb_round pusher charge vb_distribution mu g R C s eps sg) n w w' /\ same_world g R C s w1' w'.
Proof using HR HC Hs Gr Gz GrL GzL D0 D1 Hdr Hdz Heps Hsg.
  induction n as [|n IH]; intros w1 w1' w; cbn [rounds].
  - intros -> S. exists w. auto.
  - intros (u & [O Cm] & Rn) S.
    destruct (C125_vb_round_partial pusher charge mu g R C s HR HC Hs Gr Gz GrL GzL D0 D1 Hdr Hdz eps sg Eps Sg Heps Hsg w1 u w O Cm S) as (v & Sv & Sw).
    destruct (IH u w1' v Rn Sw) as (w' & Rw & S'). exists w'. split; [exists v; auto|exact S'].
Qed.
End Run.

(** the rounds are functions: what the theorem finds is what the program computes *)
Lemma forall2_fun {A} (Q : A -> A -> Prop) l : (forall x y z, Q x y -> Q x z -> y = z) -> forall l1 l2, Forall2 Q l l1 -> Forall2 Q l l2 -> l1 = l2.
Proof.
  intros F. induction l as [|x l IH]; intros l1 l2 H1 H2; inversion H1; inversion H2; subst; [reflexivity|]. f_equal; [eapply F; eassumption|now apply IH].
Qed.
Lemma step_all_fun pusher a hs Gs m st u v : step_all pusher a hs Gs m st u -> step_all pusher a hs Gs m st v -> u = v.
Proof.
  intros [A1 A2] [B1 B2]. apply FunctionalExtensionality.functional_extensionality. intros i. apply FunctionalExtensionality.functional_extensionality. intros k.
  assert (D : (0 <= i < rd_ a /\ 0 <= k < zd_ a) \/ ~ (0 <= i < rd_ a /\ 0 <= k < zd_ a)) by lia. destruct D as [[Hi Hk]|N].
  - eapply forall2_fun; [|apply A1; auto|apply B1; auto]. intros x y z [E1 F1] [E2 F2]. destruct y, z. cbn [fst snd] in *. f_equal; [congruence|].
    eapply forall2_fun; [|exact F1|exact F2]. intros; eapply step_particle_fun; eauto.
  - now rewrite A2, B2.
Qed.
Theorem C125_deterministic : forall pusher charge dist mu g R C s eps sg w u v,
  smb_round pusher charge dist mu g R C s eps sg w u -> smb_round pusher charge dist mu g R C s eps sg w v -> u = v.
Proof.
  intros pusher charge dist mu g R C s eps sg w [uf uj up] [vf vj vp] (p & E1 & S1 & C1 & J1) (q & E2 & S2 & C2 & J2). cbn [w_f w_j w_p] in *.
  rewrite E1 in E2. injection E2 as <-. assert (p = q) by (eapply step_all_fun; eauto). subst q. rewrite C1 in C2. injection C2 as <-. rewrite J1 in J2. now injection J2 as <-.
Qed.

(** ** an example: one particle goes from domain (0, 0) to domain (0, 1) while the fields change *)
Definition coast : Z -> v3 -> v3 -> v3 -> outcome v3 := fun _ _ _ v => Ok v.
Definition runner : part := {| pos_r := 5 / 4; pos_phi := 0; pos_z := 15 / 4; vel_r := / 2; vel_phi := 0; vel_z := / 2; p_sin := 0; weight := 1 |}.
Definition runner0 : pt := mkPt runner (5 / 4) (15 / 4).
Definition start1 : world1 := mkWorld1 (mkYee (sz3 8 0) (sz3 8 0) (sz3 8 0)) (sz3 8 1) (fun _ _ => [(7, [runner0])]).
Definition start : world := mkWorld (fun _ => mkYee (sz3 4 0) (sz3 4 0) (sz3 4 0)) (fun _ => sz3 4 1)
  (fun i k => [(7, if (i =? 0) && (k =? 0) then [runner0] else [])]).
Lemma runner_radius : sqrt ((5 / 4 + / 2 * 1) * (5 / 4 + / 2 * 1) + 0 * 1 * (0 * 1)) = (7 / 4)%R.
Proof. replace ((5 / 4 + / 2 * 1) * (5 / 4 + / 2 * 1) + 0 * 1 * (0 * 1))%R with (7 / 4 * (7 / 4))%R by field. apply sqrt_square. lra. Qed.
Lemma half_not_int (n : Z) (x : R) : (IZR n < x < IZR n + 1)%R -> forall m, x <> IZR m.
Proof. intros H m E. rewrite E in H. destruct H as [H1 H2]. apply lt_IZR in H1. rewrite <- (plus_IZR n 1) in H2. apply lt_IZR in H2. lia. Qed.
Lemma runner_calm : calm geo8 4 runner.
Proof.
  unfold calm. cbv zeta. cbn [g_dr g_dz g_dt g_nr g_nz geo8 runner pos_r pos_phi pos_z vel_r vel_phi vel_z].
  split; [reflexivity|]. split; [lra|]. split; [lra|]. split.
  { replace ((/ 2 * 1) ^ 2 + (0 * 1) ^ 2)%R with (/ 2 * / 2)%R by field. rewrite sqrt_square by lra. lra. }
  split; [rewrite Rabs_right; lra|]. intros n. rewrite runner_radius, !Rmult_1_r. split; [apply (half_not_int 1)|apply (half_not_int 4)]; lra.
Qed.
Definition landed : part := flight 8 8 1 1 1 runner.
Lemma landed_at : pos_r landed = (7 / 4)%R /\ pos_z landed = (17 / 4)%R.
Proof.
  unfold landed. cbn [flight pos_r pos_z vel_r vel_phi vel_z runner]. rewrite runner_radius. unfold bounce.
  repeat (destruct (Rlt_dec _ _); cbn [fst]; try lra).
Qed.
Lemma cell_is x n : (IZR n <= x < IZR n + 1)%R -> cell_number x 1 = n.
Proof. intros H. cut (n <= cell_number x 1 < n + 1); [lia|]. apply cell_number_range; [lra|]. rewrite plus_IZR. lra. Qed.

Example C125_ex : inner2 2 2 4 (fun _ => sz 4 1) (sz 8 1) /\ inner2 2 2 4 (fun _ => sz 4 0) (sz 8 0) /\ same_world geo8 2 2 4 start1 start /\
  exists w1', one_round coast (fun _ => 1%R) zigzag_distribution 1 geo8 (sz 8 1) (sz 8 0) start1 w1' /\ calm_round coast (fun _ => 1%R) geo8 2 2 4 start1 w1' /\
  exists w', smb_round coast (fun _ => 1%R) zigzag_distribution 1 geo8 2 2 4 (fun _ => sz 4 1) (fun _ => sz 4 0) start w' /\ same_world geo8 2 2 4 w1' w' /\
    exists t q, In t (w_p w' 0 1) /\ In q (snd t) /\ pos_r (now q) = (7 / 4)%R /\ pos_z (now q) = (17 / 4)%R /\ old_z q = (15 / 4)%R.
Proof.
  assert (Ie : inner2 2 2 4 (fun _ => sz 4 1) (sz 8 1)) by apply C65_example. assert (Is : inner2 2 2 4 (fun _ => sz 4 0) (sz 8 0)) by apply C65_example.
  assert (SF : same_fields geo8 2 2 4 (w_f start) (o_f start1)) by apply C65_example. assert (SJ : same_current 2 2 4 (w_j start) (o_j start1)) by apply C65_example.
  assert (Cr0 : cell_number (5 / 4) 1 = 1) by (apply cell_is; lra). assert (Cz0 : cell_number (15 / 4) 1 = 3) by (apply cell_is; lra).
  assert (Cr1 : cell_number (7 / 4) 1 = 1) by (apply cell_is; lra). assert (Cz1 : cell_number (17 / 4) 1 = 4) by (apply cell_is; lra).
  assert (Sw : same_world geo8 2 2 4 start1 start).
  { split; [exact SF|]. split; [exact SJ|]. split.
    - exists [7]. split; (split; [repeat constructor; intros []|]); reflexivity.
    - split.
      + intros sid. cbn [start start1 w_p o_p]. unfold particles_of. cbn [rd_ zd_ nr nz g_nr g_nz geo8]. vm_compute pairs. cbn [flat_map fst snd]. destruct (7 =? sid); reflexivity.
      + intros i k t q Hi Hk Ht Hq. cbn [start w_p] in Ht. destruct ((i =? 0) && (k =? 0)) eqn:E; destruct Ht as [<-|[]]; cbn [snd] in Hq; [|destruct Hq].
        destruct Hq as [<-|[]]. assert (i = 0 /\ k = 0) as [-> ->] by lia.
        unfold home, pt_cr, pt_cz, part_cr, part_cz. cbn [runner0 now runner pos_r pos_z g_dr g_dz geo8 nr nz rd_ zd_].
        change (ParticleModel.cell_number (5 / 4) 1) with (cell_number (5 / 4) 1). change (ParticleModel.cell_number (15 / 4) 1) with (cell_number (15 / 4) 1).
        rewrite Cr0, Cz0. vm_compute. intuition congruence. }
  split; [exact Ie|]. split; [exact Is|]. split; [exact Sw|].
  destruct (C65_step 1 geo8 2 2 4 ltac:(lia) ltac:(lia) ltac:(lia) ltac:(lia) eq_refl eq_refl ltac:(cbn; lia) ltac:(cbn; lia) _ _ _ _ Ie Is _ _ _ _ SF SJ) as (m' & y' & E1 & E2 & SF').
  set (a1 := {| nr := g_nr geo8; nz := g_nz geo8; rd_ := 1; zd_ := 1 |}).
  set (q1 := mkPt landed (5 / 4) (15 / 4)).
  set (p1 := upd_dom pt (o_p start1) 0 0 [(7, [q1])]).
  assert (Ga1 : good_area a1) by (apply (area1_good geo8 2 2 4); cbn; lia).
  assert (Fl : advanced (domain_geo a1 1 1 0 0) 1 runner landed) by (apply (flies_one geo8 2 2 4); cbn; try lia; try lra; apply runner_calm).
  assert (Ins : inside geo8 (5 / 4) (15 / 4)) by (unfold inside; cbn; repeat split; (lia || lra)).
  destruct SF' as ((Fe & Fh & Ft) & SF'').
  destruct (C41_defined geo8 (y_e y') _ _ Fe Ins) as (e & _ & Ee & _). destruct (C41_defined geo8 (y_h y') _ _ Fh Ins) as (_ & b & _ & Eb).
  assert (St : step_all coast a1 (fun _ => geo8) (domain_geo a1 1 1) (fun _ => y') (o_p start1) p1).
  { split.
    - intros i k Hi Hk. cbn [a1 rd_ zd_] in Hi, Hk. replace i with 0 by lia. replace k with 0 by lia. unfold step_domain, p1. rewrite upd_dom_eq. cbn [start1 o_p].
      constructor; [|constructor]. split; [reflexivity|]. cbn [snd fst]. constructor; [|constructor].
      exists e, b, (V3 (/ 2) 0 (/ 2)). split; [exact Ee|]. split; [exact Eb|]. split; [reflexivity|]. split; [exact Fl|]. split; reflexivity.
    - intros i k N. unfold p1. apply upd_dom_ne. intros [= -> ->]. apply N. cbn. lia. }
  assert (Ip : ids_ok a1 [7] p1).
  { split; [repeat constructor; intros []|]. intros i k Hi Hk. cbn [a1 rd_ zd_] in Hi, Hk. replace i with 0 by lia. replace k with 0 by lia. reflexivity. }
  destruct landed_at as [L1 L2].
  destruct (C08_collector_conserves pt pt_eq_dec (pt_cr 1) (pt_cz 1) a1 [7] p1 Ga1 (pt_int geo8) Ip) as (st' & Ec & Is' & P' & _).
  assert (Pq : particles_of a1 7 p1 = [q1]) by reflexivity.
  assert (Al : alive (pt_cr 1) (pt_cz 1) a1 q1 = true).
  { unfold alive, pt_cr, pt_cz, part_cr, part_cz. cbn [q1 now]. rewrite L1, L2.
    change (ParticleModel.cell_number (7 / 4) 1) with (cell_number (7 / 4) 1). change (ParticleModel.cell_number (17 / 4) 1) with (cell_number (17 / 4) 1). rewrite Cr1, Cz1. reflexivity. }
  assert (P7 : Permutation (particles_of a1 7 st') [q1]) by (rewrite P', Pq; cbn [filter]; now rewrite Al).
  assert (Only : forall t q, In t (st' 0 0) -> In q (snd t) -> fst t = 7 /\ q = q1).
  { intros t q Ht Hq. assert (Et : fst t = 7).
    { destruct Is' as [_ I]. specialize (I 0 0 ltac:(cbn; lia) ltac:(cbn; lia)). apply (in_map fst) in Ht. rewrite I in Ht. destruct Ht as [<-|[]]. reflexivity. }
    split; [exact Et|]. assert (Q : In q (particles_of a1 7 st')) by (apply In_particles; exists 0, 0, t; cbn [rd_ zd_ a1]; repeat split; auto; lia).
    apply (Permutation_in _ P7) in Q. destruct Q as [<-|[]]. reflexivity. }
  assert (LN : Forall (lands_from_near geo8) (movers (fun _ => 1%R) 1 1 (st' 0 0))).
  { apply Forall_forall. intros p Hp. unfold movers in Hp. apply in_flat_map in Hp as (t & Ht & Hp). apply in_map_iff in Hp as (q & <- & Hq).
    destruct (Only t q Ht Hq) as [_ ->]. unfold lands_from_near. cbn [mover_of m_r m_z m_ro m_zo q1 now old_r old_z g_dr g_dz g_d0 g_d1 g_nr g_nz geo8].
    rewrite L1, L2, Cr0, Cr1, Cz0, Cz1. lia. }
  destruct (zero_zigzag geo8 _ (o_j start1) (proj1 SJ) LN) as (j' & Ej & _).
  set (w1' := mkWorld1 y' j' st').
  assert (O1 : one_round coast (fun _ => 1%R) zigzag_distribution 1 geo8 (sz 8 1) (sz 8 0) start1 w1').
  { exists p1. split; [exact E2|]. split; [exact St|]. split; [exact Ec|exact Ej]. }
  assert (Cm : calm_round coast (fun _ => 1%R) geo8 2 2 4 start1 w1').
  { split; [|split; right; right].
    - intros t q v [<-|[]] [<-|[]] (e0 & b0 & _ & _ & Ev). injection Ev as <-. exact runner_calm.
    - intros t q [<-|[]] [<-|[]]. unfold crossing, near_low, near_high. cbv zeta. cbn [runner0 now runner pos_r pos_z g_dr g_dz geo8]. rewrite Cr0, Cz0.
      change (1 mod 4) with 1. lia.
    - intros t q Ht Hq. destruct (Only t q Ht Hq) as [_ ->]. unfold off_corner, from_r, from_z, domain_of, dom_geo.
      cbn [mover_of m_r m_z m_ro m_zo q1 now old_r old_z g_dr g_dz g_d0 g_d1 g_nr g_nz geo8 fst snd]. rewrite L1, L2, Cr0, Cr1, Cz0, Cz1. change (1 / 4) with 0. lia. }
  exists w1'. split; [exact O1|]. split; [exact Cm|].
  destruct (C125_round_partial coast (fun _ => 1%R) 1 geo8 2 2 4 ltac:(lia) ltac:(lia) ltac:(lia) eq_refl eq_refl ltac:(cbn; lia) ltac:(cbn; lia) eq_refl eq_refl
     ltac:(cbn; lra) ltac:(cbn; lra) _ _ _ _ Ie Is start1 w1' start O1 Cm Sw) as (w' & R' & S').
  exists w'. split; [exact R'|]. split; [exact S'|]. destruct S' as (_ & _ & _ & Pm & Hm).
  assert (Q : In q1 (particles_of {| nr := 2 * 4; nz := 2 * 4; rd_ := 2; zd_ := 2 |} 7 (w_p w'))).
  { apply (Permutation_in (l := particles_of a1 7 st')); [symmetry; apply Pm|]. apply (Permutation_in (l := [q1])); [now symmetry|now left]. }
  apply In_particles in Q as (i & k & t & Hi & Hk & Ht & _ & Hq). cbn [rd_ zd_] in Hi, Hk.
  assert (Hh := Hm i k t q1 Hi Hk Ht Hq).
  destruct (home_cells geo8 2 2 4 ltac:(lia) ltac:(lia) ltac:(lia) eq_refl eq_refl ltac:(cbn; lia) ltac:(cbn; lia) i k q1 Hi Hk) as [H1 H2];
    try (cbn [q1 now g_dr g_dz g_nr g_nz geo8]; rewrite ?L1, ?L2, ?Cr1, ?Cz1; lia); [exact Hh|].
  cbn [q1 now g_dr g_dz geo8] in H1, H2. rewrite L1, Cr1 in H1. rewrite L2, Cz1 in H2.
  exists t, q1. replace 0 with i by lia. replace 1 with k by lia. split; [exact Ht|]. split; [exact Hq|]. split; [exact L1|]. split; [exact L2|reflexivity].
Qed.

Example C125_vb_ex : inner2 2 2 4 (fun _ => sz 4 1) (sz 8 1) /\ inner2 2 2 4 (fun _ => sz 4 0) (sz 8 0) /\ same_world geo8 2 2 4 start1 start /\
  exists w1', one_round coast (fun _ => 1%R) vb_distribution 1 geo8 (sz 8 1) (sz 8 0) start1 w1' /\ calm_round_vb coast (fun _ => 1%R) geo8 2 2 4 start1 w1' /\
  exists w', smb_round coast (fun _ => 1%R) vb_distribution 1 geo8 2 2 4 (fun _ => sz 4 1) (fun _ => sz 4 0) start w' /\ same_world geo8 2 2 4 w1' w' /\
    exists t q, In t (w_p w' 0 1) /\ In q (snd t) /\ pos_r (now q) = (7 / 4)%R /\ pos_z (now q) = (17 / 4)%R /\ old_z q = (15 / 4)%R.
Proof.
  assert (Ie : inner2 2 2 4 (fun _ => sz 4 1) (sz 8 1)) by apply C65_example. assert (Is : inner2 2 2 4 (fun _ => sz 4 0) (sz 8 0)) by apply C65_example.
  assert (SF : same_fields geo8 2 2 4 (w_f start) (o_f start1)) by apply C65_example. assert (SJ : same_current 2 2 4 (w_j start) (o_j start1)) by apply C65_example.
  assert (Cr0 : cell_number (5 / 4) 1 = 1) by (apply cell_is; lra). assert (Cz0 : cell_number (15 / 4) 1 = 3) by (apply cell_is; lra).
  assert (Cr1 : cell_number (7 / 4) 1 = 1) by (apply cell_is; lra). assert (Cz1 : cell_number (17 / 4) 1 = 4) by (apply cell_is; lra).
  assert (Sw : same_world geo8 2 2 4 start1 start).
  { split; [exact SF|]. split; [exact SJ|]. split.
    - exists [7]. split; (split; [repeat constructor; intros []|]); reflexivity.
    - split.
      + intros sid. cbn [start start1 w_p o_p]. unfold particles_of. cbn [rd_ zd_ nr nz g_nr g_nz geo8]. vm_compute pairs. cbn [flat_map fst snd]. destruct (7 =? sid); reflexivity.
      + intros i k t q Hi Hk Ht Hq. cbn [start w_p] in Ht. destruct ((i =? 0) && (k =? 0)) eqn:E; destruct Ht as [<-|[]]; cbn [snd] in Hq; [|destruct Hq].
        destruct Hq as [<-|[]]. assert (i = 0 /\ k = 0) as [-> ->] by lia.
        unfold home, pt_cr, pt_cz, part_cr, part_cz. cbn [runner0 now runner pos_r pos_z g_dr g_dz geo8 nr nz rd_ zd_].
        change (ParticleModel.cell_number (5 / 4) 1) with (cell_number (5 / 4) 1). change (ParticleModel.cell_number (15 / 4) 1) with (cell_number (15 / 4) 1).
        rewrite Cr0, Cz0. vm_compute. intuition congruence. }
  split; [exact Ie|]. split; [exact Is|]. split; [exact Sw|].
  destruct (C65_step 1 geo8 2 2 4 ltac:(lia) ltac:(lia) ltac:(lia) ltac:(lia) eq_refl eq_refl ltac:(cbn; lia) ltac:(cbn; lia) _ _ _ _ Ie Is _ _ _ _ SF SJ) as (m' & y' & E1 & E2 & SF').
  set (a1 := {| nr := g_nr geo8; nz := g_nz geo8; rd_ := 1; zd_ := 1 |}).
  set (q1 := mkPt landed (5 / 4) (15 / 4)).
  set (p1 := upd_dom pt (o_p start1) 0 0 [(7, [q1])]).
  assert (Ga1 : good_area a1) by (apply (area1_good geo8 2 2 4); cbn; lia).
  assert (Fl : advanced (domain_geo a1 1 1 0 0) 1 runner landed) by (apply (flies_one geo8 2 2 4); cbn; try lia; try lra; apply runner_calm).
  assert (Ins : inside geo8 (5 / 4) (15 / 4)) by (unfold inside; cbn; repeat split; (lia || lra)).
  destruct SF' as ((Fe & Fh & Ft) & SF'').
  destruct (C41_defined geo8 (y_e y') _ _ Fe Ins) as (e & _ & Ee & _). destruct (C41_defined geo8 (y_h y') _ _ Fh Ins) as (_ & b & _ & Eb).
  assert (St : step_all coast a1 (fun _ => geo8) (domain_geo a1 1 1) (fun _ => y') (o_p start1) p1).
  { split.
    - intros i k Hi Hk. cbn [a1 rd_ zd_] in Hi, Hk. replace i with 0 by lia. replace k with 0 by lia. unfold step_domain, p1. rewrite upd_dom_eq. cbn [start1 o_p].
      constructor; [|constructor]. split; [reflexivity|]. cbn [snd fst]. constructor; [|constructor].
      exists e, b, (V3 (/ 2) 0 (/ 2)). split; [exact Ee|]. split; [exact Eb|]. split; [reflexivity|]. split; [exact Fl|]. split; reflexivity.
    - intros i k N. unfold p1. apply upd_dom_ne. intros [= -> ->]. apply N. cbn. lia. }
  assert (Ip : ids_ok a1 [7] p1).
  { split; [repeat constructor; intros []|]. intros i k Hi Hk. cbn [a1 rd_ zd_] in Hi, Hk. replace i with 0 by lia. replace k with 0 by lia. reflexivity. }
  destruct landed_at as [L1 L2].
  destruct (C08_collector_conserves pt pt_eq_dec (pt_cr 1) (pt_cz 1) a1 [7] p1 Ga1 (pt_int geo8) Ip) as (st' & Ec & Is' & P' & _).
  assert (Pq : particles_of a1 7 p1 = [q1]) by reflexivity.
  assert (Al : alive (pt_cr 1) (pt_cz 1) a1 q1 = true).
  { unfold alive, pt_cr, pt_cz, part_cr, part_cz. cbn [q1 now]. rewrite L1, L2.
    change (ParticleModel.cell_number (7 / 4) 1) with (cell_number (7 / 4) 1). change (ParticleModel.cell_number (17 / 4) 1) with (cell_number (17 / 4) 1). rewrite Cr1, Cz1. reflexivity. }
  assert (P7 : Permutation (particles_of a1 7 st') [q1]) by (rewrite P', Pq; cbn [filter]; now rewrite Al).
  assert (Only : forall t q, In t (st' 0 0) -> In q (snd t) -> fst t = 7 /\ q = q1).
  { intros t q Ht Hq. assert (Et : fst t = 7).
    { destruct Is' as [_ I]. specialize (I 0 0 ltac:(cbn; lia) ltac:(cbn; lia)). apply (in_map fst) in Ht. rewrite I in Ht. destruct Ht as [<-|[]]. reflexivity. }
    split; [exact Et|]. assert (Q : In q (particles_of a1 7 st')) by (apply In_particles; exists 0, 0, t; cbn [rd_ zd_ a1]; repeat split; auto; lia).
    apply (Permutation_in _ P7) in Q. destruct Q as [<-|[]]. reflexivity. }
  assert (Pc : pt_cr 1 q1 = 1 /\ pt_cz 1 q1 = 4).
  { unfold pt_cr, pt_cz, part_cr, part_cz. cbn [q1 now]. rewrite L1, L2.
    change (ParticleModel.cell_number (7 / 4) 1) with (cell_number (7 / 4) 1). change (ParticleModel.cell_number (17 / 4) 1) with (cell_number (17 / 4) 1). rewrite Cr1, Cz1. split; reflexivity. }
  destruct Pc as [Pc1 Pc2].
  assert (LN : Forall (lands geo8) (movers (fun _ => 1%R) 1 1 (st' 0 0))).
  { apply Forall_forall. intros p Hp. unfold movers in Hp. apply in_flat_map in Hp as (t & Ht & Hp). apply in_map_iff in Hp as (q & <- & Hq).
    destruct (Only t q Ht Hq) as [_ ->]. unfold lands, ThmCurrent.bound. cbn [mover_of m_r m_z m_ro m_zo m_cr m_cz g_dr g_dz g_d0 g_d1 g_nr g_nz geo8]. rewrite Pc1, Pc2.
    cbn [q1 now old_r old_z]. rewrite L1, L2, Cr1, Cz1. repeat split; try lra; lia. }
  assert (Sz : sizes geo8) by (unfold sizes; cbn; lra).
  destruct (zero_vb geo8 _ (o_j start1) Sz (proj1 SJ) LN) as (j' & Ej & _).
  set (w1' := mkWorld1 y' j' st').
  assert (O1 : one_round coast (fun _ => 1%R) vb_distribution 1 geo8 (sz 8 1) (sz 8 0) start1 w1').
  { exists p1. split; [exact E2|]. split; [exact St|]. split; [exact Ec|exact Ej]. }
  assert (Cm : calm_round_vb coast (fun _ => 1%R) geo8 2 2 4 start1 w1').
  { split; [split; [|right; right]|split; [cbn; lra|]].
    - intros t q v [<-|[]] [<-|[]] (e0 & b0 & _ & _ & Ev). injection Ev as <-. exact runner_calm.
    - intros t q [<-|[]] [<-|[]]. unfold crossing, near_low, near_high. cbv zeta. cbn [runner0 now runner pos_r pos_z g_dr g_dz geo8]. rewrite Cr0, Cz0.
      change (1 mod 4) with 1. lia.
    - intros t q Ht Hq. destruct (Only t q Ht Hq) as [_ ->]. cbv zeta. split; [|split].
      + unfold long_r, mnzl. cbn [mover_of m_r m_ro q1 now old_r]. rewrite L1, Rabs_right by lra.
        assert (1 <= 10 ^ 14)%R by (apply pow_R1_Rle; lra). replace (10 ^ 15)%R with (10 * 10 ^ 14)%R by (cbn; ring).
        rewrite Rinv_mult. assert (/ 10 ^ 14 <= / 1)%R by (apply Rinv_le_contravar; lra). lra.
      + left. cbn [mover_of m_vphi q1 now]. unfold landed. cbn [flight vel_phi runner]. unfold Rdiv. rewrite !Rmult_0_l. ring.
      + right. right. unfold away_from_corner, domain_of, dom_geo. cbn [mover_of m_cr m_cz g_dr g_dz g_d0 g_d1 g_nr g_nz geo8 fst snd]. rewrite Pc1, Pc2.
        cbn [q1 now]. rewrite L1, L2, Cr1, Cz1. change (1 / 4) with 0. lia. }
  exists w1'. split; [exact O1|]. split; [exact Cm|].
  destruct (C125_vb_round_partial coast (fun _ => 1%R) 1 geo8 2 2 4 ltac:(lia) ltac:(lia) ltac:(lia) eq_refl eq_refl ltac:(cbn; lia) ltac:(cbn; lia) eq_refl eq_refl
     ltac:(cbn; lra) ltac:(cbn; lra) _ _ _ _ Ie Is start1 w1' start O1 Cm Sw) as (w' & R' & S').
  exists w'. split; [exact R'|]. split; [exact S'|]. destruct S' as (_ & _ & _ & Pm & Hm).
  assert (Q : In q1 (particles_of {| nr := 2 * 4; nz := 2 * 4; rd_ := 2; zd_ := 2 |} 7 (w_p w'))).
  { apply (Permutation_in (l := particles_of a1 7 st')); [symmetry; apply Pm|]. apply (Permutation_in (l := [q1])); [now symmetry|now left]. }
  apply In_particles in Q as (i & k & t & Hi & Hk & Ht & _ & Hq). cbn [rd_ zd_] in Hi, Hk.
  assert (Hh := Hm i k t q1 Hi Hk Ht Hq).
  destruct (home_cells geo8 2 2 4 ltac:(lia) ltac:(lia) ltac:(lia) eq_refl eq_refl ltac:(cbn; lia) ltac:(cbn; lia) i k q1 Hi Hk) as [H1 H2];
    try (cbn [q1 now g_dr g_dz g_nr g_nz geo8]; rewrite ?L1, ?L2, ?Cr1, ?Cz1; lia); [exact Hh|].
  cbn [q1 now g_dr g_dz geo8] in H1, H2. rewrite L1, Cr1 in H1. rewrite L2, Cz1 in H2.
  exists t, q1. replace 0 with i by lia. replace 1 with k by lia. split; [exact Ht|]. split; [exact Hq|]. split; [exact L1|]. split; [exact L2|reflexivity].
Qed.

Print Assumptions C125_round_partial.
Print Assumptions C125_run_partial.
Print Assumptions C125_deterministic.
Print Assumptions C125_vb_round_partial.
Print Assumptions C125_vb_run_partial.
