(** Theorems about the current deposition, continued: C44, what C67 does not hold for, and C68 - C70. *)
From Coq Require Import ZifyBool Reals Lra Psatz.
From Verif Require Import Base GridModel GridProofs OverlayModel YeeModel YeeProofs ThmYee RndUtil ExtModel ThmExt CurrentModel CurrentProofs ThmCurrent.
Open Scope Z_scope.

(** ** where C67 fails *)
Lemma mnzl_small : (mnzl <= 1 / 16)%R.
Proof. unfold mnzl. cbn [pow]. lra. Qed.
Lemma simple_long rn zn ro zo : (1 / 16 <= Rabs (rn - ro))%R -> (1 / 16 <= Rabs (zn - zo))%R ->
  (rlt (Rabs (rn - ro)) mnzl || rlt (Rabs (zn - zo)) mnzl) = false.
Proof.
  intros H1 H2. assert (M := mnzl_small).
  assert (N1 : rlt (Rabs (rn - ro)) mnzl = false) by (apply rlt_false; lra).
  assert (N2 : rlt (Rabs (zn - zo)) mnzl = false) by (apply rlt_false; lra). now rewrite N1, N2.
Qed.
Ltac absolve := match goal with |- (_ <= Rabs ?x)%R =>
  first [ rewrite (Rabs_pos_eq x) by lra; lra | rewrite (Rabs_left x) by lra; lra ] end.

(** a move inwards that starts exactly on the border r = 2: the scheme charges the ring 0, where the particle never is *)
Definition border_ex : mover := mkMover (3/2) (3/4) 2 (1/4) 1 0 0 1.
Lemma border_bound : bound geo1 border_ex.
Proof. unfold bound. cbn [m_r m_ro m_cr m_cz m_z border_ex g_dr g_dz geo1]. cells. repeat split; lra. Qed.
Lemma rlt_t x y : (x < y)%R -> rlt x y = true.
Proof. apply rlt_true. Qed.
Lemma rlt_f x y : (y <= x)%R -> rlt x y = false.
Proof. apply rlt_false. Qed.
Ltac rlts := repeat match goal with |- context [rlt ?x ?y] =>
  first [ rewrite (rlt_t x y) by lra | rewrite (rlt_f x y) by lra ] end.
Lemma border_legs : legs_of geo1 border_ex = [(1, 5/4, 2, 1/4, 0%Z, 0%Z); (3/2, 3/4, 1, 5/4, 1%Z, 0%Z)]%R.
Proof.
  unfold legs_of, old_r, old_z. cbn [m_r m_ro m_z m_zo m_cr m_cz m_q border_ex g_dr g_dz geo1]. cells.
  unfold legs. cbn [g_dr g_dz geo1].
  replace (Z.abs (1 - 2) + Z.abs (0 - 0) =? 0) with false by reflexivity.
  replace (Z.abs (1 - 2) + Z.abs (0 - 0) =? 1) with true by reflexivity.
  replace (negb (1 =? 2) && (0 =? 0)) with true by reflexivity. 
  change (1 + 1) with 2. change (1 - 1) with 0. rlts.
  replace (1 / 4 + (1 * 1 - 2) / ((3 / 2 - 2) / (3 / 4 - 1 / 4)))%R with (5 / 4)%R by lra.
  replace (1 * 1)%R with 1%R by lra. reflexivity.
Qed.
Lemma border_run : rz_particle geo1 border_ex = Some (simple geo1 1 1 (5/4) 2 (1/4) 0 0 ++ simple geo1 1 (3/2) (3/4) 1 (5/4) 1 0)%R.
Proof.
  rewrite (rz_particle_eq _ _ geo1_sizes border_bound), border_legs.
  assert (E : old_r geo1 border_ex = 2) by (unfold old_r; cbn [m_ro border_ex g_dr geo1]; cells; reflexivity). rewrite E.
  cbn [m_r m_ro m_z m_zo m_cr m_cz m_q border_ex]. replace (1 <? Z.abs (1 - 2)) with false by reflexivity.
  rewrite simple_long by absolve. cbn [flat_map simple_leg]. rewrite app_nil_r. reflexivity.
Qed.
Ltac bools := repeat match goal with |- context [if ?b then _ else _] =>
  let v := eval vm_compute in b in change b with v; cbv iota end.
Theorem C67_border_start_refuted : exists g p ds, sizes g /\ bound g p /\ step_at_most_one g p /\ oblique p /\
  rz_particle g p = Some ds /\ ~ conserves g (m_q p) ds (m_ro p) (m_zo p) (m_r p) (m_z p).
Proof.
  exists geo1, border_ex. eexists. split; [exact geo1_sizes|]. split; [exact border_bound|].
  split; [unfold step_at_most_one, old_r, old_z; cbn [m_ro m_zo m_cr m_cz border_ex g_dr g_dz geo1]; cells; lia|].
  split; [assert (M := mnzl_small); unfold oblique; cbn [m_r m_ro m_z m_zo border_ex]; split; eapply Rle_trans; try exact M; absolve|].
  split; [exact border_run|].
  intros C. specialize (C 0 0 ltac:(lia)). revert C.
  cbn [m_r m_ro m_z m_zo m_q border_ex].
  rewrite (share_r_in geo1 ltac:(cbn; lra) 1 0 (3/2)) by (cbn; lra).
  rewrite (share_r_in geo1 ltac:(cbn; lra) 2 0 2) by (cbn; lra).
  unfold outflow, at_node. rewrite !amount_app.
  unfold simple. cbn [g_dr g_dz g_dt g_d0 g_d1 geo1]. repeat (rewrite simple_long by absolve).
  cbn [amount ceqb]. bools.
  unfold face_r, face_z, dens_z. cbn [Z.eqb g_dr g_dz g_dt geo1].
  assert (P := PI_RGT_0). intros C. field_simplify in C; lra.
Qed.

(** a radial move across a border with cells of size 2: r0*r0/i_n*dr instead of r0*r0/(i_n*dr), lines 673 and 714 *)
Definition geo2 : geo := mkGeo 9 9 0 0 2 1 true true true true 1.
Definition radial_ex : mover := mkMover 5 (1/2) 3 (1/2) 2 0 0 1.
Theorem C67_radial_crossing_refuted : exists g p ds, sizes g /\ bound g p /\ step_at_most_one g p /\ m_z p = m_zo p /\
  rz_particle g p = Some ds /\ ~ conserves g (m_q p) ds (m_ro p) (m_zo p) (m_r p) (m_z p).
Proof.
  assert (S : sizes geo2) by (unfold sizes, geo2; cbn; lra).
  assert (B : bound geo2 radial_ex) by (unfold bound; cbn [m_r m_ro m_cr m_cz m_z radial_ex g_dr g_dz geo2]; cells; repeat split; lra).
  assert (E : old_r geo2 radial_ex = 1) by (unfold old_r; cbn [m_ro radial_ex g_dr geo2]; cells; reflexivity).
  exists geo2, radial_ex. eexists. split; [exact S|]. split; [exact B|]. split.
  { unfold step_at_most_one, old_r, old_z; cbn [m_ro m_zo m_cr m_cz radial_ex g_dr g_dz geo2]; cells; lia. }
  split; [reflexivity|]. split.
  { rewrite (rz_particle_eq _ _ S B), E. cbn [m_r m_ro m_z m_zo m_cr m_cz m_q radial_ex].
    replace (1 <? Z.abs (2 - 1)) with false by reflexivity. rewrite Rabs_same_lt, Bool.orb_true_r. reflexivity. }
  intros C. specialize (C 3 0 ltac:(lia)). revert C.
  cbn [m_r m_ro m_z m_zo m_q radial_ex].
  rewrite (share_r_in geo2 ltac:(cbn; lra) 2 3 5) by (cbn; lra).
  rewrite (share_r_in geo2 ltac:(cbn; lra) 1 3 3) by (cbn; lra).
  rewrite (share_z_in geo2 ltac:(cbn; lra) 0 0 (1/2)) by (cbn; lra).
  unfold outflow, at_node. unfold strict. cbn [g_dr g_dz g_dt g_d0 g_d1 geo2].
  assert (M := mnzl_small). rewrite Rabs_same_lt. rewrite (rlt_f (Rabs (5 - 3))) by (eapply Rle_trans; [exact M|absolve]). cbn [andb].
  cells. bools. cbn [app amount ceqb]. bools.
  unfold face_r, face_z, dens_strict. cbn [Z.eqb g_dr g_dz g_dt geo2].
  assert (P := PI_RGT_0). intros C. change (3 - 1) with 2 in C. field_simplify in C; lra.
Qed.

(** * C44: every moving particle deposits current, or an error is logged *)
Definition is_inc (d : dep) : Prop := match d with Inc _ _ _ _ => True | Put _ _ _ _ => False end.
Definition deposits (ds : list dep) : Prop := exists d, In d ds /\ is_inc d.
Definition deposits_nothing (ds : list dep) : Prop := Forall (fun d => ~ is_inc d) ds.

(** a radial displacement over more than one cell is reported *)
Theorem C44_radial_jump_reported : forall g p, sizes g -> bound g p ->
  (rz_particle g p = None <-> 2 <= Z.abs (m_cr p - old_r g p)).
Proof.
  intros g p S B. rewrite (rz_particle_eq g p S B). destruct (1 <? Z.abs (m_cr p - old_r g p)) eqn:E.
  - split; [lia|auto].
  - destruct (_ || _); split; try discriminate; lia.
Qed.
Lemma chain_moves ls : forall ro zo rn zn, chain ro zo ls rn zn -> ro <> rn ->
  exists r1 z1 r0 z0 i k, In (r1, z1, r0, z0, i, k) ls /\ r1 <> r0.
Proof.
  induction ls as [|[[[[[r1 z1] r0] z0] i] k] ls IH]; intros ro zo rn zn C N.
  - destruct C; contradiction.
  - cbn [chain] in C. destruct C as (-> & -> & C). destruct (Req_EM_T r1 ro) as [->|M].
    + destruct (IH _ _ _ _ C N) as (a1 & a2 & a3 & a4 & a5 & a6 & A & A'). do 6 eexists. split; [right; exact A|exact A'].
    + do 6 eexists. split; [left; reflexivity|exact M].
Qed.
Theorem C44_deposits_partial : forall g p, sizes g -> bound g p ->
  (step_at_most_one g p -> oblique p ->
    (m_cr p < old_r g p -> m_cz p = old_z g p -> (IZR (old_r g p) * g_dr g < m_ro p)%R) ->
    (m_cr p <> old_r g p -> m_cz p <> old_z g p -> ~ through_corner g (m_ro p) (m_zo p) (m_r p) (m_z p)) ->
    Forall leg_long (legs_of g p) -> exists ds, rz_particle g p = Some ds /\ deposits ds) /\
  (m_r p = m_ro p -> Z.abs (m_cz p - old_z g p) <= 1 -> (mnzl <= Rabs (m_z p - m_zo p))%R ->
    exists ds, rz_particle g p = Some ds /\ deposits ds) /\
  (m_z p = m_zo p -> Z.abs (m_cr p - old_r g p) <= 1 -> (mnzl <= Rabs (m_r p - m_ro p))%R ->
    exists ds, rz_particle g p = Some ds /\ deposits ds).
Proof.
  intros g p S B. rewrite (rz_particle_eq g p S B). split; [|split].
  - intros [O1 O2] [M1 M2] Nb Nc L. destruct (bound_cells g p S B) as [(C1 & C2 & C3 & C4) [I1 I2]].
    replace (1 <? Z.abs (m_cr p - old_r g p)) with false by lia.
    assert (N1 := proj2 (rlt_false _ _) M1). assert (N2 := proj2 (rlt_false _ _) M2). rewrite N1, N2. cbn [orb].
    eexists. split; [reflexivity|]. assert (P := mnzl_pos). destruct S as (S1 & S2 & S3). destruct B as (B1 & B2 & _).
    assert (X1 : m_r p <> m_ro p).
    { intros E. rewrite E in M1. replace (m_ro p - m_ro p)%R with 0%R in M1 by ring. rewrite Rabs_R0 in M1. lra. }
    destruct (legs_good g S1 S2 S3 (m_r p) (m_z p) (m_ro p) (m_zo p) (m_cr p) (old_r g p) (m_cz p) (old_z g p)) as (G1 & G2 & G3); auto.
    { intros E. rewrite E in M2. replace (m_zo p - m_zo p)%R with 0%R in M2 by ring. rewrite Rabs_R0 in M2. lra. }
    destruct (chain_moves _ _ _ _ _ G1 ltac:(auto)) as (r1 & z1 & r0 & z0 & i & k & A & A').
    assert (Lg := proj1 (Forall_forall _ _) L _ A). cbn [leg_long] in Lg.
    destruct Lg as [[? ?]|[K1 K2]]; [contradiction|].
    unfold deposits. eexists. split; [apply in_flat_map; exists (r1, z1, r0, z0, i, k); split; [exact A|]|].
    + cbn [simple_leg]. unfold simple. apply rlt_false in K1. apply rlt_false in K2. rewrite K1, K2. cbn [orb]. left. reflexivity.
    + exact I.
  - intros E Hk M. pose proof B as (B1 & B2 & B3 & B4). unfold old_r. rewrite B3, E. replace (1 <? Z.abs (_ - _)) with false by lia.
    rewrite Rabs_same_lt. cbn [orb]. eexists. split; [reflexivity|]. unfold strict. apply rlt_false in M. rewrite Rabs_same_lt, M. cbn [andb].
    unfold old_z in Hk. rewrite B4 in Hk. 
    set (d := cell_number (m_z p) (g_dz g) - cell_number (m_zo p) (g_dz g)) in *. 
    assert (D : d = 0 \/ d = 1 \/ d = -1) by lia. clearbody d.
    destruct D as [-> | [-> | ->]]; cbn [Z.eqb Pos.eqb app]; (eexists; split; [right; right; left; reflexivity|exact I]).
  - intros E Hi M. pose proof B as (B1 & B2 & B3 & B4). replace (1 <? Z.abs (_ - _)) with false by lia.
    rewrite E, Rabs_same_lt, Bool.orb_true_r. eexists. split; [reflexivity|]. unfold strict. apply rlt_false in M. rewrite Rabs_same_lt, M. cbn [andb].
    unfold old_r in Hi. rewrite B3 in Hi. 
    set (d := cell_number (m_r p) (g_dr g) - cell_number (m_ro p) (g_dr g)) in *. 
    assert (D : d = 0 \/ d = 1 \/ d = -1) by lia. clearbody d.
    destruct D as [-> | [-> | ->]]; cbn [Z.eqb Pos.eqb app]; (eexists; split; [left; reflexivity|exact I]).
Qed.
(** Longitudinal displacements over two or more cells are neither reported nor deposited: line 199 compares the radial
    cells twice. *)
Theorem C44_longitudinal_jump_refuted : forall g p, sizes g -> bound g p -> Z.abs (m_cr p - old_r g p) <= 1 ->
  2 <= Z.abs (m_cz p - old_z g p) -> (mnzl <= Rabs (m_z p - m_zo p))%R ->
  exists ds, rz_particle g p = Some ds /\ deposits_nothing ds.
Proof.
  intros g p S B Hi Hk M. rewrite (rz_particle_eq g p S B). replace (1 <? Z.abs (m_cr p - old_r g p)) with false by lia.
  apply rlt_false in M. rewrite M. destruct (rlt (Rabs (m_r p - m_ro p)) mnzl) eqn:E; cbn [orb]; (eexists; split; [reflexivity|]).
  - unfold strict. rewrite M, E. cbn [andb]. destruct B as (_ & _ & _ & B4). unfold old_z in Hk. rewrite B4 in Hk.
    replace (_ =? 0) with false by lia. replace (_ =? 1) with false by lia. replace (_ =? -1) with false by lia.
    repeat (apply Forall_cons; [exact (fun x => x)|]). constructor.
  - unfold legs_of, legs.
    replace (_ =? 0) with false by lia. replace (_ =? 1) with false by lia.
    destruct (_ =? 2) eqn:E2; [|constructor].
    replace (old_r g p <? m_cr p) with false by lia. replace (m_cr p <? old_r g p) with false by lia. constructor.
Qed.
Definition jump_ex : mover := mkMover (7/4) (5/2) (5/4) (1/4) 1 2 0 1.
Example C44_jump_ex : sizes geo1 /\ bound geo1 jump_ex /\ Z.abs (m_cr jump_ex - old_r geo1 jump_ex) <= 1 /\
  2 <= Z.abs (m_cz jump_ex - old_z geo1 jump_ex) /\ (mnzl <= Rabs (m_z jump_ex - m_zo jump_ex))%R.
Proof.
  assert (M := mnzl_small). split; [exact geo1_sizes|]. unfold bound, old_r, old_z. cbn [m_r m_ro m_z m_zo m_cr m_cz jump_ex g_dr g_dz geo1].
  cells. repeat match goal with |- _ /\ _ => split end; try lra; try lia. eapply Rle_trans; [exact M|absolve].
Qed.
(** a path through a corner of the grid *)
Definition corner_ex : mover := mkMover (3/2) (3/2) (1/2) (1/2) 1 1 0 1.
Theorem C44_corner_refuted : exists g p, sizes g /\ bound g p /\ step_at_most_one g p /\ oblique p /\ rz_particle g p = Some [].
Proof.
  assert (M := mnzl_small).
  assert (B : bound geo1 corner_ex) by (unfold bound; cbn [m_r m_ro m_cr m_cz m_z corner_ex g_dr g_dz geo1]; cells; repeat split; lra).
  exists geo1, corner_ex. split; [exact geo1_sizes|]. split; [exact B|]. split.
  { unfold step_at_most_one, old_r, old_z; cbn [m_ro m_zo m_cr m_cz corner_ex g_dr g_dz geo1]; cells; lia. }
  split; [unfold oblique; cbn [m_r m_ro m_z m_zo corner_ex]; split; eapply Rle_trans; try exact M; absolve|].
  rewrite (rz_particle_eq _ _ geo1_sizes B). unfold legs_of, old_r, old_z.
  cbn [m_r m_ro m_z m_zo m_cr m_cz m_q corner_ex g_dr g_dz geo1]. cells.
  rewrite simple_long by absolve. unfold legs. cbn [g_dr g_dz geo1].
  change (Z.abs (1 - 0) + Z.abs (1 - 0) =? 0) with false. change (Z.abs (1 - 0) + Z.abs (1 - 0) =? 1) with false.
  change (Z.abs (1 - 0) + Z.abs (1 - 0) =? 2) with true. change (0 <? 1) with true. change (1 <? Z.abs (1 - 0)) with false. cbv iota zeta.
  rlts. reflexivity.
Qed.
(** a move over one longitudinal border meets the hypotheses of C67_oblique_partial and C44_deposits_partial *)
Definition cross_ex : mover := mkMover (7/4) (5/4) (5/4) (3/4) 1 1 0 1.
Lemma cross_bound : bound geo1 cross_ex.
Proof. unfold bound; cbn [m_r m_ro m_cr m_cz m_z cross_ex g_dr g_dz geo1]; cells; repeat split; lra. Qed.
Lemma cross_legs : legs_of geo1 cross_ex = [(3/2, 1, 5/4, 3/4, 1%Z, 0%Z); (7/4, 5/4, 3/2, 1, 1%Z, 1%Z)]%R.
Proof.
  unfold legs_of, old_r, old_z. cbn [m_r m_ro m_z m_zo m_cr m_cz m_q cross_ex g_dr g_dz geo1]. cells.
  unfold legs. cbn [g_dr g_dz geo1].
  change (Z.abs (1 - 1) + Z.abs (1 - 0) =? 0) with false. change (Z.abs (1 - 1) + Z.abs (1 - 0) =? 1) with true.
  change (negb (1 =? 1) && (1 =? 0)) with false. change ((1 =? 1) && negb (1 =? 0)) with true. change (1 - 1) with 0. cbv iota zeta. rlts.
  replace (5 / 4 + (7 / 4 - 5 / 4) / (5 / 4 - 3 / 4) * (1 * 1 - 3 / 4))%R with (3 / 2)%R by lra.
  replace (1 * 1)%R with 1%R by lra. reflexivity.
Qed.
Example C67_ex : exists ds, rz_particle geo1 cross_ex = Some ds /\ ds <> [] /\
  conserves geo1 (m_q cross_ex) ds (m_ro cross_ex) (m_zo cross_ex) (m_r cross_ex) (m_z cross_ex).
Proof.
  assert (M := mnzl_small).
  assert (S1 : step_at_most_one geo1 cross_ex).
  { unfold step_at_most_one, old_r, old_z; cbn [m_ro m_zo m_cr m_cz cross_ex g_dr g_dz geo1]; cells; lia. }
  assert (S2 : oblique cross_ex).
  { unfold oblique; cbn [m_r m_ro m_z m_zo cross_ex]; split; eapply Rle_trans; try exact M; absolve. }
  assert (E : m_cr cross_ex = old_r geo1 cross_ex) by (unfold old_r; cbn [m_cr m_ro cross_ex g_dr geo1]; cells; reflexivity).
  assert (L : Forall leg_long (legs_of geo1 cross_ex)).
  { rewrite cross_legs. repeat apply Forall_cons; try apply Forall_nil; cbn [leg_long]; right; split; eapply Rle_trans; try exact M; absolve. }
  destruct (C67_oblique_partial geo1 cross_ex geo1_sizes cross_bound S1 S2) as (ds & D & C); try lia; [exact L|].
  destruct (C44_deposits_partial geo1 cross_ex geo1_sizes cross_bound) as [K _].
  destruct (K S1 S2) as (ds' & D' & X & In_ & _); try lia; [exact L|]. rewrite D in D'. injection D' as <-.
  exists ds. split; [exact D|]. split; [|exact C]. intros ->. exact In_.
Qed.

(** * C68: the azimuthal current of the Villasenor-Buneman scheme *)
(** the current times the volumes [V] of the rings, summed over all nodes *)
Fixpoint weighted (g : geo) (V : Z -> R) (ds : list dep) : R :=
  match ds with
  | [] => 0%R
  | Inc Cphi i _ v :: ds' => (V (i + g_d0 g)%Z * v + weighted g V ds')%R
  | _ :: ds' => weighted g V ds'
  end.
Definition azimuthal_right (g : geo) (V : Z -> R) (p : mover) : Prop := (weighted g V (azimuthal g p) = m_q p * m_vphi p)%R.

(** For the particles of one row of cells it is right, with the volumes the code uses: 2i+1 for the inner ring, 2i+2 for
    the outer one. *)
Theorem C68_one_row_partial : forall g i, sizes g -> 0 <= i -> exists V : Z -> R,
  forall p, m_cr p = i -> (0 < m_r p)%R -> (0 < m_ro p)%R -> azimuthal_right g V p.
Proof.
  intros g i (S1 & S2 & S3) Hi.
  exists (fun x => if x =? i then cell_volume i 0 (g_dr g) (g_dz g) else cell_volume i 1 (g_dr g) (g_dz g)).
  intros p E P1 P2. unfold azimuthal_right, azimuthal. rewrite E. cbn [weighted].
  replace (i - g_d0 g + g_d0 g) with i by lia. replace (i - g_d0 g + 1 + g_d0 g) with (i + 1) by lia.
  rewrite Z.eqb_refl. replace (i + 1 =? i) with false by lia.
  assert (V1 := volume_pos g i 0 S1 S2 Hi ltac:(lia)). assert (V2 := volume_pos g i 1 S1 S2 Hi ltac:(lia)).
  generalize dependent (cell_volume i 0 (g_dr g) (g_dz g)). intros v1 V1.
  generalize dependent (cell_volume i 1 (g_dr g) (g_dz g)). intros v2 V2.
  assert (PP := PI_RGT_0). unfold cyl_rng_vol. field. repeat split; lra.
Qed.
(** No choice of ring volumes makes it right for all particles: the ring i has the volume 2i+1 for particles outside of it
    and 2i for those inside ([CELL_VOLUME(r_i + 1, ..)] without parentheses). *)
Definition still (g : geo) (i : Z) (x : R) : mover :=
  mkMover ((IZR i + x) * g_dr g) (g_dz g / 2) ((IZR i + x) * g_dr g) (g_dz g / 2) i 0 1 1.
Lemma still_bound g i x : sizes g -> 0 <= i -> (0 < x < 1)%R -> bound g (still g i x).
Proof.
  intros (S1 & S2 & S3) Hi Hx. assert (Pi := IZR_le _ _ Hi). unfold bound, still. cbn [m_r m_ro m_cr m_cz m_z].
  assert (0 < (IZR i + x) * g_dr g)%R by (apply Rmult_lt_0_compat; lra).
  repeat split; auto; symmetry; apply cell_number_is; auto; nra.
Qed.
Lemma still_weighted g V i x : sizes g -> 0 <= i -> (0 < x < 1)%R ->
  (weighted g V (azimuthal g (still g i x)) =
   V i * ((1 - x) * (2 * IZR i + x) / (2 * (IZR i + x))) / cell_volume i 0 (g_dr g) (g_dz g)
   + V (i + 1)%Z * (x * (2 * IZR i + x + 1) / (2 * (IZR i + x))) / cell_volume i 1 (g_dr g) (g_dz g))%R.
Proof.
  intros (S1 & S2 & S3) Hi Hx. assert (Pi := IZR_le _ _ Hi). unfold azimuthal, still. cbn [weighted m_r m_ro m_z m_zo m_cr m_cz m_q m_vphi].
  replace (i - g_d0 g + g_d0 g) with i by lia. replace (i - g_d0 g + 1 + g_d0 g) with (i + 1) by lia.
  assert (V1 := volume_pos g i 0 S1 S2 Hi ltac:(lia)). assert (V2 := volume_pos g i 1 S1 S2 Hi ltac:(lia)).
  generalize dependent (cell_volume i 0 (g_dr g) (g_dz g)). intros v1 V1.
  generalize dependent (cell_volume i 1 (g_dr g) (g_dz g)). intros v2 V2.
  replace (((IZR i + x) * g_dr g + (IZR i + x) * g_dr g) / 2)%R with ((IZR i + x) * g_dr g)%R by lra.
  replace ((g_dz g / 2 + g_dz g / 2) / 2)%R with (g_dz g / 2)%R by lra.
  assert (PP := PI_RGT_0). unfold cyl_rng_vol. field. repeat split; lra.
Qed.

Theorem C68_refuted : forall g, sizes g -> ~ exists V : Z -> R, forall p, bound g p -> azimuthal_right g V p.
Proof.
  intros g S [V H]. pose proof S as (S1 & S2 & S3).
  assert (V1 := volume_pos g 1 0 S1 S2 ltac:(lia) ltac:(lia)). assert (V2 := volume_pos g 1 1 S1 S2 ltac:(lia) ltac:(lia)).
  assert (V3 := volume_pos g 2 0 S1 S2 ltac:(lia) ltac:(lia)). assert (V4 := volume_pos g 2 1 S1 S2 ltac:(lia) ltac:(lia)).
  assert (A := H _ (still_bound g 1 (1/4) S ltac:(lia) ltac:(lra))).
  assert (B := H _ (still_bound g 1 (3/4) S ltac:(lia) ltac:(lra))).
  assert (C := H _ (still_bound g 2 (1/4) S ltac:(lia) ltac:(lra))).
  assert (D := H _ (still_bound g 2 (3/4) S ltac:(lia) ltac:(lra))).
  unfold azimuthal_right in *. rewrite still_weighted in A, B, C, D by (auto; lia || lra).
  cbn [m_q m_vphi still] in *. change (1 + 1) with 2 in *. change (2 + 1) with 3 in *.
  assert (E2 : (V 2%Z / cell_volume 1 1 (g_dr g) (g_dz g) = 1)%R).
  { set (u := (V 1%Z / cell_volume 1 0 (g_dr g) (g_dz g))%R). set (w := (V 2%Z / cell_volume 1 1 (g_dr g) (g_dz g))%R).
    assert (A' : (27 / 40 * u + 13 / 40 * w = 1 * 1)%R) by (rewrite <- A; unfold u, w; field; lra).
    assert (B' : (11 / 56 * u + 45 / 56 * w = 1 * 1)%R) by (rewrite <- B; unfold u, w; field; lra). lra. }
  assert (E3 : (V 2%Z / cell_volume 2 0 (g_dr g) (g_dz g) = 1)%R).
  { set (u := (V 2%Z / cell_volume 2 0 (g_dr g) (g_dz g))%R). set (w := (V 3%Z / cell_volume 2 1 (g_dr g) (g_dz g))%R).
    assert (A' : (51 / 72 * u + 21 / 72 * w = 1 * 1)%R) by (rewrite <- C; unfold u, w; field; lra).
    assert (B' : (19 / 88 * u + 69 / 88 * w = 1 * 1)%R) by (rewrite <- D; unfold u, w; field; lra). lra. }
  assert (F2 : V 2 = cell_volume 1 1 (g_dr g) (g_dz g)).
  { replace (V 2) with (V 2%Z / cell_volume 1 1 (g_dr g) (g_dz g) * cell_volume 1 1 (g_dr g) (g_dz g))%R by (field; lra). rewrite E2. ring. }
  assert (F3 : V 2 = cell_volume 2 0 (g_dr g) (g_dz g)).
  { replace (V 2) with (V 2%Z / cell_volume 2 0 (g_dr g) (g_dz g) * cell_volume 2 0 (g_dr g) (g_dz g))%R by (field; lra). rewrite E3. ring. }
  rewrite F2 in F3. unfold cell_volume in F3. 
  assert (P : (0 < PI * g_dz g * g_dr g * g_dr g)%R) by (apply Rmult_lt_0_compat; [apply Rmult_lt_0_compat; [apply Rmult_lt_0_compat; [exact PI_RGT_0|exact S2]|exact S1]|exact S1]).
  lra.
Qed.

(** * C69: the current grid holds the sum of the deposits *)
Definition in_win (nr nz : Z) (d : dep) : Prop := match d with Inc _ i k _ | Put _ i k _ => inw nr nz i k end.
(** the value at (c, x, y) after the accesses *)
Fixpoint after (c : comp) (x y : Z) (v : R) (ds : list dep) : R :=
  match ds with
  | [] => v
  | Inc c' i k w :: ds' => after c x y (if ceqb c c' && (x =? i) && (y =? k) then v + w else v)%R ds'
  | Put c' i k w :: ds' => after c x y (if ceqb c c' && (x =? i) && (y =? k) then w else v) ds'
  end.
Lemma after_app c x y a b : forall v, after c x y v (a ++ b) = after c x y (after c x y v a) b.
Proof. induction a as [|d a IH]; intros u; [reflexivity|]. destruct d; cbn [app after]; auto. Qed.
Lemma after_inc c x y ds : Forall is_inc ds -> forall v, after c x y v ds = (v + amount c x y ds)%R.
Proof.
  induction 1 as [|d ds D _ IH]; intros u; [cbn [after amount]; lra|].
  destruct d; [|destruct D]. cbn [after amount]. rewrite IH. destruct (_ && _ && _); lra.
Qed.
Lemma do_deps_spec nr nz ds : Forall (in_win nr nz) ds -> forall j, fits3 nr nz j ->
  exists j', do_deps ds j = Ok j' /\ fits3 nr nz j' /\ forall c x y, lv (getc c j') x y = after c x y (lv (getc c j) x y) ds.
Proof.
  induction 1 as [|d ds D _ IH]; intros j F; cbn [do_deps].
  - exists j. split; [reflexivity|]. auto.
  - assert (St : exists j1, do_dep d j = Ok j1 /\ fits3 nr nz j1 /\ forall c x y, lv (getc c j1) x y = after c x y (lv (getc c j) x y) [d]).
    { destruct d as [c i k v|c i k v]; cbn [in_win] in D; cbn [do_dep].
      - unfold rinc. rewrite (rop_eq nr nz) by (auto || apply F). cbn [bind]. eexists. split; [reflexivity|]. split.
        + intros c'. destruct c, c'; cbn [with_c getc c_r c_phi c_z]; try apply setl_fits; first [apply (F Cr)|apply (F Cphi)|apply (F Cz)].
        + intros c' x y. destruct c, c'; cbn [with_c getc c_r c_phi c_z after ceqb andb]; try reflexivity; rewrite lv_setl; destruct (_ && _) eqn:E; try reflexivity;
            (replace x with i by lia); (replace y with k by lia); reflexivity.
      - rewrite (rset_eq nr nz) by (auto || apply F). cbn [bind]. eexists. split; [reflexivity|]. split.
        + intros c'. destruct c, c'; cbn [with_c getc c_r c_phi c_z]; try apply setl_fits; first [apply (F Cr)|apply (F Cphi)|apply (F Cz)].
        + intros c' x y. destruct c, c'; cbn [with_c getc c_r c_phi c_z after ceqb andb]; try reflexivity; now rewrite lv_setl. }
    destruct St as (j1 & E1 & F1 & V1). rewrite E1. cbn [bind].
    destruct (IH j1 F1) as (j2 & E2 & F2 & V2). exists j2. split; [exact E2|]. split; [exact F2|].
    intros c x y. rewrite V2, V1. change (d :: ds) with ([d] ++ ds). now rewrite after_app.
Qed.

(** all particles of a domain lie in it (the collector has run): every access is inside the grids *)
Definition lands (g : geo) (p : mover) : Prop :=
  bound g p /\ g_d0 g <= m_cr p < g_d0 g + g_nr g /\ g_d1 g <= m_cz p < g_d1 g + g_nz g.
Definition near_leg (g : geo) (p : mover) (l : leg) : Prop :=
  match l with (_, _, _, _, i, k) => m_cr p - 1 <= i <= m_cr p + 1 /\ m_cz p - 1 <= k <= m_cz p + 1 end.
Lemma legs_near g p : Forall (near_leg g p) (legs_of g p).
Proof.
  unfold legs_of, legs.
  repeat match goal with |- context [if ?b then _ else _] => destruct b end;
  repeat apply Forall_cons; try apply Forall_nil; cbn [near_leg]; lia.
Qed.
Ltac wins := repeat (apply Forall_app; split); repeat apply Forall_cons; try apply Forall_nil; cbn [in_win]; unfold inw; lia.
Lemma rz_deps_win g p : sizes g -> lands g p -> Forall (in_win (g_nr g) (g_nz g)) (rz_deps g p).
Proof.
  intros S (B & L1 & L2). unfold rz_deps. rewrite (rz_particle_eq g p S B).
  destruct (1 <? _); [constructor|]. destruct (_ || _).
  - destruct B as (_ & _ & B3 & B4). unfold strict. rewrite <- B3, <- B4.
    repeat match goal with |- context [if ?b then _ else _] => lazymatch type of b with bool => destruct b end end; wins.
  - apply Forall_flat_map. eapply Forall_impl; [|exact (legs_near g p)].
    intros [[[[[r1 z1] r0] z0] i] k] H. cbn [near_leg] in H. cbn [simple_leg]. unfold simple.
    destruct (_ || _); wins.
Qed.
Lemma azimuthal_win g p : lands g p -> Forall (in_win (g_nr g) (g_nz g)) (azimuthal g p).
Proof. intros (B & L1 & L2). unfold azimuthal. wins. Qed.
Lemma azimuthal_inc g p : Forall is_inc (azimuthal g p).
Proof. repeat apply Forall_cons; try apply Forall_nil; exact I. Qed.
(** only the component c is touched *)
Definition of_c (P : comp -> Prop) (d : dep) : Prop := match d with Inc c _ _ _ | Put c _ _ _ => P c end.
Lemma rz_deps_of g p : Forall (of_c (fun c => c <> Cphi)) (rz_deps g p).
Proof.
  unfold rz_deps, rz_particle. destruct (_ || _); [constructor|]. destruct (_ || _).
  - unfold strict.
    repeat match goal with |- context [if ?b then _ else _] => lazymatch type of b with bool => destruct b end end;
    repeat (apply Forall_app; split); repeat apply Forall_cons; try apply Forall_nil; cbn [of_c]; discriminate.
  - apply Forall_flat_map, Forall_forall. intros [[[[[r1 z1] r0] z0] i] k] _. cbn [simple_leg]. unfold simple.
    destruct (_ || _); repeat apply Forall_cons; try apply Forall_nil; cbn [of_c]; discriminate.
Qed.
Lemma after_other P c x y ds : Forall (of_c P) ds -> ~ P c -> forall v, after c x y v ds = v.
Proof.
  induction 1 as [|[c' i k w|c' i k w] ds D _ IH]; intros N v; cbn [after]; auto; cbn [of_c] in D;
  (destruct (ceqb c c') eqn:E; [exfalso; apply N; destruct c, c'; try discriminate; exact D|cbn [andb]; auto]).
Qed.
Lemma azimuthal_of g p : Forall (of_c (fun c => c = Cphi)) (azimuthal g p).
Proof. repeat apply Forall_cons; try apply Forall_nil; reflexivity. Qed.
Lemma Forall_fm {A B} (P : B -> Prop) (f : A -> list B) l : (forall a, In a l -> Forall P (f a)) -> Forall P (flat_map f l).
Proof. intros H. apply Forall_flat_map, Forall_forall. exact H. Qed.

Definition interior (g : geo) (x y : Z) : bool := (0 <=? x) && (x <? g_nr g) && (0 <=? y) && (y <? g_nz g).
Lemma vb_spec g ps j : sizes g -> fits3 (g_nr g) (g_nz g) j -> Forall (lands g) ps ->
  exists j', vb_distribution g ps j = Ok j' /\ fits3 (g_nr g) (g_nz g) j' /\
  forall c x y, inw (g_nr g) (g_nz g) x y -> lv (getc c j') x y =
    after c x y (if interior g x y then after c x y (lv (getc c j) x y) (flat_map (azimuthal g) ps) else 0%R) (flat_map (rz_deps g) ps).
Proof.
  intros S F L. unfold vb_distribution. rewrite Forall_forall in L.
  destruct (overlay_set3_eq _ _ j F) as (j0 & E0 & F0 & V0). rewrite E0. cbn [bind].
  destruct (do_deps_spec (g_nr g) (g_nz g) (flat_map (azimuthal g) ps)) with (j := j0) as (j1 & E1 & F1 & V1); auto.
  { apply Forall_fm. intros p Hp. now apply azimuthal_win, L. }
  rewrite E1. cbn [bind].
  destruct (overlay_set3_eq _ _ j1 F1) as (j2 & E2 & F2 & V2). rewrite E2. cbn [bind].
  destruct (do_deps_spec (g_nr g) (g_nz g) (flat_map (rz_deps g) ps)) with (j := j2) as (j3 & E3 & F3 & V3); auto.
  { apply Forall_fm. intros p Hp. now apply rz_deps_win, L. }
  exists j3. split; [exact E3|]. split; [exact F3|]. intros c x y W. rewrite V3, (V2 c x y W), V1, (V0 c x y W). unfold interior.
  destruct (_ && _ && _ && _); reflexivity.
Qed.
Lemma zigzag_inc g p : Forall is_inc (zigzag g p).
Proof. repeat apply Forall_cons; try apply Forall_nil; exact I. Qed.

(** ZigZag: everything arrives. *)
Definition lands_from_near (g : geo) (p : mover) : Prop :=
  g_d0 g <= cell_number (m_r p) (g_dr g) < g_d0 g + g_nr g /\ g_d1 g <= cell_number (m_z p) (g_dz g) < g_d1 g + g_nz g /\
  g_d0 g - 2 <= cell_number (m_ro p) (g_dr g) <= g_d0 g + g_nr g /\ g_d1 g - 2 <= cell_number (m_zo p) (g_dz g) <= g_d1 g + g_nz g.
Theorem C69_zigzag_partial : forall g ps j, fits3 (g_nr g) (g_nz g) j -> Forall (lands_from_near g) ps ->
  exists j', zigzag_distribution g ps j = Ok j' /\ forall c x y, inw (g_nr g) (g_nz g) x y ->
  (lv (getc c j') x y = (if interior g x y then lv (getc c j) x y else 0) + amount c x y (flat_map (zigzag g) ps))%R.
Proof.
  intros g ps j F L. unfold zigzag_distribution. rewrite Forall_forall in L.
  destruct (overlay_set3_eq _ _ j F) as (j0 & E0 & F0 & V0). rewrite E0. cbn [bind].
  destruct (do_deps_spec (g_nr g) (g_nz g) (flat_map (zigzag g) ps)) with (j := j0) as (j1 & E1 & F1 & V1); auto.
  { apply Forall_fm. intros p Hp. destruct (L p Hp) as (L1 & L2 & L3 & L4). unfold zigzag. wins. }
  exists j1. split; [exact E1|]. intros c x y W. rewrite V1, (V0 c x y W).
  rewrite after_inc; [reflexivity|]. apply Forall_fm. intros p _. apply zigzag_inc.
Qed.
(** Villasenor-Buneman: the run is defined (no access outside the grids); the azimuthal component holds the sum inside the
    domain; the others do everywhere, provided no particle moves straight along z. *)
Theorem C69_vb_partial : forall g ps j, sizes g -> fits3 (g_nr g) (g_nz g) j -> Forall (lands g) ps ->
  exists j', vb_distribution g ps j = Ok j' /\
  (forall x y, inw (g_nr g) (g_nz g) x y -> interior g x y = true ->
    (lv (c_phi j') x y = lv (c_phi j) x y + amount Cphi x y (flat_map (azimuthal g) ps))%R) /\
  (Forall (fun p => (mnzl <= Rabs (m_r p - m_ro p))%R) ps -> forall c x y, c <> Cphi -> inw (g_nr g) (g_nz g) x y ->
    (lv (getc c j') x y = (if interior g x y then lv (getc c j) x y else 0) + amount c x y (flat_map (rz_deps g) ps))%R).
Proof.
  intros g ps j S F L. destruct (vb_spec g ps j S F L) as (j' & E & F' & V). exists j'. split; [exact E|]. split.
  - intros x y W I. change (c_phi j') with (getc Cphi j'). rewrite (V Cphi x y W), I.
    rewrite (after_other (fun c => c <> Cphi)); [|apply Forall_fm; intros p _; apply rz_deps_of|tauto].
    rewrite after_inc; [reflexivity|]. apply Forall_fm. intros p _. apply azimuthal_inc.
  - intros M c x y N W. rewrite (V c x y W). rewrite after_inc.
    + rewrite (after_other (fun c => c = Cphi)); [reflexivity| |exact N]. apply Forall_fm. intros p _. apply azimuthal_of.
    + apply Forall_fm. intros p Hp. rewrite Forall_forall in M, L. assert (Mp := M p Hp). apply rlt_false in Mp.
      destruct (L p Hp) as (B & _). unfold rz_deps. rewrite (rz_particle_eq g p S B). destruct (1 <? _); [constructor|].
      rewrite Mp. cbn [orb]. destruct (rlt (Rabs (m_z p - m_zo p)) mnzl).
      * unfold strict. rewrite Mp. cbn [andb].
        repeat match goal with |- context [if ?b then _ else _] => lazymatch type of b with bool => destruct b end end;
        repeat (apply Forall_app; split); repeat apply Forall_cons; try apply Forall_nil; exact I.
      * apply Forall_fm. intros [[[[[r1 z1] r0] z0] i] k] _. cbn [simple_leg]. unfold simple.
        destruct (_ || _); repeat apply Forall_cons; try apply Forall_nil; exact I.
Qed.
(** The azimuthal current deposited in the border area is always lost: rz_current_distribution clears the border area of
    all three components (line 177) after azimuthal_current_distribution has filled it. *)
Theorem C69_border_refuted : forall g ps j, sizes g -> fits3 (g_nr g) (g_nz g) j -> Forall (lands g) ps ->
  exists j', vb_distribution g ps j = Ok j' /\
  forall x y, inw (g_nr g) (g_nz g) x y -> interior g x y = false -> lv (c_phi j') x y = 0%R.
Proof.
  intros g ps j S F L. destruct (vb_spec g ps j S F L) as (j' & E & F' & V). exists j'. split; [exact E|].
  intros x y W I. change (c_phi j') with (getc Cphi j'). rewrite (V Cphi x y W), I.
  apply (after_other (fun c => c <> Cphi)); [apply Forall_fm; intros p _; apply rz_deps_of|tauto].
Qed.
(** A particle that moves straight along z clears the radial current of its cell, whoever deposited it. *)
Theorem C69_erased_refuted : forall g p j, sizes g -> fits3 (g_nr g) (g_nz g) j -> lands g p ->
  m_r p = m_ro p -> (mnzl <= Rabs (m_z p - m_zo p))%R ->
  exists j', do_deps (rz_deps g p) j = Ok j' /\ lv (c_r j') (m_cr p - g_d0 g) (m_cz p - g_d1 g) = 0%R /\
             lv (c_r j') (m_cr p - g_d0 g) (m_cz p - g_d1 g + 1) = 0%R.
Proof.
  intros g p j S F L E M. destruct (do_deps_spec _ _ _ (rz_deps_win g p S L) j F) as (j' & Ej & F' & V). exists j'. split; [exact Ej|].
  change (c_r j') with (getc Cr j'). rewrite !V. clear V Ej F'. destruct L as (B & _ & _).
  unfold rz_deps. rewrite (rz_particle_eq g p S B). destruct B as (B1 & B2 & B3 & B4). unfold old_r. rewrite B3, E.
  replace (1 <? Z.abs (_ - _)) with false by lia. rewrite Rabs_same_lt. cbn [orb].
  unfold strict. apply rlt_false in M. rewrite Rabs_same_lt, M. cbn [andb app]. rewrite <- B4.
  set (i := cell_number (m_ro p) (g_dr g) - g_d0 g). set (k := m_cz p - g_d1 g).
  cbn [after ceqb andb]. rewrite !Z.eqb_refl. replace (k =? k + 1) with false by lia. replace (k + 1 =? k) with false by lia. cbn [andb].
  split; (repeat match goal with |- context [if ?b then _ else _] => lazymatch type of b with bool => destruct b end end; reflexivity).
Qed.
(** what is lost in the border area is not zero *)
Definition edge_ex : mover := mkMover (5/2) (1/2) (5/2) (1/2) 2 0 1 1.
Example C69_border_ex : lands geo1 edge_ex /\ interior geo1 3 0 = false /\ inw 3 3 3 0 /\ amount Cphi 3 0 (azimuthal geo1 edge_ex) <> 0%R.
Proof.
  split.
  { split; [unfold bound; cbn [m_r m_ro m_cr m_cz m_z edge_ex g_dr g_dz geo1]; cells; repeat match goal with |- _ /\ _ => split end; first [lra|reflexivity]|]. cbn; lia. }
  split; [reflexivity|]. split; [unfold inw; lia|].
  unfold azimuthal. cbn [m_r m_ro m_cr m_cz m_z m_zo m_q m_vphi edge_ex g_dr g_dz g_d0 g_d1 geo1 amount ceqb]. bools.
  unfold cyl_rng_vol, cell_volume. assert (P := PI_RGT_0). intros C. field_simplify in C; [|lra].
  assert (X : (0 < 2816 / (61440 * PI))%R) by (apply Rdiv_lt_0_compat; lra). lra.
Qed.
Definition axial_ex : mover := mkMover (3/2) (3/4) (3/2) (1/4) 1 0 0 1.
Example C69_erased_ex : sizes geo1 /\ fits3 3 3 (gz3 7) /\ lands geo1 axial_ex /\ m_r axial_ex = m_ro axial_ex /\
  (mnzl <= Rabs (m_z axial_ex - m_zo axial_ex))%R /\ lv (c_r (gz3 7)) 1 0 = 7%R.
Proof.
  assert (M := mnzl_small). split; [exact geo1_sizes|]. split; [apply gz3_fits|]. split.
  { split; [unfold bound; cbn [m_r m_ro m_cr m_cz m_z axial_ex g_dr g_dz geo1]; cells; repeat match goal with |- _ /\ _ => split end; first [lra|reflexivity]|]. cbn; lia. }
  split; [reflexivity|]. split; [cbn [m_z m_zo axial_ex]; eapply Rle_trans; [exact M|absolve]|reflexivity].
Qed.
(** both schemes on a particle that crosses a border of its cell in both directions *)
Example C69_ex : lands geo1 cross_ex /\ lands_from_near geo1 cross_ex /\ (mnzl <= Rabs (m_r cross_ex - m_ro cross_ex))%R /\ fits3 3 3 (gz3 7).
Proof.
  assert (M := mnzl_small). unfold lands, lands_from_near, bound. cbn [m_r m_ro m_cr m_cz m_z m_zo cross_ex g_dr g_dz g_d0 g_d1 g_nr g_nz geo1]. cells.
  repeat match goal with |- _ /\ _ => split end; try lra; try lia; try reflexivity; [eapply Rle_trans; [exact M|absolve]|apply gz3_fits].
Qed.

(** * C70: the ZigZag scheme splits by the relative position in the cell *)
(** for a particle that stays in one cell: the share of the upper node is the distance of the middle of the path from the
    lower border in units of the cell size *)
Definition split_right (g : geo) (p : mover) : Prop :=
  (amount Cr (m_cr p - g_d0 g) (m_cz p - g_d1 g + 1) (zigzag g p)
   = total Cr (zigzag g p) * (((m_zo p + m_z p) / 2 - IZR (m_cz p) * g_dz g) / g_dz g))%R.
Definition stays (g : geo) (p : mover) : Prop := bound g p /\ old_r g p = m_cr p /\ old_z g p = m_cz p.
Lemma relay_same i x1 x2 d : (IZR i * d <= x1 <= (IZR i + 1) * d)%R -> (IZR i * d <= x2 <= (IZR i + 1) * d)%R -> relay_point i i x1 x2 d = ((x1 + x2) / 2)%R.
Proof.
  intros H1 H2. unfold relay_point. rewrite (Rmin_left (IZR i * d)), (Rmax_left (IZR i * d)) by lra. rewrite Rmax_right, Rmin_right by lra. reflexivity.
Qed.
Lemma split_value g p : sizes g -> stays g p ->
  (amount Cr (m_cr p - g_d0 g) (m_cz p - g_d1 g + 1) (zigzag g p)
   = total Cr (zigzag g p) * ((m_zo p + m_z p) / 2 - IZR (m_cz p) * g_dz g))%R.
Proof.
  intros S (B & Ei & Ek). destruct (bound_cells g p S B) as [(C1 & C2 & C3 & C4) [I1 I2]].
  destruct (C42_radial_longitudinal_partial g p S (proj1 B) (proj1 (proj2 B))) as [T _]. rewrite T. clear T.
  assert (V := mid_volume_pos g p S (proj1 B) (proj1 (proj2 B))). destruct S as (S1 & S2 & S3).
  destruct B as (B1 & B2 & B3 & B4). unfold old_r in *. unfold old_z in *.
  unfold zigzag. rewrite ring_volume_eq. fold (mid_volume g p). rewrite <- B3, <- B4, Ei, Ek in *. rewrite plus_IZR in *.
  rewrite !relay_same by lra.
  generalize (m_vphi p * g_dt g / (2 * PI * (m_ro p + m_r p)))%R. intros W.
  cbn [amount ceqb andb]. rewrite !Z.eqb_refl.
  replace (m_cz p - g_d1 g + 1 =? m_cz p - g_d1 g) with false by lia. cbn [andb]. field. lra.
Qed.
Theorem C70_unit_cells_partial : forall g p, sizes g -> stays g p -> g_dz g = 1%R -> split_right g p.
Proof. intros g p S H E. unfold split_right. rewrite split_value by assumption. rewrite E. unfold Rdiv. rewrite Rinv_1. ring. Qed.
Theorem C70_refuted : forall g p, sizes g -> stays g p -> g_dz g <> 1%R ->
  m_q p <> 0%R -> m_r p <> m_ro p -> ((m_zo p + m_z p) / 2 <> IZR (m_cz p) * g_dz g)%R -> ~ split_right g p.
Proof.
  intros g p S H N1 N2 N3 N4 C. unfold split_right in C. rewrite split_value in C by assumption.
  destruct H as (B & _ & _). destruct (C42_radial_longitudinal_partial g p S (proj1 B) (proj1 (proj2 B))) as [T _]. 
  assert (V := mid_volume_pos g p S (proj1 B) (proj1 (proj2 B))). destruct S as (S1 & S2 & S3).
  assert (X : (total Cr (zigzag g p) <> 0)%R).
  { rewrite T. unfold Rdiv. apply Rmult_integral_contrapositive_currified; [apply Rmult_integral_contrapositive_currified; [exact N2|lra]|].
    apply Rinv_neq_0_compat, Rmult_integral_contrapositive_currified; lra. }
  set (w := ((m_zo p + m_z p) / 2 - IZR (m_cz p) * g_dz g)%R) in *.
  apply Rmult_eq_reg_l in C; [|exact X]. assert (W : w <> 0%R) by (unfold w; lra).
  apply N1. apply Rmult_eq_reg_l with w; [|exact W]. rewrite Rmult_1_r. rewrite C at 1. field. lra.
Qed.
Definition geo_fine : geo := mkGeo 3 3 0 0 (1/2) (1/2) true true true true 1.
Definition fine_ex : mover := mkMover (9/8) (3/8) (5/4) (1/8) 2 0 0 1.
Example C70_ex : sizes geo_fine /\ stays geo_fine fine_ex /\ g_dz geo_fine <> 1%R /\ m_q fine_ex <> 0%R /\ m_r fine_ex <> m_ro fine_ex /\
  ((m_zo fine_ex + m_z fine_ex) / 2 <> IZR (m_cz fine_ex) * g_dz geo_fine)%R.
Proof.
  split; [unfold sizes; cbn; lra|]. split.
  { unfold stays, bound, old_r, old_z. cbn [m_r m_ro m_cr m_cz m_z m_zo fine_ex g_dr g_dz geo_fine]; cells; repeat match goal with |- _ /\ _ => split end; first [lra|reflexivity]. }
  cbn; repeat split; lra.
Qed.

Print Assumptions C42_radial_longitudinal_partial.
Print Assumptions C42_azimuthal_partial.
Print Assumptions C42_azimuthal_refuted.
Print Assumptions C43_relay_in_both_cells.
Print Assumptions C44_radial_jump_reported.
Print Assumptions C44_deposits_partial.
Print Assumptions C44_longitudinal_jump_refuted.
Print Assumptions C44_corner_refuted.
Print Assumptions C67_oblique_partial.
Print Assumptions C67_straight_partial.
Print Assumptions C67_border_start_refuted.
Print Assumptions C67_radial_crossing_refuted.
Print Assumptions C68_one_row_partial.
Print Assumptions C68_refuted.
Print Assumptions C69_zigzag_partial.
Print Assumptions C69_vb_partial.
Print Assumptions C69_border_refuted.
Print Assumptions C69_erased_refuted.
Print Assumptions C70_unit_cells_partial.
Print Assumptions C70_refuted.
