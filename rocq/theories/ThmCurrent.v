(** Theorems about the current deposition: properties C42 - C44 and C67 - C70. *)
From Coq Require Import ZifyBool Reals Lra Psatz.
From Verif Require Import Base GridModel GridProofs OverlayModel YeeModel YeeProofs ThmYee RndUtil ExtModel ThmExt CurrentModel CurrentProofs.
Open Scope Z_scope.

(** cells of positive size, positive time step *)
Definition sizes (g : geo) : Prop := (0 < g_dr g /\ 0 < g_dz g /\ 0 < g_dt g)%R.
(** a particle off the axis whose cell numbers are those of its position (SpecieP::bind_cell_numbers) *)
Definition bound (g : geo) (p : mover) : Prop :=
  (0 < m_r p)%R /\ (0 < m_ro p)%R /\ m_cr p = cell_number (m_r p) (g_dr g) /\ m_cz p = cell_number (m_z p) (g_dz g).
Lemma cell_number_is p d k : (0 < d)%R -> (IZR k * d <= p < (IZR k + 1) * d)%R -> cell_number p d = k.
Proof.
  intros Hd H. assert (X := cell_number_range p d k (k + 1) Hd). rewrite plus_IZR in X. specialize (X H). lia.
Qed.
Lemma cell_number_pos p d : (0 < d)%R -> (0 < p)%R -> 0 <= cell_number p d.
Proof. intros Hd Hp. unfold cell_number. apply Int_part_nonneg. apply Rmult_le_pos; [lra|]. left. now apply Rinv_0_lt_compat. Qed.

(** * C42 *)
(** the volume of the ring between the radii m*dr and (m+1)*dr *)
Definition ring_volume (g : geo) (m : Z) : R :=
  (PI * g_dz g * ((IZR m + 1) * g_dr g * ((IZR m + 1) * g_dr g) - IZR m * g_dr g * (IZR m * g_dr g)))%R.
Definition mid_volume (g : geo) (p : mover) : R := ring_volume g (cell_number ((m_r p + m_ro p) / 2) (g_dr g)).
Lemma ring_volume_eq g m : cell_volume m 0 (g_dr g) (g_dz g) = ring_volume g m.
Proof. unfold cell_volume, ring_volume. ring. Qed.
Lemma mid_volume_pos g p : sizes g -> (0 < m_r p)%R -> (0 < m_ro p)%R -> (0 < mid_volume g p)%R.
Proof.
  intros (H1 & H2 & H3) P1 P2. unfold mid_volume. rewrite <- ring_volume_eq. apply volume_pos; auto; [|lia]. apply cell_number_pos; lra.
Qed.
Theorem C42_radial_longitudinal_partial : forall g p, sizes g -> (0 < m_r p)%R -> (0 < m_ro p)%R ->
  (total Cr (zigzag g p) = m_q p * (m_r p - m_ro p) / (g_dt g * mid_volume g p) /\
   total Cz (zigzag g p) = m_q p * (m_z p - m_zo p) / (g_dt g * mid_volume g p))%R.
Proof.
  intros g p S P1 P2. assert (V := mid_volume_pos g p S P1 P2). destruct S as (_ & _ & S).
  unfold zigzag. cbn [total ceqb]. rewrite ring_volume_eq. fold (mid_volume g p).
  generalize (relay_point (cell_number (m_ro p) (g_dr g)) (cell_number (m_r p) (g_dr g)) (m_ro p) (m_r p) (g_dr g)). intros rr.
  generalize (relay_point (cell_number (m_zo p) (g_dz g)) (cell_number (m_z p) (g_dz g)) (m_zo p) (m_z p) (g_dz g)). intros zr.
  generalize (m_vphi p * g_dt g / (2 * PI * (m_ro p + m_r p)))%R. intros W.
  split; field; lra.
Qed.

(** relative positions of the two legs, in units of length as in the code *)
Definition wz1 (g : geo) (p : mover) : R :=
  let k := cell_number (m_zo p) (g_dz g) in
  ((m_zo p + relay_point k (cell_number (m_z p) (g_dz g)) (m_zo p) (m_z p) (g_dz g)) / 2 - IZR k * g_dz g)%R.
Definition wz2 (g : geo) (p : mover) : R :=
  let k := cell_number (m_z p) (g_dz g) in
  ((m_z p + relay_point (cell_number (m_zo p) (g_dz g)) k (m_zo p) (m_z p) (g_dz g)) / 2 - IZR k * g_dz g)%R.
Definition wr2 (g : geo) (p : mover) : R :=
  let i := cell_number (m_r p) (g_dr g) in
  ((m_r p + relay_point (cell_number (m_ro p) (g_dr g)) i (m_ro p) (m_r p) (g_dr g)) / 2 - IZR i * g_dr g)%R.
Lemma azimuthal_total g p : sizes g -> (0 < m_r p)%R -> (0 < m_ro p)%R ->
  (total Cphi (zigzag g p) = m_q p * m_vphi p / mid_volume g p * (1 + (1 - wr2 g p) * (wz1 g p - wz2 g p)))%R.
Proof.
  intros S P1 P2. assert (V := mid_volume_pos g p S P1 P2). destruct S as (_ & _ & S).
  unfold zigzag. cbn [total ceqb]. rewrite ring_volume_eq. fold (mid_volume g p). unfold wr2, wz1, wz2. cbv zeta.
  generalize (relay_point (cell_number (m_ro p) (g_dr g)) (cell_number (m_r p) (g_dr g)) (m_ro p) (m_r p) (g_dr g)). intros rr.
  generalize (relay_point (cell_number (m_zo p) (g_dz g)) (cell_number (m_z p) (g_dz g)) (m_zo p) (m_z p) (g_dz g)). intros zr.
  field; lra.
Qed.
(** The azimuthal part holds for a particle that does not move along z ... *)
Theorem C42_azimuthal_partial : forall g p, sizes g -> (0 < m_r p)%R -> (0 < m_ro p)%R -> m_z p = m_zo p ->
  (total Cphi (zigzag g p) = m_q p * m_vphi p / mid_volume g p)%R.
Proof.
  intros g p S P1 P2 E. rewrite azimuthal_total by assumption. unfold wz1, wz2. rewrite E. cbv zeta. 
  replace (1 + _)%R with 1%R by ring. ring.
Qed.
(** ... and fails otherwise: line 104 uses W_z1 where W_z2 is meant. *)
Definition geo1 : geo := mkGeo 3 3 0 0 1 1 true true true true 1.
Lemma geo1_sizes : sizes geo1.
Proof. unfold sizes, geo1; cbn; lra. Qed.
Ltac cells := repeat match goal with |- context [cell_number ?x ?d] =>
  let H := fresh in first
   [ assert (H : cell_number x d = 0) by (apply cell_number_is; cbn; lra)
   | assert (H : cell_number x d = 1) by (apply cell_number_is; cbn; lra)
   | assert (H : cell_number x d = 2) by (apply cell_number_is; cbn; lra)
   | assert (H : cell_number x d = 3) by (apply cell_number_is; cbn; lra) ]; rewrite H; clear H end.
Definition drift_ex : mover := mkMover (5/2) (3/4) (5/2) (1/4) 2 0 1 1.
Lemma drift_relay : relay_point 0 0 (1/4) (3/4) 1 = (1/2)%R /\ relay_point 2 2 (5/2) (5/2) 1 = (5/2)%R.
Proof.
  unfold relay_point. split.
  - rewrite (Rmin_left (0 * 1)), (Rmax_left (0 * 1)) by lra. rewrite Rmax_right, Rmin_right by lra. lra.
  - rewrite (Rmin_left (2 * 1)), (Rmax_left (2 * 1)) by lra. rewrite Rmax_right, Rmin_right by lra. lra.
Qed.
Theorem C42_azimuthal_refuted : exists g p, sizes g /\ (0 < m_r p)%R /\ (0 < m_ro p)%R /\ bound g p /\
  (total Cphi (zigzag g p) = 7 / 8 * (m_q p * m_vphi p / mid_volume g p))%R /\
  (total Cphi (zigzag g p) <> m_q p * m_vphi p / mid_volume g p)%R.
Proof.
  exists geo1, drift_ex. assert (S := geo1_sizes).
  assert (P : (0 < m_r drift_ex)%R /\ (0 < m_ro drift_ex)%R) by (cbn; lra). destruct P as [P1 P2].
  split; [exact S|]. split; [exact P1|]. split; [exact P2|]. split.
  { unfold bound. repeat split; [exact P1|exact P2| |]; cbn; cells; reflexivity. }
  assert (E : (total Cphi (zigzag geo1 drift_ex) = 7 / 8 * (m_q drift_ex * m_vphi drift_ex / mid_volume geo1 drift_ex))%R).
  { rewrite azimuthal_total by assumption. assert (V := mid_volume_pos _ _ S P1 P2). unfold wr2, wz1, wz2. cbv zeta.
    cbn [m_r m_ro m_z m_zo drift_ex g_dr g_dz geo1]. cells. destruct drift_relay as [-> ->].
    generalize dependent (mid_volume geo1 drift_ex). intros v V. cbn [m_q m_vphi drift_ex]. field. lra. }
  split; [exact E|]. rewrite E. assert (V := mid_volume_pos _ _ S P1 P2).
  generalize dependent (mid_volume geo1 drift_ex). intros v _ V. cbn [m_q m_vphi drift_ex].
  assert (0 < / v)%R by now apply Rinv_0_lt_compat. unfold Rdiv. lra.
Qed.
Example C42_ex : (total Cz (zigzag geo1 drift_ex) = 1 / 2 / (1 * mid_volume geo1 drift_ex))%R.
Proof.
  destruct (C42_radial_longitudinal_partial geo1 drift_ex geo1_sizes) as [_ E]; [cbn; lra|cbn; lra|]. rewrite E.
  cbn [m_q m_z m_zo drift_ex g_dt geo1]. replace (1 * (3 / 4 - 1 / 4))%R with (1 / 2)%R by lra. reflexivity.
Qed.

(** * C43: the relay point *)
Theorem C43_relay_in_both_cells : forall dx x1 x2, (0 < dx)%R ->
  let i1 := cell_number x1 dx in let i2 := cell_number x2 dx in
  Z.abs (i1 - i2) <= 1 ->
  let p := relay_point i1 i2 x1 x2 dx in
  (IZR i1 * dx <= p <= (IZR i1 + 1) * dx /\ IZR i2 * dx <= p <= (IZR i2 + 1) * dx)%R /\
  forall t, (0 <= t <= 1)%R ->
  (IZR i1 * dx <= x1 + t * (p - x1) <= (IZR i1 + 1) * dx /\ IZR i2 * dx <= p + t * (x2 - p) <= (IZR i2 + 1) * dx)%R.
Proof.
  intros dx x1 x2 Hd i1 i2 Hi p.
  assert (B1 := cell_number_bounds x1 dx Hd). assert (B2 := cell_number_bounds x2 dx Hd). fold i1 in B1. fold i2 in B2.
  assert (C : (IZR i1 * dx <= p <= (IZR i1 + 1) * dx /\ IZR i2 * dx <= p <= (IZR i2 + 1) * dx)%R).
  { unfold p, relay_point. clearbody i1 i2. clear p.
    assert (Z : i2 = i1 \/ i2 = i1 + 1 \/ i2 = i1 - 1) by lia.
    destruct Z as [-> | [-> | ->]]; rewrite ?plus_IZR, ?minus_IZR in *.
    - rewrite (Rmin_left (IZR i1 * dx)), (Rmax_left (IZR i1 * dx)) by lra. rewrite Rmax_right, Rmin_right by lra. lra.
    - rewrite (Rmin_left (IZR i1 * dx)), (Rmax_right (IZR i1 * dx)) by lra. rewrite Rmin_left; [lra|].
      eapply Rle_trans; [|apply Rmax_l]. lra.
    - rewrite (Rmin_right (IZR i1 * dx)), (Rmax_left (IZR i1 * dx)) by lra. rewrite Rmin_left; [lra|].
      eapply Rle_trans; [|apply Rmax_l]. lra. }
  split; [exact C|]. destruct C as [C1 C2]. intros t T. split; apply between; auto; lra.
Qed.
Example C43_ex : (let p := relay_point (cell_number (7/10) 1) (cell_number (12/10) 1) (7/10) (12/10) 1 in 0 <= p <= 1 /\ 1 <= p <= 2)%R.
Proof.
  destruct (C43_relay_in_both_cells 1 (7/10) (12/10)) as [C _]; [lra|cells; lia|]. revert C. cells. lra.
Qed.

(** * C67: charge conservation of the Villasenor-Buneman scheme *)
(** the cells of a particle's old and new position *)
Definition old_r (g : geo) (p : mover) : Z := cell_number (m_ro p) (g_dr g).
Definition old_z (g : geo) (p : mover) : Z := cell_number (m_zo p) (g_dz g).
Definition step_at_most_one (g : geo) (p : mover) : Prop :=
  Z.abs (m_cr p - old_r g p) <= 1 /\ Z.abs (m_cz p - old_z g p) <= 1.
Definition oblique (p : mover) : Prop := (mnzl <= Rabs (m_r p - m_ro p) /\ mnzl <= Rabs (m_z p - m_zo p))%R.
(** the legs of an oblique move *)
Definition legs_of (g : geo) (p : mover) : list leg :=
  legs g (m_r p) (m_z p) (m_ro p) (m_zo p) (m_cr p) (old_r g p) (m_cz p) (old_z g p).

Lemma req_false x y : x <> y -> req x y = false.
Proof. unfold req. destruct (Req_EM_T x y); congruence. Qed.
Lemma bound_cells g p : sizes g -> bound g p ->
  (IZR (m_cr p) * g_dr g <= m_r p < IZR (m_cr p + 1) * g_dr g /\ IZR (old_r g p) * g_dr g <= m_ro p < IZR (old_r g p + 1) * g_dr g /\
   IZR (m_cz p) * g_dz g <= m_z p < IZR (m_cz p + 1) * g_dz g /\ IZR (old_z g p) * g_dz g <= m_zo p < IZR (old_z g p + 1) * g_dz g)%R
  /\ 0 <= m_cr p /\ 0 <= old_r g p.
Proof.
  intros (S1 & S2 & _) (P1 & P2 & E1 & E2). rewrite E1, E2. unfold old_r, old_z. rewrite !plus_IZR.
  assert (A1 := cell_number_bounds (m_r p) _ S1). assert (A2 := cell_number_bounds (m_ro p) _ S1).
  assert (A3 := cell_number_bounds (m_z p) _ S2). assert (A4 := cell_number_bounds (m_zo p) _ S2).
  assert (B1 := cell_number_pos _ _ S1 P1). assert (B2 := cell_number_pos _ _ S1 P2). repeat split; lra || lia.
Qed.
Lemma rz_particle_eq g p : sizes g -> bound g p ->
  rz_particle g p =
    if 1 <? Z.abs (m_cr p - old_r g p) then None
    else if rlt (Rabs (m_r p - m_ro p)) mnzl || rlt (Rabs (m_z p - m_zo p)) mnzl
    then Some (strict g (m_q p) (m_r p) (m_z p) (m_ro p) (m_zo p))
    else Some (flat_map (simple_leg g (m_q p)) (legs_of g p)).
Proof.
  intros S B. destruct (bound_cells g p S B) as [(C1 & C2 & C3 & C4) _]. unfold rz_particle. fold (old_r g p) (old_z g p).
  rewrite (req_false (m_ro p)) by lra. rewrite (req_false (m_zo p)) by lra.
  rewrite (req_false (m_r p)) by lra. rewrite (req_false (m_z p)) by lra. cbv zeta.
  now replace ((1 <? Z.abs (m_cr p - old_r g p)) || (1 <? Z.abs (m_cr p - old_r g p))) with (1 <? Z.abs (m_cr p - old_r g p)) by lia.
Qed.

(** Oblique moves that cross at most one border in each direction.  Excluded: a path through a corner of the grid, a move
    inwards that starts exactly on a border, and legs shorter than 1e-15 that are not empty. *)
Theorem C67_oblique_partial : forall g p, sizes g -> bound g p -> step_at_most_one g p -> oblique p ->
  (m_cr p < old_r g p -> m_cz p = old_z g p -> (IZR (old_r g p) * g_dr g < m_ro p)%R) ->
  (m_cr p <> old_r g p -> m_cz p <> old_z g p -> ~ through_corner g (m_ro p) (m_zo p) (m_r p) (m_z p)) ->
  Forall leg_long (legs_of g p) ->
  exists ds, rz_particle g p = Some ds /\ conserves g (m_q p) ds (m_ro p) (m_zo p) (m_r p) (m_z p).
Proof.
  intros g p S B [O1 O2] [M1 M2] Nb Nc L. destruct (bound_cells g p S B) as [(C1 & C2 & C3 & C4) [I1 I2]].
  rewrite (rz_particle_eq g p S B). replace (1 <? Z.abs (m_cr p - old_r g p)) with false by lia.
  assert (N1 := proj2 (rlt_false _ _) M1). assert (N2 := proj2 (rlt_false _ _) M2). rewrite N1, N2. cbn [orb].
  eexists. split; [reflexivity|].
  assert (P := mnzl_pos). destruct S as (S1 & S2 & S3). destruct B as (B1 & B2 & _).
  destruct (legs_good g S1 S2 S3 (m_r p) (m_z p) (m_ro p) (m_zo p) (m_cr p) (old_r g p) (m_cz p) (old_z g p)) as (G1 & G2 & G3); auto.
  { intros E. rewrite E in M1. replace (m_ro p - m_ro p)%R with 0%R in M1 by ring. rewrite Rabs_R0 in M1. lra. }
  { intros E. rewrite E in M2. replace (m_zo p - m_zo p)%R with 0%R in M2 by ring. rewrite Rabs_R0 in M2. lra. }
  now apply chain_conserves.
Qed.

(** Moves along one coordinate: along z, over at most one border; along r, inside one cell. *)
Ltac conds := repeat match goal with |- context [if ?b then _ else _] =>
  first [ replace b with true by lia | replace b with false by lia ] end.
Lemma Rabs_same_lt x : rlt (Rabs (x - x)) mnzl = true.
Proof. apply rlt_true. replace (x - x)%R with 0%R by ring. rewrite Rabs_R0. apply mnzl_pos. Qed.
Lemma strict_axial g q r zo zn : sizes g -> (0 < r)%R ->
  Z.abs (cell_number zn (g_dz g) - cell_number zo (g_dz g)) <= 1 -> (mnzl <= Rabs (zn - zo))%R ->
  conserves g q (strict g q r zn r zo) r zo r zn.
Proof.
  intros (S1 & S2 & S3) Pr Hk M x y Hx.
  assert (Ri := cell_number_bounds r _ S1). assert (Rn := cell_number_bounds zn _ S2). assert (Ro := cell_number_bounds zo _ S2).
  assert (Ni := cell_number_pos r _ S1 Pr).
  unfold strict. apply rlt_false in M. rewrite Rabs_same_lt, M. cbn [andb app]. clear M.
  generalize dependent (cell_number r (g_dr g)). intros i Ri Ni.
  generalize dependent (cell_number zn (g_dz g)). intros kn Hk Rn.
  generalize dependent (cell_number zo (g_dz g)). intros ko Hk Ro.
  rewrite (share_r_in g S1 i x r), (share_z_in g S2 kn y zn), (share_z_in g S2 ko y zo) by (rewrite ?plus_IZR; lra).
  assert (PI0 := PI_RGT_0).
  assert (X1 : x = i \/ x = i + 1 \/ (x <> i /\ x <> i + 1)) by lia.
  assert (Zk : kn = ko \/ kn = ko + 1 \/ kn = ko - 1) by lia.
  assert (Zi : i = 0 \/ 1 <= i) by lia.
  destruct Zk as [-> | [-> | ->]].
  - replace (ko - ko =? 0) with true by lia.
    assert (Y1 : y = ko \/ y = ko + 1 \/ (y <> ko /\ y <> ko + 1)) by lia.
    unfold outflow, at_node, face_z, face_r. cbn [amount ceqb andb].
    destruct Zi as [-> | Zi]; [|assert (Pi := IZR_le _ _ Zi)];
    (destruct X1 as [-> | [-> | [X1 X2]]]; destruct Y1 as [-> | [-> | [Y1 Y2]]]; conds; try ring;
      rewrite ?minus_IZR, ?plus_IZR; field; repeat split; lra).
  - replace (ko + 1 - ko =? 0) with false by lia. replace (ko + 1 - ko =? 1) with true by lia.
    assert (Y1 : y = ko \/ y = ko + 1 \/ y = ko + 2 \/ (y <> ko /\ y <> ko + 1 /\ y <> ko + 2)) by lia.
    unfold outflow, at_node, face_z, face_r. cbn [amount ceqb andb app].
    destruct Zi as [-> | Zi]; [|assert (Pi := IZR_le _ _ Zi)];
    (destruct X1 as [-> | [-> | [X1 X2]]]; destruct Y1 as [-> | [-> | [-> | (Y1 & Y2 & Y3)]]]; conds; try ring;
      rewrite ?minus_IZR, ?plus_IZR; field; repeat split; lra).
  - replace (ko - 1 - ko =? 0) with false by lia. replace (ko - 1 - ko =? 1) with false by lia. replace (ko - 1 - ko =? -1) with true by lia.
    assert (Y1 : y = ko - 1 \/ y = ko \/ y = ko + 1 \/ (y <> ko - 1 /\ y <> ko /\ y <> ko + 1)) by lia.
    unfold outflow, at_node, face_z, face_r. cbn [amount ceqb andb app].
    destruct Zi as [-> | Zi]; [|assert (Pi := IZR_le _ _ Zi)];
    (destruct X1 as [-> | [-> | [X1 X2]]]; destruct Y1 as [-> | [-> | [-> | (Y1 & Y2 & Y3)]]]; conds; try ring;
      rewrite ?minus_IZR, ?plus_IZR, ?minus_IZR; field; repeat split; lra).
Qed.
Lemma strict_radial g q ro rn z : sizes g -> (0 < ro)%R -> (0 < rn)%R ->
  cell_number rn (g_dr g) = cell_number ro (g_dr g) -> (mnzl <= Rabs (rn - ro))%R ->
  conserves g q (strict g q rn z ro z) ro z rn z.
Proof.
  intros (S1 & S2 & S3) Po Pn Hi M x y Hx.
  assert (Ri := cell_number_bounds rn _ S1). assert (Ro := cell_number_bounds ro _ S1). assert (Rn := cell_number_bounds z _ S2).
  assert (Ni := cell_number_pos rn _ S1 Pn). rewrite <- Hi in Ro.
  unfold strict. apply rlt_false in M. rewrite Rabs_same_lt, M. cbn [andb]. clear M. rewrite <- Hi. clear Hi.
  generalize dependent (cell_number rn (g_dr g)). intros i Ri Ro Ni.
  generalize dependent (cell_number z (g_dz g)). intros k Rn.
  rewrite (share_r_in g S1 i x rn), (share_r_in g S1 i x ro), (share_z_in g S2 k y z) by (rewrite ?plus_IZR; lra).
  assert (PI0 := PI_RGT_0). assert (Pi := IZR_le _ _ Ni).
  assert (X1 : x = i \/ x = i + 1 \/ (x <> i /\ x <> i + 1)) by lia.
  assert (Y1 : y = k \/ y = k + 1 \/ (y <> k /\ y <> k + 1)) by lia.
  replace (i - i =? 0) with true by lia.
  unfold outflow, at_node, face_r, dens_strict. cbn [amount ceqb andb].
  replace (ro + (rn - ro))%R with rn by ring.
  destruct X1 as [-> | [-> | [X1 X2]]]; destruct Y1 as [-> | [-> | [Y1 Y2]]]; conds; try ring;
      rewrite ?minus_IZR, ?plus_IZR; field; repeat split; lra.
Qed.
Theorem C67_straight_partial : forall g p, sizes g -> bound g p ->
  (m_r p = m_ro p -> Z.abs (m_cz p - old_z g p) <= 1 -> (mnzl <= Rabs (m_z p - m_zo p))%R ->
   exists ds, rz_particle g p = Some ds /\ conserves g (m_q p) ds (m_ro p) (m_zo p) (m_r p) (m_z p)) /\
  (m_z p = m_zo p -> m_cr p = old_r g p -> (mnzl <= Rabs (m_r p - m_ro p))%R ->
   exists ds, rz_particle g p = Some ds /\ conserves g (m_q p) ds (m_ro p) (m_zo p) (m_r p) (m_z p)).
Proof.
  intros g p S B. pose proof B as (B1 & B2 & B3 & B4). rewrite (rz_particle_eq g p S B). split.
  - intros E Hk M. unfold old_r. rewrite B3, E. replace (1 <? Z.abs (_ - _)) with false by lia.
    rewrite Rabs_same_lt. cbn [orb]. eexists. split; [reflexivity|]. apply strict_axial; auto. now rewrite B4 in Hk.
  - intros E Hi M. rewrite Hi. replace (1 <? Z.abs (_ - _)) with false by lia.
    rewrite E, Rabs_same_lt, Bool.orb_true_r. eexists. split; [reflexivity|]. apply strict_radial; auto. now rewrite B3 in Hi.
Qed.
