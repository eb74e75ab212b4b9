(** C119, C120: Gauss's law. *)
From Coq Require Import ZifyBool Reals Lra Psatz.
From Verif Require Import SumUtil CavityProofs.
From Verif Require Import Base GridModel GridProofs OverlayModel YeeModel YeeProofs ThmYee RndUtil ExtModel ThmExt CurrentModel CurrentProofs ThmCurrent ThmCurrent2 ThmEnergy.
Open Scope Z_scope.

(** the flux of a field out of the ring around the node (i, k); [face_r], [face_z] are the areas of its faces *)
Definition flux (g : geo) (f : grid3 R) (i k : Z) : R :=
  (face_r g i * lv (c_r f) i k - (if i =? 0 then 0 else face_r g (i - 1) * lv (c_r f) (i - 1) k) + face_z g i * (lv (c_z f) i k - lv (c_z f) i (k - 1)))%R.
(** the nodes inside the walls *)
Definition node (g : geo) (i k : Z) : Prop := 0 <= i < g_nr g - 1 /\ 1 <= k < g_nz g - 1.
Definition vacuum (g : geo) (eps sg : grid R) (ev : R) (i k : Z) : Prop :=
  forall a b, i - 1 <= a <= i -> k - 1 <= b <= k -> 0 <= a -> lv eps a b = ev /\ lv sg a b = 0%R.

(** * C119 *)
(** The solver changes the flux out of a node by the current out of it, at all nodes but the first one on the axis ... *)
Lemma flux_parts g t j eps sg ev e e' : closed g -> fits3 (g_nr g) (g_nz g) t -> fits3 (g_nr g) (g_nz g) j ->
  fits2 (g_nr g) (g_nz g) eps -> fits2 (g_nr g) (g_nz g) sg -> fits3 (g_nr g) (g_nz g) e ->
  (forall i k, 0 <= i < g_nr g -> 0 <= k < g_nz g -> (2 * lv eps i k + lv sg i k * g_dt g <> 0)%R) ->
  calc_field_e g t j eps sg e = Ok e' -> forall i k, node g i k -> vacuum g eps sg ev i k ->
  (ev * (lv (c_r e') i k - lv (c_r e) i k) = g_dt g * (kr (g_dz g) (fof t) i k - lv (c_r j) i k))%R /\
  (0 < i -> (ev * (lv (c_r e') (i - 1) k - lv (c_r e) (i - 1) k) = g_dt g * (kr (g_dz g) (fof t) (i - 1) k - lv (c_r j) (i - 1) k))%R) /\
  (ev * (lv (c_z e') i k - lv (c_z e) i k) = g_dt g * (kz (g_dr g) (fof t) i k - lv (c_z j) i k))%R /\
  ((i, k) <> (0, 1) -> (ev * (lv (c_z e') i (k - 1) - lv (c_z e) i (k - 1)) = g_dt g * (kz (g_dr g) (fof t) i (k - 1) - lv (c_z j) i (k - 1)))%R).
Proof.
  intros Cl Ft Fj F1 F2 Fe Q E i k (Ni & Nk) V.
  destruct (electric_law g t j eps sg e e' Cl Ft Fj F1 F2 Fe Q E) as (_ & _ & L).
  destruct (L i k ltac:(lia) ltac:(lia)) as (L1 & _ & L3). destruct (V i k ltac:(lia) ltac:(lia) ltac:(lia)) as (V1 & V2). rewrite V1, V2 in *.
  cbn [fof fr fz] in *. repeat split.
  - specialize (L1 ltac:(unfold dof_r; lia)). lra.
  - intros Pi. destruct (L (i - 1) k ltac:(lia) ltac:(lia)) as (L1' & _ & _). destruct (V (i - 1) k ltac:(lia) ltac:(lia) ltac:(lia)) as (V1' & V2'). rewrite V1', V2' in *.
    cbn [fof fr fz] in *. specialize (L1' ltac:(unfold dof_r; lia)). lra.
  - specialize (L3 ltac:(unfold dof_z; lia)). lra.
  - intros Nc. assert (Nc' : ~ (i = 0 /\ k = 1)) by (intros (-> & ->); now apply Nc).
    destruct (L i (k - 1) ltac:(lia) ltac:(lia)) as (_ & _ & L3'). destruct (V i (k - 1) ltac:(lia) ltac:(lia) ltac:(lia)) as (V1' & V2'). rewrite V1', V2' in *.
    cbn [fof fr fz] in *. specialize (L3' ltac:(unfold dof_z; lia)). lra.
Qed.
(** there is no flux of a curl *)
Lemma no_flux g t i k : (0 < g_dr g)%R -> (0 < g_dz g)%R -> 0 <= i ->
  (face_r g i * kr (g_dz g) t i k - (if i =? 0 then 0 else face_r g (i - 1) * kr (g_dz g) t (i - 1) k) +
   face_z g i * (kz (g_dr g) t i k - kz (g_dr g) t i (k - 1)) = 0)%R.
Proof.
  intros Pr Pz Hi. unfold face_r, face_z, kr, kz, wc. destruct (i =? 0) eqn:I0.
  - apply Z.eqb_eq in I0. subst i. field. lra.
  - assert (1 <= IZR i)%R by (apply IZR_le; lia). rewrite minus_IZR. field. lra.
Qed.
Theorem C119_flux_partial : forall g t j eps sg ev e e', closed g -> fits3 (g_nr g) (g_nz g) t -> fits3 (g_nr g) (g_nz g) j ->
  fits2 (g_nr g) (g_nz g) eps -> fits2 (g_nr g) (g_nz g) sg -> fits3 (g_nr g) (g_nz g) e ->
  (forall i k, 0 <= i < g_nr g -> 0 <= k < g_nz g -> (2 * lv eps i k + lv sg i k * g_dt g <> 0)%R) ->
  calc_field_e g t j eps sg e = Ok e' -> forall i k, node g i k -> (i, k) <> (0, 1) -> vacuum g eps sg ev i k ->
  (ev * flux g e' i k - ev * flux g e i k = - g_dt g * flux g j i k)%R.
Proof.
  intros g t j eps sg ev e e' Cl Ft Fj F1 F2 Fe Q E i k Nd Nc V. pose proof Cl as (_ & _ & _ & _ & _ & _ & _ & Pr & Pz).
  destruct (flux_parts g t j eps sg ev e e' Cl Ft Fj F1 F2 Fe Q E i k Nd V) as (P1 & P2 & P3 & P4). specialize (P4 Nc).
  assert (N0 := no_flux g (fof t) i k Pr Pz ltac:(destruct Nd; lia)). unfold flux.
  destruct (i =? 0) eqn:I0.
  - transitivity (face_r g i * (ev * (lv (c_r e') i k - lv (c_r e) i k)) + face_z g i * (ev * (lv (c_z e') i k - lv (c_z e) i k) - ev * (lv (c_z e') i (k - 1) - lv (c_z e) i (k - 1))))%R; [ring|].
    rewrite P1, P3, P4. apply (f_equal (Rmult (g_dt g))) in N0. lra.
  - specialize (P2 ltac:(destruct Nd; lia)).
    transitivity (face_r g i * (ev * (lv (c_r e') i k - lv (c_r e) i k)) - face_r g (i - 1) * (ev * (lv (c_r e') (i - 1) k - lv (c_r e) (i - 1) k))
      + face_z g i * (ev * (lv (c_z e') i k - lv (c_z e) i k) - ev * (lv (c_z e') i (k - 1) - lv (c_z e) i (k - 1))))%R; [ring|].
    rewrite P1, P2, P3, P4. apply (f_equal (Rmult (g_dt g))) in N0. lra.
Qed.
(** ... where the longitudinal field of the cell in the corner of axis and wall is missing: a charge appears from nothing. *)
Theorem C119_corner : forall g t j eps sg ev e e', closed g -> 3 <= g_nz g -> fits3 (g_nr g) (g_nz g) t -> fits3 (g_nr g) (g_nz g) j ->
  fits2 (g_nr g) (g_nz g) eps -> fits2 (g_nr g) (g_nz g) sg -> fits3 (g_nr g) (g_nz g) e ->
  (forall i k, 0 <= i < g_nr g -> 0 <= k < g_nz g -> (2 * lv eps i k + lv sg i k * g_dt g <> 0)%R) ->
  calc_field_e g t j eps sg e = Ok e' -> vacuum g eps sg ev 0 1 ->
  (ev * flux g e' 0 1 - ev * flux g e 0 1 =
   - g_dt g * flux g j 0 1 + g_dt g * face_z g 0 * (4 * lv (c_phi t) 0 0 / g_dr g - lv (c_z j) 0 0))%R.
Proof.
  intros g t j eps sg ev e e' Cl M3 Ft Fj F1 F2 Fe Q E V. pose proof Cl as (W0 & W1 & W2 & W3 & D0 & N & M & Pr & Pz).
  assert (Nd : node g 0 1) by (unfold node; lia).
  destruct (flux_parts g t j eps sg ev e e' Cl Ft Fj F1 F2 Fe Q E 0 1 Nd V) as (P1 & _ & P3 & _).
  assert (Z0 : lv (c_z e') 0 0 = lv (c_z e) 0 0).
  { destruct (calc_field_e_spec g t j eps sg Ft Fj F1 F2 e Fe ltac:(lia) ltac:(lia)) as (e1 & E1 & _ & V' & _).
    rewrite E in E1. injection E1 as <-. rewrite (V' Cz 0 0 ltac:(lia) ltac:(lia) : lv (c_z e') 0 0 = _). unfold e_cell, lo_r, lo_z, hi_r, hi_z. rewrite W0, W1. reflexivity. }
  assert (N0 := no_flux g (fof t) 0 1 Pr Pz ltac:(lia)). unfold flux. change (0 =? 0) with true in *. cbv match in *. change (1 - 1) with 0 in *.
  rewrite Z0. transitivity (face_r g 0 * (ev * (lv (c_r e') 0 1 - lv (c_r e) 0 1)) + face_z g 0 * (ev * (lv (c_z e') 0 1 - lv (c_z e) 0 1)))%R; [ring|].
  rewrite P1, P3. assert (K : kz (g_dr g) (fof t) 0 0 = (4 * lv (c_phi t) 0 0 / g_dr g)%R) by (unfold kz; cbn [fof fp]; change (0 =? 0) with true; cbv match; unfold Rdiv; ring).
  rewrite <- K. apply (f_equal (Rmult (g_dt g))) in N0. lra.
Qed.
Definition corner_e : grid3 R := mk_grid3 3 3 (fun i k => if (i =? 0) && (k =? 1) then 1 else 0)%R (fun _ _ => 0%R) (fun _ _ => 0%R).
Lemma corner_e_sealed : sealed geo_ex corner_e.
Proof.
  intros i k Hi Hk. unfold corner_e, mk_grid3. cbn [c_r c_phi c_z]. rewrite !mk_grid_lv. cbn [geo_ex g_nr g_nz] in *. repeat split; intros B.
  destruct ((i =? 0) && (k =? 1)) eqn:D; [|reflexivity]. exfalso. lia.
Qed.
Lemma gz_lv v i k : lv (gz v) i k = v.
Proof. reflexivity. Qed.
Lemma yee_step_e mu g eps sg j y y' : yee_step mu g eps sg j y = Ok y' -> calc_field_e g (y_t y) j eps sg (y_e y) = Ok (y_e y').
Proof.
  unfold yee_step. destruct (calc_field_e g (y_t y) j eps sg (y_e y)) as [e'| |]; cbn [bind]; try discriminate.
  destruct (calc_field_h mu g e' (y_h y) (y_t y)) as [[h' t']| |]; cbn [bind]; try discriminate. now intros [= <-].
Qed.
Theorem C119_corner_refuted : exists y y', yee_fits geo_ex y /\ sealed geo_ex (y_e y) /\ centred 1 geo_ex y /\
  yee_step 1 geo_ex (gz 1) (gz 0) (gz3 0) y = Ok y' /\ vacuum geo_ex (gz 1) (gz 0) 1 0 1 /\ flux geo_ex (y_e y') 0 1 <> flux geo_ex (y_e y) 0 1.
Proof.
  assert (Fe : fits3 3 3 corner_e) by (apply mk_grid3_fits; lia). assert (Fz := gz3_fits 0).
  destruct (calc_field_h_spec 1 geo_ex corner_e Fe (gz3 0) (gz3 0) Fz Fz ltac:(cbn; lia)) as (h & t & E & Fh & Ft & V & _).
  set (y := mkYee corner_e h t).
  assert (Fy : yee_fits geo_ex y) by (split; [exact Fe|split; assumption]).
  destruct (yee_step_ok 1 geo_ex (gz 1) (gz 0) (gz3 0) y ltac:(split; cbn; lia) (gz_fits 1) (gz_fits 0) Fz Fy) as (y' & Ey & _).
  exists y, y'. split; [exact Fy|]. split; [exact corner_e_sealed|]. split; [exists (gz3 0), (gz3 0); auto|]. split; [exact Ey|].
  split; [intros a b _ _ _; rewrite !gz_lv; auto|].
  apply yee_step_e in Ey. destruct y' as [e' h' t']. cbn [y y_e y_t] in *. intros X.
  assert (B := C119_corner geo_ex t (gz3 0) (gz 1) (gz 0) 1 corner_e e' geo_ex_closed ltac:(cbn; lia) Ft Fz (gz_fits 1) (gz_fits 0) Fe
     ltac:(intros i k _ _; rewrite !gz_lv; lra) Ey ltac:(intros a b _ _ _; rewrite !gz_lv; auto)).
  rewrite X in B. destruct (V 0 0 ltac:(cbn; lia) ltac:(cbn; lia)) as (_ & T & _). rewrite T in B.
  assert (A : alpha_phi 1 geo_ex corner_e 0 0 = (-1)%R).
  { unfold alpha_phi, corner_e, mk_grid3. cbn [c_r c_z geo_ex g_dt g_dr g_dz]. rewrite !mk_grid_lv. cbn [Z.eqb Z.add Pos.eqb andb]. field. }
  rewrite A in B. unfold flux in B. cbn [gz3 c_r c_phi c_z geo_ex g_dt g_dr g_dz] in B. rewrite !gz_lv in B. unfold face_z in B. change (0 =? 0) with true in B. cbv match in B.
  cbn [g_dr g_dz geo_ex] in B. pose proof PI_RGT_0. lra.
Qed.
(** the other nodes of the same step *)
Example C119_example : closed (mkGeo 4 4 0 0 1 1 true true true true 1) /\ node (mkGeo 4 4 0 0 1 1 true true true true 1) 0 2 /\
  node (mkGeo 4 4 0 0 1 1 true true true true 1) 2 1 /\ vacuum (mkGeo 4 4 0 0 1 1 true true true true 1) (gz 1) (gz 0) 1 0 2.
Proof.
  split; [unfold closed; cbn [g_w0 g_w1 g_w2 g_w3 g_d0 g_nr g_nz g_dr g_dz]; repeat split; lia || lra|].
  split; [unfold node; cbn; lia|]. split; [unfold node; cbn; lia|]. intros a b _ _ _. rewrite !gz_lv. auto.
Qed.

(** * C120: with particles *)
(** the charge that belongs to a node before and after the moves *)
Fixpoint sum_over {A} (f : A -> R) (l : list A) : R := match l with [] => 0%R | a :: l' => (f a + sum_over f l')%R end.
Definition charge_before (g : geo) (ps : list mover) (i k : Z) : R := sum_over (fun p => m_q p * (share_r g i (m_ro p) * share_z g k (m_zo p)))%R ps.
Definition charge_after (g : geo) (ps : list mover) (i k : Z) : R := sum_over (fun p => m_q p * (share_r g i (m_r p) * share_z g k (m_z p)))%R ps.
(** the moves for which the current of Villasenor and Buneman is right (see C67), that do not clear other particles' current
    (see C69) *)
Definition oblique_move (g : geo) (p : mover) : Prop :=
  step_at_most_one g p /\ oblique p /\
  (m_cr p < old_r g p -> m_cz p = old_z g p -> (IZR (old_r g p) * g_dr g < m_ro p)%R) /\
  (m_cr p <> old_r g p -> m_cz p <> old_z g p -> ~ through_corner g (m_ro p) (m_zo p) (m_r p) (m_z p)) /\
  Forall leg_long (legs_of g p).
Definition radial_move (g : geo) (p : mover) : Prop := m_z p = m_zo p /\ m_cr p = old_r g p /\ (mnzl <= Rabs (m_r p - m_ro p))%R.
Definition good_move (g : geo) (p : mover) : Prop := lands g p /\ (oblique_move g p \/ radial_move g p).

Lemma amount_none c x y ds : Forall (fun d => match d with Inc _ i _ _ => 0 <= i | Put _ _ _ _ => True end) ds -> x < 0 -> amount c x y ds = 0%R.
Proof.
  induction 1 as [|[c' i k v|c' i k v] ds D _ IH]; intros Hx; cbn [amount]; auto. rewrite (IH Hx). replace (x =? i) with false by lia.
  rewrite Bool.andb_false_r, Bool.andb_false_l. lra.
Qed.
Lemma good_deps g p : sizes g -> g_d0 g = 0 -> good_move g p ->
  conserves g (m_q p) (rz_deps g p) (m_ro p) (m_zo p) (m_r p) (m_z p) /\
  Forall (fun d => match d with Inc _ i _ _ => 0 <= i | Put _ _ _ _ => True end) (rz_deps g p).
Proof.
  intros S D0 ((B & L1 & L2) & M). pose proof S as (S1 & S2 & S3). pose proof B as (B1 & B2 & B3 & B4).
  destruct (bound_cells g p S B) as [(C1 & C2 & C3 & C4) [I1 I2]].
  destruct M as [(O & Ob & Nb & Nc & Lg)|(Ez & Ei & Mr)].
  - destruct (C67_oblique_partial g p S B O Ob Nb Nc Lg) as (ds & E & C). unfold rz_deps. rewrite E. split; [exact C|].
    rewrite (rz_particle_eq g p S B) in E. destruct O as (O1 & O2). replace (1 <? Z.abs (m_cr p - old_r g p)) with false in E by lia.
    destruct Ob as (M1 & M2). assert (N1 := proj2 (rlt_false _ _) M1). assert (N2 := proj2 (rlt_false _ _) M2). rewrite N1, N2 in E. cbn [orb] in E. injection E as <-.
    assert (P := mnzl_pos).
    destruct (legs_good g S1 S2 S3 (m_r p) (m_z p) (m_ro p) (m_zo p) (m_cr p) (old_r g p) (m_cz p) (old_z g p)) as (_ & G2 & _); auto.
    { intros E. rewrite E in M1. replace (m_ro p - m_ro p)%R with 0%R in M1 by ring. rewrite Rabs_R0 in M1. lra. }
    { intros E. rewrite E in M2. replace (m_zo p - m_zo p)%R with 0%R in M2 by ring. rewrite Rabs_R0 in M2. lra. }
    fold (legs_of g p) in G2. apply Forall_flat_map. eapply Forall_impl; [|exact G2].
    intros [[[[[r1 z1] r0] z0] i] k] (Hi & _). cbn [simple_leg]. unfold simple. destruct (_ || _); [constructor|].
    repeat apply Forall_cons; try apply Forall_nil; lia.
  - destruct (C67_straight_partial g p S B) as (_ & St). destruct (St Ez Ei Mr) as (ds & E & C). unfold rz_deps. rewrite E. split; [exact C|].
    rewrite (rz_particle_eq g p S B) in E. replace (1 <? Z.abs (m_cr p - old_r g p)) with false in E by lia.
    rewrite Ez, Rabs_same_lt, Bool.orb_true_r in E. injection E as <-. unfold strict. cbv zeta. rewrite <- B3, Ei. unfold old_r in *. rewrite !Z.sub_diag. change (0 =? 0) with true. cbv iota.
    repeat match goal with |- context [if ?b then _ else _] => lazymatch type of b with bool => destruct b end end;
    repeat (apply Forall_app; split); repeat apply Forall_cons; try apply Forall_nil; try exact I; lia.
Qed.
Lemma current_is g ps j' : closed g -> sizes g -> Forall (lands g) ps -> Forall (fun p => (mnzl <= Rabs (m_r p - m_ro p))%R) ps ->
  vb_distribution g ps (uniform3 (g_nr g) (g_nz g) 0) = Ok j' -> g_nr g < 2 ^ 32 - 4 -> g_nz g < 2 ^ 32 - 4 ->
  forall c x y, c <> Cphi -> inw (g_nr g) (g_nz g) x y -> lv (getc c j') x y = amount c x y (flat_map (rz_deps g) ps).
Proof.
  intros Cl S L Long E Bn Bm c x y Hc W. pose proof Cl as (_ & _ & _ & _ & D0 & N & M & _).
  assert (Fz : fits3 (g_nr g) (g_nz g) (uniform3 (g_nr g) (g_nz g) 0)) by (apply mk_grid3_fits; lia).
  destruct (C69_vb_partial g ps _ S Fz L) as (j1 & E1 & _ & V). rewrite E in E1. injection E1 as <-.
  rewrite (V Long c x y Hc W). unfold uniform3. rewrite mk_grid3_lv. destruct (interior g x y), c; lra.
Qed.
(** the current that all the particles make leaves the nodes with their charge *)
Lemma deposits_leave g ps j' : closed g -> g_d1 g = 0 -> sizes g -> Forall (good_move g) ps ->
  (forall c x y, c <> Cphi -> inw (g_nr g) (g_nz g) x y -> lv (getc c j') x y = amount c x y (flat_map (rz_deps g) ps)) -> forall i k, node g i k ->
  charge_after g ps i k = (charge_before g ps i k - g_dt g * flux g j' i k)%R.
Proof.
  intros Cl D1 S G V' i k (Ni & Nk). pose proof Cl as (_ & _ & _ & _ & D0 & N & M & _).
  rewrite Forall_forall in G.
  assert (K : (charge_after g ps i k = charge_before g ps i k - outflow g (flat_map (rz_deps g) ps) i k)%R).
  { clear V'. induction ps as [|p ps IH].
    - cbn [flat_map]. unfold charge_after, charge_before, outflow, at_node. cbn [sum_over amount]. ring.
    - unfold charge_after, charge_before in *. cbn [sum_over flat_map]. rewrite (IH (fun x Hx => G x (or_intror Hx))).
      destruct (good_deps g p S D0 (G p (or_introl eq_refl))) as (C & _). rewrite (C i k ltac:(lia)).
      unfold outflow, at_node. rewrite !amount_app. ring. }
  rewrite K. unfold outflow, at_node, flux. rewrite D0, D1, !Z.sub_0_r.
  rewrite <- (V' Cr i k ltac:(discriminate) ltac:(unfold inw; lia)), <- (V' Cr (i - 1) k ltac:(discriminate) ltac:(unfold inw; lia)),
    <- (V' Cz i k ltac:(discriminate) ltac:(unfold inw; lia)), <- (V' Cz i (k - 1) ltac:(discriminate) ltac:(unfold inw; lia)). cbn [getc].
  destruct (i =? 0) eqn:I0; [|reflexivity]. apply Z.eqb_eq in I0. subst i.
  assert (Z0 : lv (c_r j') (0 - 1) k = 0%R).
  { rewrite (V' Cr (0 - 1) k ltac:(discriminate) ltac:(unfold inw; lia) : lv (c_r j') (0 - 1) k = _). apply amount_none; [|lia].
    apply Forall_flat_map, Forall_forall. intros p Hp. apply (good_deps g p S D0 (G p Hp)). }
  rewrite Z0. ring.
Qed.
Lemma long_moves g ps : Forall (good_move g) ps -> Forall (fun p => (mnzl <= Rabs (m_r p - m_ro p))%R) ps.
Proof.
  intros G. eapply Forall_impl; [|exact G]. intros p (_ & [(_ & (O & _) & _)|(_ & _ & O)]); exact O.
Qed.
Lemma current_leaves g ps j' : closed g -> g_d1 g = 0 -> sizes g -> Forall (good_move g) ps ->
  vb_distribution g ps (uniform3 (g_nr g) (g_nz g) 0) = Ok j' -> g_nr g < 2 ^ 32 - 4 -> g_nz g < 2 ^ 32 - 4 -> forall i k, node g i k ->
  charge_after g ps i k = (charge_before g ps i k - g_dt g * flux g j' i k)%R.
Proof.
  intros Cl D1 S G E Bn Bm. apply deposits_leave; auto.
  apply (current_is g ps j' Cl S); auto; [|now apply long_moves with g].
  eapply Forall_impl; [|exact G]. intros p Hp. apply Hp.
Qed.

(** steps of the program: the moves of all particles, then the fields (currents first set to zero, domain.cpp:135-138) *)
Fixpoint gauss_run (mu : R) (g : geo) (eps sg : grid R) (pss : list (list mover)) (y : yee) : outcome yee :=
  match pss with
  | [] => Ok y
  | ps :: pss' => do j <- vb_distribution g ps (uniform3 (g_nr g) (g_nz g) 0); do y' <- yee_step mu g eps sg j y; gauss_run mu g eps sg pss' y'
  end.
(** the particles go on from where they are *)
Definition where_to (ps : list mover) : list (R * R * R) := map (fun p => (m_q p, m_r p, m_z p)) ps.
Definition where_from (ps : list mover) : list (R * R * R) := map (fun p => (m_q p, m_ro p, m_zo p)) ps.
Fixpoint linked (start : list (R * R * R)) (pss : list (list mover)) : Prop :=
  match pss with [] => True | ps :: pss' => where_from ps = start /\ linked (where_to ps) pss' end.
Fixpoint arrived (start : list (R * R * R)) (pss : list (list mover)) : list (R * R * R) :=
  match pss with [] => start | ps :: pss' => arrived (where_to ps) pss' end.
Definition charge (g : geo) (l : list (R * R * R)) (i k : Z) : R := sum_over (fun c => match c with (q, r, z) => q * (share_r g i r * share_z g k z) end)%R l.
Lemma sum_over_map {A B} (h : A -> B) (f : B -> R) l : sum_over f (map h l) = sum_over (fun a => f (h a)) l.
Proof. induction l as [|a l IH]; cbn [sum_over map]; congruence. Qed.
(** Gauss's law keeps its error for ever: where it holds at the start it always holds. *)
Theorem C120_gauss_partial : forall mu g eps sg ev pss start y y', closed g -> g_d1 g = 0 -> g_nr g < 2 ^ 32 - 4 -> g_nz g < 2 ^ 32 - 4 -> (0 < g_dt g)%R ->
  fits2 (g_nr g) (g_nz g) eps -> fits2 (g_nr g) (g_nz g) sg ->
  (forall i k, 0 <= i < g_nr g -> 0 <= k < g_nz g -> (0 < lv eps i k)%R /\ (0 <= lv sg i k)%R) ->
  yee_fits g y -> linked start pss -> Forall (Forall (good_move g)) pss -> gauss_run mu g eps sg pss y = Ok y' ->
  forall i k, node g i k -> (i, k) <> (0, 1) -> vacuum g eps sg ev i k ->
  (ev * flux g (y_e y') i k - charge g (arrived start pss) i k = ev * flux g (y_e y) i k - charge g start i k)%R.
Proof.
  intros mu g eps sg ev pss start y y' Cl D1 Bn Bm Pt F1 F2 Q. revert start y. induction pss as [|ps pss IH]; intros start y Fy L G E i k Nd Nc V.
  - cbn [gauss_run] in E. injection E as <-. reflexivity.
  - cbn [gauss_run linked arrived] in *. destruct L as (L0 & L1). inversion G as [|? ? G1 G2]; subst.
    pose proof Cl as (_ & _ & _ & _ & D0 & N & M & Pr & Pz). assert (S : sizes g) by (split; [exact Pr|split; [exact Pz|exact Pt]]).
    assert (Fz : fits3 (g_nr g) (g_nz g) (uniform3 (g_nr g) (g_nz g) 0)) by (apply mk_grid3_fits; lia).
    destruct (vb_spec g ps _ S Fz) as (j & Ej & Fj & _); [eapply Forall_impl; [|exact G1]; intros p Hp; apply Hp|].
    rewrite Ej in E. cbn [bind] in E.
    destruct (yee_step_ok mu g eps sg j y ltac:(split; lia) F1 F2 Fj Fy) as (y1 & Ey & Fy1). rewrite Ey in E. cbn [bind] in E.
    rewrite (IH (where_to ps) y1 Fy1 L1 G2 E i k Nd Nc V).
    apply yee_step_e in Ey. rename Ey into Ee. set (e1 := y_e y1) in *.
    destruct Fy as (Fe & Fh & Ft).
    assert (B := C119_flux_partial g (y_t y) j eps sg ev (y_e y) e1 Cl Ft Fj F1 F2 Fe).
    specialize (B ltac:(intros a b Ha Hb; destruct (Q a b Ha Hb); assert (0 <= lv sg a b * g_dt g)%R by (apply Rmult_le_pos; lra); lra) Ee i k Nd Nc V).
    assert (C := current_leaves g ps j Cl D1 S G1 Ej Bn Bm i k Nd).
    assert (X : charge g (where_to ps) i k = charge_after g ps i k) by (unfold charge, where_to; now rewrite sum_over_map).
    assert (Y : charge g (where_from ps) i k = charge_before g ps i k) by (unfold charge, where_from; now rewrite sum_over_map).
    rewrite X, Y, C. lra.
Qed.

(** ** a radial move across a border *)
Definition radial_far : mover := mkMover 5 (3/2) 3 (3/2) 2 1 0 1.
Definition still_fields (g : geo) : yee := mkYee (uniform3 (g_nr g) (g_nz g) 0) (uniform3 (g_nr g) (g_nz g) 0) (uniform3 (g_nr g) (g_nz g) 0).
Lemma geo2_closed : closed geo2.
Proof. unfold closed. cbn [geo2 g_w0 g_w1 g_w2 g_w3 g_d0 g_nr g_nz g_dr g_dz]. repeat split; lia || lra. Qed.
Theorem C120_radial_refuted : exists y', lands geo2 radial_far /\ step_at_most_one geo2 radial_far /\ m_z radial_far = m_zo radial_far /\
  gauss_run 1 geo2 (uniform 9 9 1) (uniform 9 9 0) [[radial_far]] (still_fields geo2) = Ok y' /\
  node geo2 3 1 /\ vacuum geo2 (uniform 9 9 1) (uniform 9 9 0) 1 3 1 /\
  (1 * flux geo2 (y_e y') 3 1 - charge_after geo2 [radial_far] 3 1 <> 1 * flux geo2 (y_e (still_fields geo2)) 3 1 - charge_before geo2 [radial_far] 3 1)%R.
Proof.
  assert (S : sizes geo2) by (unfold sizes, geo2; cbn; lra).
  assert (B : bound geo2 radial_far) by (unfold bound; cbn [m_r m_ro m_cr m_cz m_z radial_far g_dr g_dz geo2]; cells; repeat split; lra).
  assert (E : old_r geo2 radial_far = 1) by (unfold old_r; cbn [m_ro radial_far g_dr geo2]; cells; reflexivity).
  assert (L : lands geo2 radial_far) by (split; [exact B|cbn; lia]).
  assert (Fz : fits3 9 9 (uniform3 9 9 0)) by (apply mk_grid3_fits; lia).
  assert (F1 : fits2 9 9 (uniform 9 9 1)) by (apply mk_grid_fits; lia). assert (F2 : fits2 9 9 (uniform 9 9 0)) by (apply mk_grid_fits; lia).
  assert (Fy : yee_fits geo2 (still_fields geo2)) by (split; [exact Fz|split; exact Fz]).
  assert (Ls : Forall (lands geo2) [radial_far]) by (constructor; [exact L|constructor]).
  destruct (vb_spec geo2 [radial_far] (uniform3 9 9 0) S Fz Ls) as (j & Ej & Fj & _).
  destruct (yee_step_ok 1 geo2 (uniform 9 9 1) (uniform 9 9 0) j (still_fields geo2) ltac:(split; cbn; lia) F1 F2 Fj Fy) as (y1 & Ey & Fy1).
  exists y1. split; [exact L|]. split.
  { unfold step_at_most_one, old_r, old_z; cbn [m_ro m_zo m_cr m_cz radial_far g_dr g_dz geo2]; cells; lia. }
  split; [reflexivity|]. split.
  { cbn [gauss_run]. change (uniform3 (g_nr geo2) (g_nz geo2) 0) with (uniform3 9 9 0). rewrite Ej. cbn [bind]. rewrite Ey. reflexivity. }
  split; [unfold node; cbn; lia|]. assert (Vc : vacuum geo2 (uniform 9 9 1) (uniform 9 9 0) 1 3 1) by (intros a b _ _ _; unfold uniform; rewrite !mk_grid_lv; auto).
  split; [exact Vc|]. apply yee_step_e in Ey.
  assert (X := C119_flux_partial geo2 _ j _ _ 1 _ _ geo2_closed Fz Fj F1 F2 Fz ltac:(intros i k _ _; unfold uniform; rewrite !mk_grid_lv; lra) Ey 3 1
     ltac:(unfold node; cbn; lia) ltac:(congruence) Vc).
  assert (M := mnzl_small).
  assert (A := current_is geo2 [radial_far] j geo2_closed S Ls ltac:(constructor; [cbn [m_r m_ro radial_far]; eapply Rle_trans; [exact M|absolve]|constructor]) Ej ltac:(cbn; lia) ltac:(cbn; lia)).
  assert (R0 : rz_deps geo2 radial_far = strict geo2 1 5 (3/2) 3 (3/2)).
  { unfold rz_deps. rewrite (rz_particle_eq _ _ S B), E. cbn [m_r m_ro m_z m_zo m_cr m_cz m_q radial_far].
    replace (1 <? Z.abs (2 - 1)) with false by reflexivity. rewrite Rabs_same_lt, Bool.orb_true_r. reflexivity. }
  intros C. unfold charge_after, charge_before in C. cbn [sum_over m_r m_ro m_z m_zo m_q radial_far] in C.
  change (y_e (still_fields geo2)) with (uniform3 9 9 0) in C.
  assert (D : (g_dt geo2 * flux geo2 j 3 1 = 1 * (share_r geo2 3 3 * share_z geo2 1 (3 / 2)) - 1 * (share_r geo2 3 5 * share_z geo2 1 (3 / 2)))%R) by (clear - C X; lra). clear C X.
  revert D. unfold flux. change (3 =? 0) with false. cbv iota.
  rewrite (A Cr 3 1 ltac:(discriminate) ltac:(unfold inw; cbn; lia) : lv (c_r j) 3 1 = _), (A Cr (3 - 1) 1 ltac:(discriminate) ltac:(unfold inw; cbn; lia) : lv (c_r j) (3 - 1) 1 = _),
    (A Cz 3 1 ltac:(discriminate) ltac:(unfold inw; cbn; lia) : lv (c_z j) 3 1 = _), (A Cz 3 (1 - 1) ltac:(discriminate) ltac:(unfold inw; cbn; lia) : lv (c_z j) 3 (1 - 1) = _).
  cbn [flat_map]. rewrite R0, app_nil_r.
  rewrite (share_r_in geo2 ltac:(cbn; lra) 2 3 5) by (cbn; lra).
  rewrite (share_r_in geo2 ltac:(cbn; lra) 1 3 3) by (cbn; lra).
  rewrite (share_z_in geo2 ltac:(cbn; lra) 1 1 (3/2)) by (cbn; lra).
  unfold strict. cbn [g_dr g_dz g_dt g_d0 g_d1 geo2].
  rewrite Rabs_same_lt. rewrite (rlt_f (Rabs (5 - 3))) by (eapply Rle_trans; [exact M|absolve]). cbn [andb].
  cells. bools. cbn [app amount ceqb]. bools.
  unfold face_r, face_z, dens_strict. cbn [Z.eqb g_dr g_dz g_dt geo2].
  assert (P := PI_RGT_0). intros C. change (3 - 1) with 2 in C. field_simplify in C; lra.
Qed.

(** ** example: an oblique move over a border, fields at rest *)
Example C120_example : good_move geo1 cross_ex /\ linked [(m_q cross_ex, m_ro cross_ex, m_zo cross_ex)] [[cross_ex]] /\
  exists y', gauss_run 1 geo1 (gz 1) (gz 0) [[cross_ex]] (still_fields geo1) = Ok y'.
Proof.
  assert (M := mnzl_small).
  assert (L : lands geo1 cross_ex) by (split; [exact cross_bound|cbn; lia]).
  split; [|split; [cbn; auto|]].
  - split; [exact L|]. left. unfold oblique_move. split.
    { unfold step_at_most_one, old_r, old_z; cbn [m_ro m_zo m_cr m_cz cross_ex g_dr g_dz geo1]; cells; lia. }
    split; [unfold oblique; cbn [m_r m_ro m_z m_zo cross_ex]; split; eapply Rle_trans; try exact M; absolve|].
    assert (E : m_cr cross_ex = old_r geo1 cross_ex) by (unfold old_r; cbn [m_cr m_ro cross_ex g_dr geo1]; cells; reflexivity).
    split; [lia|]. split; [lia|].
    rewrite cross_legs. repeat apply Forall_cons; try apply Forall_nil; cbn [leg_long]; right; split; eapply Rle_trans; try exact M; absolve.
  - assert (Fz : fits3 3 3 (uniform3 3 3 0)) by (apply mk_grid3_fits; lia).
    destruct (vb_spec geo1 [cross_ex] (uniform3 3 3 0) geo1_sizes Fz ltac:(constructor; [exact L|constructor])) as (j & Ej & Fj & _).
    destruct (yee_step_ok 1 geo1 (gz 1) (gz 0) j (still_fields geo1) ltac:(split; cbn; lia) (gz_fits 1) (gz_fits 0) Fj ltac:(split; [exact Fz|split; exact Fz])) as (y1 & Ey & _).
    exists y1. cbn [gauss_run]. change (uniform3 (g_nr geo1) (g_nz geo1) 0) with (uniform3 3 3 0). rewrite Ej. cbn [bind]. rewrite Ey. reflexivity.
Qed.

Print Assumptions C119_flux_partial.
Print Assumptions C119_corner.
Print Assumptions C119_corner_refuted.
Print Assumptions C120_gauss_partial.
Print Assumptions C120_radial_refuted.
