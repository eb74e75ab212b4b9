(** C158: beyond its conditions.  A particle that flies straight outwards over a border of cells breaks Gauss's law in a round of the
    main loop. *)
From Coq Require Import ZifyBool Reals Lra Psatz Permutation.
From Verif Require Import Base RndUtil DecompModel DecompProofs CollectorModel CollectorProofs ListUtil PushModel ParticleModel ParticleProofs StepModel
  ThmParticle ThmInit ThmDecomp ThmStep ThmFlight GridModel GridProofs OverlayModel YeeModel YeeProofs ThmYee ExtModel ThmExt CurrentModel CurrentProofs ThmCurrent ThmCurrent2
  CavityProofs ThmEnergy ThmGauss YeeSmb ThmYeeSmb SmbCorner SmbCurrent ThmDivide ThmGaussSmb RoundModel RoundProofs ThmRound ThmRoundGauss ThmMpiRoundEx.
Open Scope Z_scope.

Definition outward : part := {| pos_r := 3; pos_phi := 0; pos_z := 3 / 2; vel_r := 3 / 2; vel_phi := 0; vel_z := 0; p_sin := 0; weight := 1 |}.
Definition outward0 : pt := mkPt outward 3 (3 / 2).
Definition radial_start : world1 := mkWorld1 (still_fields geo2) (uniform3 9 9 0) (fun _ _ => [(7, [outward0])]).
Definition radial_way : CurrentModel.mover := mkMover (9 / 2) (3 / 2) 3 (3 / 2) 2 1 0 (1 * 1).
Lemma outward_radius : sqrt ((3 + 3 / 2 * 1) * (3 + 3 / 2 * 1) + 0 * 1 * (0 * 1)) = (9 / 2)%R.
Proof. replace ((3 + 3 / 2 * 1) * (3 + 3 / 2 * 1) + 0 * 1 * (0 * 1))%R with (9 / 2 * (9 / 2))%R by field. apply sqrt_square. lra. Qed.
Lemma outward_calm : calm geo2 9 (set_vel outward (V3 (3 / 2) 0 0)).
Proof.
  unfold calm. cbv zeta. cbn [g_dr g_dz g_dt g_nr g_nz geo2 set_vel outward pos_r pos_phi pos_z vel_r vel_phi vel_z vx vy vz].
  split; [reflexivity|]. split; [lra|]. split; [lra|]. split.
  { replace ((3 / 2 * 1) ^ 2 + (0 * 1) ^ 2)%R with (3 / 2 * (3 / 2))%R by field. rewrite sqrt_square by lra. lra. }
  split; [rewrite Rmult_0_l, Rabs_R0; lra|]. intros n. rewrite outward_radius. split; intros E.
  - apply (half_not_int 2 (9 / 4) ltac:(lra) (n * 9)). lra.
  - apply (half_not_int 1 (3 / 2) ltac:(lra) (n * 9)). lra.
Qed.
Theorem C158_radial_refuted : exists w w', one_round coast (fun _ => 1%R) vb_distribution 1 geo2 (uniform 9 9 1) (uniform 9 9 0) w w' /\
  closed geo2 /\ sound geo2 w /\ gentle_moves coast geo2 w w' /\ node geo2 3 1 /\ vacuum geo2 (uniform 9 9 1) (uniform 9 9 0) 1 3 1 /\
  (exists q', o_p w' 0 0 = [(7, [q'])] /\ pos_z (now q') = old_z q') /\
  gauss_error (fun _ => 1%R) geo2 1 w' 3 1 <> gauss_error (fun _ => 1%R) geo2 1 w 3 1.
Proof.
  assert (S : sizes geo2) by (unfold sizes, geo2; cbn; lra). assert (M := mnzl_small).
  assert (Fz : fits3 9 9 (uniform3 9 9 0)) by (apply mk_grid3_fits; lia).
  assert (F1 : fits2 9 9 (uniform 9 9 1)) by (apply mk_grid_fits; lia). assert (F2 : fits2 9 9 (uniform 9 9 0)) by (apply mk_grid_fits; lia).
  assert (Fy : yee_fits geo2 (still_fields geo2)) by (split; [exact Fz|split; exact Fz]).
  destruct (yee_step_ok 1 geo2 (uniform 9 9 1) (uniform 9 9 0) (uniform3 9 9 0) (still_fields geo2) ltac:(split; cbn; lia) F1 F2 Fz Fy) as (y1 & Ey & (Fe & Fh & Ft)).
  assert (Ins : ThmExt.inside geo2 3 (3 / 2)) by (unfold ThmExt.inside; cbn; repeat split; (lia || lra)).
  destruct (C41_defined geo2 (y_e y1) _ _ Fe Ins) as (e & _ & Ee & _). destruct (C41_defined geo2 (y_h y1) _ _ Fh Ins) as (_ & b & _ & Eb).
  destruct (single_round coast (fun _ => 1%R) 1 geo2 1 1 9 ltac:(lia) ltac:(lia) ltac:(lia) eq_refl eq_refl ltac:(cbn; lia) ltac:(cbn; lia) eq_refl eq_refl ltac:(cbn; lra) ltac:(cbn; lra)
     (uniform 9 9 1) (uniform 9 9 0) (still_fields geo2) y1 (uniform3 9 9 0) outward0 (V3 (3 / 2) 0 0) Ey) as (w1 & (p1 & O1 & O2 & O3 & _) & Ef & Ep).
  { exists e, b. split; [exact Ee|]. split; [exact Eb|]. reflexivity. } { exact outward_calm. } { exact Fz. }
  remember (mkPt _ _ _) as q' eqn:Eq in Ep. cbn [outward0 now] in Eq.
  assert (Q1 : pos_r (now q') = (9 / 2)%R /\ pos_z (now q') = (3 / 2)%R /\ vel_phi (now q') = 0%R /\ weight (now q') = 1%R).
  { rewrite Eq. cbn [now flight pos_r pos_z vel_phi weight g_dr g_dz g_dt g_nr g_nz geo2 set_vel outward vel_r vel_z vx vy vz]. rewrite outward_radius. unfold bounce.
    repeat (destruct (Rlt_dec _ _); cbn [fst snd]; try lra). }
  assert (Q5 : old_r q' = 3%R /\ old_z q' = (3 / 2)%R) by (rewrite Eq; split; reflexivity). destruct Q5 as [Q5 Q6]. clear Eq.
  destruct Q1 as (Q1 & Q2 & Q3 & Q4).
  assert (Em : movers (fun _ => 1%R) (g_dr geo2) (g_dz geo2) (o_p w1 0 0) = [radial_way]).
  { rewrite Ep. unfold movers. cbn [flat_map map fst snd app]. f_equal. unfold mover_of, pt_cr, pt_cz, part_cr, part_cz. rewrite Q1, Q2, Q3, Q4, Q5, Q6. cbn [g_dr g_dz geo2].
    change (ParticleModel.cell_number) with cell_number. assert (A : cell_number (9 / 2) 2 = 2) by (cells; reflexivity). assert (B : cell_number (3 / 2) 1 = 1) by (apply cell_is; lra).
    rewrite A, B. reflexivity. }
  assert (B : ThmCurrent.bound geo2 radial_way) by (unfold ThmCurrent.bound; cbn [m_r m_ro m_cr m_cz m_z radial_way g_dr g_dz geo2]; cells; repeat split; lra).
  assert (E : ThmCurrent.old_r geo2 radial_way = 1) by (unfold ThmCurrent.old_r; cbn [m_ro radial_way g_dr geo2]; cells; reflexivity).
  assert (L : lands geo2 radial_way) by (split; [exact B|cbn; lia]).
  destruct (zero_vb geo2 [radial_way] (uniform3 9 9 0) S Fz ltac:(constructor; [exact L|constructor])) as (j & Ej & Fj & _ & A).
  specialize (A ltac:(constructor; [unfold long_r; cbn [m_r m_ro radial_way]; eapply Rle_trans; [exact M|absolve]|constructor])).
  exists radial_start, (mkWorld1 y1 j (o_p w1)). split.
  { exists p1. cbn [o_f o_j o_p radial_start] in *. rewrite Ef in O1, O2. split; [exact O1|]. split; [exact O2|]. split; [exact O3|]. rewrite Em. exact Ej. }
  split; [exact geo2_closed|]. split. { split; [exact Fy|]. split; [exact Fz|]. cbn. repeat constructor. intros []. }
  split.
  { intros t q v [<-|[]] [<-|[]] (e0 & b0 & _ & _ & Ev). injection Ev as <-. destruct outward_calm as (A1 & A2 & A3 & A4 & A5 & _).
    unfold gentle. cbv zeta. cbn [set_vel hurled pos_r pos_phi pos_z vel_r vel_phi vel_z vx vy vz outward0 now outward] in *. repeat (split; [assumption|]). split; [left|]; cbn; lra. }
  split; [unfold node; cbn; lia|]. assert (Vc : vacuum geo2 (uniform 9 9 1) (uniform 9 9 0) 1 3 1) by (intros a c _ _ _; unfold uniform; rewrite !mk_grid_lv; auto).
  split; [exact Vc|]. split; [exists q'; split; [exact Ep|congruence]|].
  assert (Hn : held (fun _ => 1%R) geo2 (mkWorld1 y1 j (o_p w1)) 3 1 = (1 * 1 * (share_r geo2 3 (9 / 2) * share_z geo2 1 (3 / 2)) + 0 + 0)%R).
  { unfold held. cbn [o_p]. rewrite Ep. cbn [sum_over fst snd]. rewrite Q1, Q2, Q4. ring. }
  unfold gauss_error. rewrite Hn. clear Hn.
  assert (X := C119_flux_partial geo2 _ _ _ _ 1 _ _ geo2_closed Fz Fz F1 F2 Fz ltac:(intros i k _ _; unfold uniform; rewrite !mk_grid_lv; lra) (yee_step_e _ _ _ _ _ _ _ Ey) 3 1
     ltac:(unfold node; cbn; lia) ltac:(congruence) Vc).
  cbn [radial_start o_f o_j]. unfold held. cbn [radial_start o_p sum_over fst snd outward0 now outward pos_r pos_z weight].
  change (y_e (still_fields geo2)) with (uniform3 9 9 0) in *. intros C.
  assert (D : (g_dt geo2 * flux geo2 j 3 1 = 1 * (share_r geo2 3 3 * share_z geo2 1 (3 / 2)) - 1 * (share_r geo2 3 (9 / 2) * share_z geo2 1 (3 / 2)))%R) by (clear - C X; lra). clear C X.
  assert (R0 : rz_deps geo2 radial_way = strict geo2 (1 * 1) (9 / 2) (3/2) 3 (3/2)).
  { unfold rz_deps. rewrite (rz_particle_eq _ _ S B), E. cbn [m_r m_ro m_z m_zo m_cr m_cz m_q radial_way].
    replace (1 <? Z.abs (2 - 1)) with false by reflexivity. rewrite Rabs_same_lt, Bool.orb_true_r. reflexivity. }
  revert D. unfold flux. change (3 =? 0) with false. cbv iota.
  rewrite (A Cr 3 1 ltac:(discriminate) ltac:(unfold inw; cbn; lia) : lv (c_r j) 3 1 = _), (A Cr (3 - 1) 1 ltac:(discriminate) ltac:(unfold inw; cbn; lia) : lv (c_r j) (3 - 1) 1 = _),
    (A Cz 3 1 ltac:(discriminate) ltac:(unfold inw; cbn; lia) : lv (c_z j) 3 1 = _), (A Cz 3 (1 - 1) ltac:(discriminate) ltac:(unfold inw; cbn; lia) : lv (c_z j) 3 (1 - 1) = _).
  cbn [flat_map]. rewrite R0, app_nil_r.
  rewrite (share_r_in geo2 ltac:(cbn; lra) 2 3 (9 / 2)) by (cbn; lra).
  rewrite (share_r_in geo2 ltac:(cbn; lra) 1 3 3) by (cbn; lra).
  rewrite (share_z_in geo2 ltac:(cbn; lra) 1 1 (3/2)) by (cbn; lra).
  unfold strict. cbn [g_dr g_dz g_dt g_d0 g_d1 geo2].
  rewrite Rabs_same_lt. rewrite (rlt_f (Rabs (9 / 2 - 3))) by (eapply Rle_trans; [exact M|absolve]). cbn [andb].
  cells. bools. cbn [app amount ceqb]. bools.
  unfold face_r, face_z, dens_strict. cbn [Z.eqb g_dr g_dz g_dt geo2].
  assert (P := PI_RGT_0). intros C. change (3 - 1) with 2 in C. field_simplify in C; lra.
Qed.

Print Assumptions C158_radial_refuted.
