(** C67, continued: what holds of a radial move over a border. *)
From Coq Require Import ZifyBool Reals Lra Psatz.
From Verif Require Import Base GridModel GridProofs OverlayModel YeeModel YeeProofs ThmYee RndUtil ExtModel ThmExt CurrentModel CurrentProofs ThmCurrent ThmCurrent2.
Open Scope Z_scope.

Lemma crossing g q ro rn z x y : sizes g -> (0 < ro)%R -> (0 < rn)%R ->
  Z.abs (cell_number rn (g_dr g) - cell_number ro (g_dr g)) = 1 -> (mnzl <= Rabs (rn - ro))%R -> 0 <= x ->
  (g_dr g = 1%R \/ (x <> cell_number rn (g_dr g) /\ x <> cell_number rn (g_dr g) + 1)) ->
  (q * (share_r g x rn * share_z g y z) = q * (share_r g x ro * share_z g y z) - outflow g (strict g q rn z ro z) x y)%R.
Proof.
  intros (S1 & S2 & S3) Po Pn Hi M Hx Ok.
  assert (Ri := cell_number_bounds rn _ S1). assert (Ro := cell_number_bounds ro _ S1). assert (Rn := cell_number_bounds z _ S2).
  assert (Ni := cell_number_pos rn _ S1 Pn). assert (No := cell_number_pos ro _ S1 Po).
  unfold strict. apply rlt_false in M. rewrite Rabs_same_lt, M. cbn [andb]. clear M.
  set (i := cell_number rn (g_dr g)) in *. set (o := cell_number ro (g_dr g)) in *. set (k := cell_number z (g_dz g)) in *. clearbody i o k.
  rewrite (share_r_in g S1 i x rn), (share_r_in g S1 o x ro), (share_z_in g S2 k y z) by (rewrite ?plus_IZR; lra).
  assert (PI0 := PI_RGT_0). assert (Pi := IZR_le _ _ Ni). assert (Qo := IZR_le _ _ No).
  assert (Y1 : y = k \/ y = k + 1 \/ (y <> k /\ y <> k + 1)) by lia.
  assert (D : i = o + 1 \/ i = o - 1) by lia.
  unfold outflow, at_node, face_r, dens_strict.
  destruct D as [-> | ->].
  - replace (o + 1 - o =? 0) with false by lia. replace (o + 1 - o =? 1) with true by lia. cbn [app amount ceqb andb]. rewrite !plus_IZR in *.
    assert (X1 : x = o \/ x = o + 1 \/ x = o + 2 \/ (x <> o /\ x <> o + 1 /\ x <> o + 2)) by lia.
    replace (ro + ((IZR o + 1) * g_dr g - ro))%R with ((IZR o + 1) * g_dr g)%R by ring.
    replace ((IZR o + 1) * g_dr g + (rn - (IZR o + 1) * g_dr g))%R with rn by ring.
    destruct X1 as [-> | [-> | [-> | (X1 & X2 & X3)]]]; destruct Y1 as [-> | [-> | [Y1 Y2]]]; conds; try ring;
      rewrite ?minus_IZR, ?plus_IZR; try (destruct Ok as [Ok|Ok]; [rewrite Ok in *|exfalso; lia]); field; repeat split; lra.
  - replace (o - 1 - o =? 0) with false by lia. replace (o - 1 - o =? 1) with false by lia. replace (o - 1 - o =? -1) with true by lia. cbn [app amount ceqb andb]. rewrite !minus_IZR in *.
    assert (X1 : x = o - 1 \/ x = o \/ x = o + 1 \/ (x <> o - 1 /\ x <> o /\ x <> o + 1)) by lia.
    replace (IZR o - 1 + 1)%R with (IZR o) in * by ring.
    replace (ro + (IZR o * g_dr g - ro))%R with (IZR o * g_dr g)%R by ring.
    replace (IZR o * g_dr g + (rn - IZR o * g_dr g))%R with rn by ring.
    destruct X1 as [-> | [-> | [-> | (X1 & X2 & X3)]]]; destruct Y1 as [-> | [-> | [Y1 Y2]]]; conds; try ring;
      rewrite ?minus_IZR, ?plus_IZR; try (destruct Ok as [Ok|Ok]; [rewrite Ok in *|exfalso; lia]); field; repeat split; lra.
Qed.

(** A move along r over one border.  With cells of size one charge is conserved; with any cells it is at all nodes except the
    two of the cell in which the particle ends (C67_radial_crossing_refuted). *)
Theorem C67_radial_crossing_partial : forall g p, sizes g -> bound g p -> m_z p = m_zo p -> Z.abs (m_cr p - old_r g p) = 1 ->
  (mnzl <= Rabs (m_r p - m_ro p))%R ->
  exists ds, rz_particle g p = Some ds /\
  (g_dr g = 1%R -> conserves g (m_q p) ds (m_ro p) (m_zo p) (m_r p) (m_z p)) /\
  forall x y, 0 <= x -> x <> m_cr p -> x <> m_cr p + 1 ->
    (m_q p * (share_r g x (m_r p) * share_z g y (m_z p)) = m_q p * (share_r g x (m_ro p) * share_z g y (m_zo p)) - outflow g ds x y)%R.
Proof.
  intros g p S B E Hi M. exists (strict g (m_q p) (m_r p) (m_z p) (m_ro p) (m_zo p)). split.
  - rewrite (rz_particle_eq g p S B). replace (1 <? Z.abs (m_cr p - old_r g p)) with false by lia.
    now rewrite E, Rabs_same_lt, Bool.orb_true_r.
  - destruct B as (B1 & B2 & B3 & B4). unfold old_r in Hi. rewrite B3 in Hi. rewrite E, B3. split.
    + intros D x y Hx. apply crossing; auto.
    + intros x y Hx N1 N2. apply crossing; auto.
Qed.
Definition out_ex : mover := mkMover (5/2) (1/2) (3/2) (1/2) 2 0 0 1.
Example C67_radial_crossing_ex : sizes geo1 /\ bound geo1 out_ex /\ m_z out_ex = m_zo out_ex /\ Z.abs (m_cr out_ex - old_r geo1 out_ex) = 1 /\
  (mnzl <= Rabs (m_r out_ex - m_ro out_ex))%R /\ g_dr geo1 = 1%R.
Proof.
  split; [exact geo1_sizes|]. split.
  { unfold bound; cbn [m_r m_ro m_cr m_cz m_z out_ex g_dr g_dz geo1]; cells; repeat match goal with |- _ /\ _ => split end; first [lra|reflexivity]. }
  split; [reflexivity|]. split.
  { unfold old_r; cbn [m_cr m_ro out_ex g_dr geo1]; cells; reflexivity. }
  split; [|reflexivity]. eapply Rle_trans; [exact mnzl_small|]. cbn [m_r m_ro out_ex]. absolve.
Qed.

Print Assumptions C67_radial_crossing_partial.
