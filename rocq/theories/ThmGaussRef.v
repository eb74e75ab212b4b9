(** C123 beyond its conditions: Gauss's law fails in a divided area when a particle crosses the border between two rows of domains
    next to a corner of four domains. *)
From Coq Require Import ZifyBool Reals Lra Psatz Permutation.
From Verif Require Import Base GridModel GridProofs CollectorModel OverlayModel OverlayConc OverlaySum OverlayPass ThmOverlay YeeModel YeeProofs ThmYee
  ExtModel ThmExt RndUtil CurrentModel CurrentProofs ThmCurrent ThmCurrent2 SumUtil CavityProofs ThmEnergy ThmGauss YeeSmb ThmYeeSmb SmbCurrent ThmDivide ThmGaussSmb ThmInterp ThmRunRef.
Open Scope Z_scope.

(** what the radial and the longitudinal current of the divided area hold after the scheme of Villasenor and Buneman, without any
    condition on the corners *)
Theorem C121_vb_exact : forall g R C s, 1 <= R -> 1 <= C -> 4 <= s -> s + 4 < 2 ^ 32 -> g_nr g = R * s -> g_nz g = C * s -> sizes g ->
  forall ps j, all_fit R C s j ->
  (forall i k, 0 <= i < R -> 0 <= k < C -> Forall (lands (dom_geo g R C s (i, k))) (ps (i, k)) /\ Forall long_r (ps (i, k))) ->
  exists j', smb_current vb_distribution g R C s ps j = Ok j' /\ all_fit R C s j' /\
    forall c i k x y, c <> Cphi -> 0 <= i < R -> 0 <= k < C -> 0 <= x < s -> 0 <= y < s -> lv (getc c (j' (i, k))) x y =
      sum2 R C (fun a b => if anti s (i * s + x - a * s) (k * s + y - b * s) then 0%R
                           else amount c (i * s + x) (k * s + y) (flat_map (rz_deps g) (ps (a, b)))).
Proof.
  intros g R C s HR HC Hs HsL Gr Gz Sz ps j Fj L. set (dom i k := dom_geo g R C s (i, k)). unfold smb_current.
  destruct (each_dom_spec R C (fun p x => do a <- zero3 x; vb_distribution (dom_geo g R C s p) (ps p) a) j
     (fun p x => fits3 s s x /\ forall c u w, c <> Cphi -> inw s s u w -> lv (getc c x) u w = amount c u w (flat_map (rz_deps (dom_geo g R C s p)) (ps p)))) as (j1 & E1 & P1); [lia|lia| |].
  { intros i k Hi Hk. destruct (zero_vb (dom i k) (ps (i, k)) (j (i, k)) Sz (Fj i k Hi Hk) (proj1 (L i k Hi Hk))) as (x & Ex & Fx & _ & Vx).
    exists x. split; [exact Ex|]. split; [exact Fx|]. apply Vx. apply L; assumption. }
  rewrite E1. cbn [bind].
  assert (Fj1 : all_fit R C s j1) by (intros i k Hi Hk; apply (P1 i k Hi Hk)).
  destruct (stitch_sum R C s HR HC Hs HsL j1 Fj1) as (j' & E' & F' & SS). exists j'. split; [exact E'|]. split; [exact F'|].
  intros c i k x y N Hi Hk Hx Hy.
  assert (Am : forall a b X Y, amount c X Y (flat_map (rz_deps g) (ps (a, b))) = amount c (X - a * s) (Y - b * s) (flat_map (rz_deps (dom a b)) (ps (a, b)))).
  { intros a b X Y. rewrite (flat_map_shift (rz_deps g) (rz_deps (dom a b)) (a * s) (b * s)) by (intros; apply rz_deps_shift). rewrite amount_shift. f_equal; lia. }
  apply (SS c (fun p X Y => amount c X Y (flat_map (rz_deps g) (ps p)))); auto.
  - intros a b u w Ha Hb W. destruct (P1 a b Ha Hb) as (_ & V). rewrite (V c u w N W), Am. fold (dom a b). f_equal; lia.
  - intros a b u w Ha Hb W. rewrite Am. apply (ThmDivide.amount_none (inw s s)); [|intros I'; apply W; unfold inw in *; lia].
    apply Forall_fm. intros p Hp. destruct (L a b Ha Hb) as (La & _). rewrite Forall_forall in La.
    eapply Forall_impl; [|apply (rz_deps_win (dom a b) p Sz (La p Hp))]. intros []; auto.
Qed.

(** a charge that goes outwards through the border r = 4 next to z = 4 *)
Definition outgoing : mover := mkMover (17 / 4) (15 / 4) (15 / 4) (13 / 4) 4 3 0 1.
Lemma outgoing_legs : legs_of geo8 outgoing = [(4, 7/2, 15/4, 13/4, 3%Z, 3%Z); (17/4, 15/4, 4, 7/2, 4%Z, 3%Z)]%R.
Proof.
  unfold legs_of, old_r, old_z. cbn [m_r m_ro m_z m_zo m_cr m_cz m_q outgoing g_dr g_dz geo8]. cells4.
  unfold legs. cbn [g_dr g_dz geo8].
  change (Z.abs (4 - 3) + Z.abs (3 - 3) =? 0) with false. change (Z.abs (4 - 3) + Z.abs (3 - 3) =? 1) with true.
  change (negb (4 =? 3) && (3 =? 3)) with true. change (4 - 1) with 3. change (4 + 1) with 5. cbv iota zeta. rlts.
  replace (13 / 4 + (4 * 1 - 15 / 4) / ((17 / 4 - 15 / 4) / (15 / 4 - 13 / 4)))%R with (7 / 2)%R by lra.
  replace (4 * 1)%R with 4%R by lra. reflexivity.
Qed.
Lemma outgoing_bound : bound geo8 outgoing.
Proof. unfold bound; cbn [m_r m_ro m_cr m_cz m_z outgoing g_dr g_dz geo8]; cells4; repeat split; lra. Qed.
Lemma geo8_sizes : sizes geo8.
Proof. unfold sizes, geo8; cbn; lra. Qed.
Lemma outgoing_good : good_move geo8 outgoing.
Proof.
  assert (M := mnzl_small).
  split; [split; [exact outgoing_bound|cbn; lia]|]. left. split.
  { unfold step_at_most_one, old_r, old_z; cbn [m_ro m_zo m_cr m_cz outgoing g_dr g_dz geo8]; cells4; lia. }
  split; [unfold oblique; cbn [m_r m_ro m_z m_zo outgoing]; split; eapply Rle_trans; try exact M; absolve|].
  assert (E : m_cz outgoing = old_z geo8 outgoing) by (unfold old_z; cbn [m_cz m_zo outgoing g_dz geo8]; cells4; reflexivity).
  split. { unfold old_r. cbn [m_cr m_ro outgoing g_dr geo8]. cells4. lia. } split; [lia|].
  rewrite outgoing_legs. repeat apply Forall_cons; try apply Forall_nil; cbn [leg_long]; right; split; eapply Rle_trans; try exact M; absolve.
Qed.
Lemma ln_16_15 : (1 / 16 <= ln (16 / 15))%R.
Proof.
  assert (E := exp_ineq1_le (ln (15 / 16))). rewrite exp_ln in E by lra.
  assert (H : ln (15 / 16) = (- ln (16 / 15))%R) by (rewrite <- ln_Rinv by lra; f_equal; lra). lra.
Qed.
Lemma outgoing_deps : exists v1 v2 v3 v4 v5 v6 v7 v8, rz_deps geo8 outgoing =
  [Inc Cz 3 3 v1; Inc Cz 4 3 v2; Inc Cr 3 3 v3; Inc Cr 3 4 v4; Inc Cz 4 3 v5; Inc Cz 5 3 v6; Inc Cr 4 3 v7; Inc Cr 4 4 v8] /\ (0 < v4)%R.
Proof.
  assert (M := mnzl_small).
  unfold rz_deps. rewrite (rz_particle_eq geo8 outgoing geo8_sizes outgoing_bound).
  replace (1 <? Z.abs (m_cr outgoing - old_r geo8 outgoing)) with false by (unfold old_r; cbn [m_cr m_ro outgoing g_dr geo8]; cells4; reflexivity).
  rewrite (rlt_f (Rabs (m_r outgoing - m_ro outgoing)) mnzl), (rlt_f (Rabs (m_z outgoing - m_zo outgoing)) mnzl);
    [|cbn [m_z m_zo outgoing]; eapply Rle_trans; [exact M|absolve]|cbn [m_r m_ro outgoing]; eapply Rle_trans; [exact M|absolve]].
  cbn [orb]. rewrite outgoing_legs. cbn [flat_map simple_leg]. unfold simple.
  repeat match goal with |- context [rlt (Rabs ?x) mnzl] => rewrite (rlt_f (Rabs x) mnzl) by (eapply Rle_trans; [exact M|absolve]) end.
  cbn [orb app]. cbv zeta. do 8 eexists. split; [reflexivity|].
  unfold dens_z. cbn [g_dr g_dz g_dt geo8 m_q outgoing]. assert (P := PI_RGT_0). assert (Ln := ln_16_15).
  apply Rmult_lt_0_compat; [apply Rdiv_lt_0_compat; [lra|]; nra|].
  replace ((15 / 4 + (4 - 15 / 4)) / (15 / 4))%R with (16 / 15)%R by lra. lra.
Qed.

Theorem C123_refuted : exists mu g R C s eps sg Eps Sg ev ps start m y j m' j' i k,
  1 <= R /\ 1 <= C /\ 4 <= s /\ g_nr g = R * s /\ g_nz g = C * s /\ closed g /\ g_d1 g = 0 /\ (0 < g_dt g)%R /\
  inner2 R C s eps Eps /\ inner2 R C s sg Sg /\
  (forall i k, 0 <= i < g_nr g -> 0 <= k < g_nz g -> (0 < lv Eps i k)%R /\ (0 <= lv Sg i k)%R) /\
  same_fields g R C s m y /\ all_fit R C s j /\ linked_doms R C start [ps] /\
  (forall a b, 0 <= a < R -> 0 <= b < C -> Forall (lands (dom_geo g R C s (a, b))) (ps (a, b))) /\ Forall (good_move g) (everyone R C ps) /\
  smb_gauss mu g R C s eps sg [ps] m j = Ok (m', j') /\ node g i k /\ (i, k) <> (0, 1) /\ vacuum g Eps Sg ev i k /\
  (ev * glued_flux g s (fun p => y_e (m' p)) i k - charge g (arrived_doms R C start [ps]) i k <>
   ev * glued_flux g s (fun p => y_e (m p)) i k - charge g start i k)%R.
Proof.
  assert (Sz := geo8_sizes).
  assert (Ie : inner2 2 2 4 (fun _ => sz 4 1) (sz 8 1)) by apply C65_example. assert (Is : inner2 2 2 4 (fun _ => sz 4 0) (sz 8 0)) by apply C65_example.
  assert (SF : same_fields geo8 2 2 4 (fun _ => mkYee (sz3 4 0) (sz3 4 0) (sz3 4 0)) (mkYee (sz3 8 0) (sz3 8 0) (sz3 8 0))) by apply C65_example.
  assert (Fj : all_fit 2 2 4 (fun _ => sz3 4 0)) by (intros i j _ _ []; apply sz_fits; lia).
  assert (Cl : closed geo8) by (unfold closed, geo8; cbn; repeat split; lia || lra).
  assert (L : forall a b, 0 <= a < 2 -> 0 <= b < 2 -> Forall (lands (dom_geo geo8 2 2 4 (a, b))) (at_dom (1, 0) [outgoing] (a, b)) /\ Forall long_r (at_dom (1, 0) [outgoing] (a, b))).
  { intros i k Hi Hk. unfold at_dom. destruct (peq (i, k) (1, 0)) eqn:E; [|split; constructor].
    apply peq_true in E. injection E as -> ->. split; (constructor; [|constructor]).
    - split; [exact outgoing_bound|]. unfold dom_geo. cbn [fst snd g_nr g_nz g_d0 g_d1 geo8 m_cr m_cz outgoing]. lia.
    - unfold long_r. eapply Rle_trans; [exact mnzl_small|]. cbn [m_r m_ro outgoing]. absolve. }
  destruct (C121_vb_exact geo8 2 2 4 ltac:(lia) ltac:(lia) ltac:(lia) ltac:(lia) eq_refl eq_refl Sz _ _ Fj L) as (j' & Ej & Fj' & V).
  assert (SG := gather_same geo8 2 2 4 j' ltac:(lia) ltac:(lia) ltac:(lia) eq_refl eq_refl ltac:(cbn; lia) ltac:(cbn; lia) Fj').
  destruct (C65_step 1 geo8 2 2 4 ltac:(lia) ltac:(lia) ltac:(lia) ltac:(lia) eq_refl eq_refl ltac:(cbn; lia) ltac:(cbn; lia) _ _ _ _ Ie Is _ _ _ _ SF SG) as (m' & y' & Em & Ey & SF').
  assert (Vc : vacuum geo8 (sz 8 1) (sz 8 0) 1 3 4) by (intros a b Ha Hb _; rewrite !lv_sz by lia; split; reflexivity).
  assert (Nd : node geo8 3 4) by (unfold node; cbn; lia).
  exists 1%R, geo8, 2, 2, 4, (fun _ => sz 4 1), (fun _ => sz 4 0), (sz 8 1), (sz 8 0), 1%R, (at_dom (1, 0) [outgoing]), [(1, 15/4, 13/4)%R],
    (fun _ => mkYee (sz3 4 0) (sz3 4 0) (sz3 4 0)), (mkYee (sz3 8 0) (sz3 8 0) (sz3 8 0)), (fun _ => sz3 4 0), m', j', 3, 4.
  split; [lia|]. split; [lia|]. split; [lia|]. split; [reflexivity|]. split; [reflexivity|]. split; [exact Cl|]. split; [reflexivity|]. split; [cbn; lra|].
  split; [exact Ie|]. split; [exact Is|].
  assert (Q : forall i k, 0 <= i < g_nr geo8 -> 0 <= k < g_nz geo8 -> (0 < lv (sz 8 1) i k)%R /\ (0 <= lv (sz 8 0) i k)%R).
  { intros i k Hi Hk. cbn [g_nr g_nz geo8] in *. rewrite !lv_sz by lia. lra. }
  split; [exact Q|]. split; [exact SF|]. split; [exact Fj|]. split; [split; [apply Permutation_refl|exact I]|].
  split; [intros a b Ha Hb; apply (L a b Ha Hb)|]. split; [constructor; [exact outgoing_good|constructor]|].
  split; [cbn [smb_gauss]; rewrite Ej; cbn [bind]; rewrite Em; reflexivity|]. split; [exact Nd|]. split; [discriminate|]. split; [exact Vc|].
  change (arrived_doms 2 2 [(1, 15/4, 13/4)%R] [at_dom (1, 0) [outgoing]]) with [(1, 17/4, 15/4)%R].
  rewrite (glued_flux_agrees geo8 2 2 4 _ (y_e y') 3 4 ltac:(lia) eq_refl eq_refl) by (auto; apply SF').
  rewrite (glued_flux_agrees geo8 2 2 4 _ (sz3 8 0) 3 4 ltac:(lia) eq_refl eq_refl) by (auto; apply SF).
  apply yee_step_e in Ey. destruct SF as ((Fe & Fh & Ft) & _).
  assert (B := C119_flux_partial geo8 (sz3 8 0) (gather geo8 4 j') (sz 8 1) (sz 8 0) 1 (sz3 8 0) (y_e y') Cl Ft (proj1 SG) (proj1 Ie) (proj1 Is) Fe).
  specialize (B ltac:(intros a b Ha Hb; destruct (Q a b Ha Hb); assert (0 <= lv (sz 8 0) a b * g_dt geo8)%R by (apply Rmult_le_pos; cbn; lra); lra) Ey 3 4 Nd ltac:(discriminate) Vc).
  (** the current of the divided area and that of the whole one *)
  destruct outgoing_deps as (v1 & v2 & v3 & v4 & v5 & v6 & v7 & v8 & D & Pv).
  destruct (zero_vb geo8 [outgoing] (sz3 8 0) Sz Fe ltac:(constructor; [apply outgoing_good|constructor])) as (J & EJ & FJ & _ & VJ).
  specialize (VJ ltac:(constructor; [|constructor]; unfold long_r; eapply Rle_trans; [exact mnzl_small|]; cbn [m_r m_ro outgoing]; absolve)).
  cbn [flat_map] in VJ. rewrite app_nil_r in VJ.
  assert (K := deposits_leave geo8 [outgoing] J Cl eq_refl Sz ltac:(constructor; [exact outgoing_good|constructor])).
  cbn [flat_map] in K. rewrite app_nil_r in K. specialize (K VJ 3 4 Nd).
  assert (Z : (flux geo8 J 3 4 = flux geo8 (gather geo8 4 j') 3 4 + face_r geo8 3 * v4)%R).
  { assert (G : forall c i k x y, c <> Cphi -> 0 <= i < 2 -> 0 <= k < 2 -> 0 <= x < 4 -> 0 <= y < 4 -> lv (getc c (gather geo8 4 j')) (i * 4 + x) (k * 4 + y) =
       if anti 4 (i * 4 + x - 4) (k * 4 + y) then 0%R else amount c (i * 4 + x) (k * 4 + y) (rz_deps geo8 outgoing)).
    { intros c i k x y N Hi Hk Hx Hy. destruct SG as (_ & _ & A). rewrite <- (A i k c x y Hi Hk Hx Hy), V by assumption.
      rewrite (sum2_single 2 2 _ 1 0); try lia.
      - change (at_dom (1, 0) [outgoing] (1, 0)) with [outgoing]. cbn [flat_map]. rewrite app_nil_r. now rewrite Z.mul_1_l, Z.mul_0_l, Z.sub_0_r.
      - intros a b Ha Hb Nab. destruct (anti _ _ _); [reflexivity|]. unfold at_dom. destruct (peq (a, b) (1, 0)) eqn:E; [|reflexivity].
        apply peq_true in E. injection E as -> ->. lia. }
    unfold flux. change (3 =? 0) with false. cbv iota.
    assert (G1 := G Cr 0 1 3 0 ltac:(discriminate) ltac:(lia) ltac:(lia) ltac:(lia) ltac:(lia)).
    assert (G2 := G Cr 0 1 2 0 ltac:(discriminate) ltac:(lia) ltac:(lia) ltac:(lia) ltac:(lia)).
    assert (G3 := G Cz 0 1 3 0 ltac:(discriminate) ltac:(lia) ltac:(lia) ltac:(lia) ltac:(lia)).
    assert (G4 := G Cz 0 0 3 3 ltac:(discriminate) ltac:(lia) ltac:(lia) ltac:(lia) ltac:(lia)).
    change (anti 4 (0 * 4 + 3 - 4) (1 * 4 + 0)) with true in G1, G3. change (anti 4 (0 * 4 + 2 - 4) (1 * 4 + 0)) with true in G2. change (anti 4 (0 * 4 + 3 - 4) (0 * 4 + 3)) with false in G4.
    cbv iota in G1, G2, G3, G4.
    change (0 * 4 + 3) with 3 in *. change (1 * 4 + 0) with 4 in *. change (0 * 4 + 2) with 2 in *. change (3 - 1) with 2. change (4 - 1) with 3. cbn [getc] in G1, G2, G3, G4.
    rewrite G1, G2, G3, G4.
    assert (J1 := VJ Cr 3 4 ltac:(discriminate) ltac:(unfold inw; cbn; lia)). assert (J2 := VJ Cr 2 4 ltac:(discriminate) ltac:(unfold inw; cbn; lia)).
    assert (J3 := VJ Cz 3 4 ltac:(discriminate) ltac:(unfold inw; cbn; lia)). assert (J4 := VJ Cz 3 3 ltac:(discriminate) ltac:(unfold inw; cbn; lia)).
    cbn [getc] in J1, J2, J3, J4. rewrite J1, J2, J3, J4, D. cbn [amount ceqb]. bools. lra. }
  unfold charge_after, charge_before in K. cbn [sum_over m_q m_r m_z m_ro m_zo outgoing] in K.
  unfold charge. cbn [sum_over]. rewrite Z in K. cbn [y_e y_t] in *.
  assert (Pf : (0 < face_r geo8 3)%R) by (unfold face_r; cbn [g_dr g_dz geo8]; assert (P := PI_RGT_0); nra).
  assert (0 < face_r geo8 3 * v4)%R by (apply Rmult_lt_0_compat; assumption).
  cbn [g_dt geo8] in K, B. intros Q'. lra.
Qed.

Print Assumptions C121_vb_exact.
Print Assumptions C123_refuted.
