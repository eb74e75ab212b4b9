(** Refutations that belong to C109 and C122: what goes wrong beyond the conditions of their theorems. *)
From Coq Require Import ZifyBool Reals Lra Psatz Permutation.
From Verif Require Import Base GridModel GridProofs CollectorModel OverlayModel OverlayConc OverlaySum OverlayPass ThmOverlay YeeModel YeeProofs ThmYee
  ExtModel ThmExt RndUtil CurrentModel CurrentProofs ThmCurrent ThmCurrent2 SumUtil
  YeeSmb ThmYeeSmb SmbCurrent ThmDivide ThmInterp.
Open Scope Z_scope.

(** * C109: a field without longitudinal component is interpolated to one *)
Theorem C109_refuted : exists g f r z m v, fits3 (g_nr g) (g_nz g) f /\ inside g r z /\
  (forall x y, near g x y -> Rabs (lv (c_z f) x y) <= m)%R /\ get_field_e g f r z = Ok v /\ (m < Rabs (vcomp Cz v))%R.
Proof.
  destruct C41_field_e_refuted as (g & f & r & z & v & F & I & Z0 & E & N). exists g, f, r, z, 0%R, v.
  split; [exact F|]. split; [exact I|]. split; [intros x y _; rewrite Z0, Rabs_R0; lra|]. split; [exact E|]. now apply Rabs_pos_lt.
Qed.

(** * C122 *)
(** the current of the divided area put together *)
Definition gathered (s : Z) (j : doms (grid3 R)) (c : comp) (X Y : Z) : R := lv (getc c (j ((X - 2) / s, (Y - 2) / s))) ((X - 2) mod s) ((Y - 2) mod s).
Definition gather (g : geo) (s : Z) (j : doms (grid3 R)) : grid3 R :=
  mkGrid3 (new_grid (g_nr g) (g_nz g) 2 (gathered s j Cr)) (new_grid (g_nr g) (g_nz g) 2 (gathered s j Cphi)) (new_grid (g_nr g) (g_nz g) 2 (gathered s j Cz)).
Lemma gather_same g R C s j : 1 <= R -> 1 <= C -> 4 <= s -> g_nr g = R * s -> g_nz g = C * s -> g_nr g < 1000 -> g_nz g < 1000 ->
  all_fit R C s j -> same_current R C s j (gather g s j).
Proof.
  intros HR HC Hs Gr Gz Lr Lz Fj.
  assert (F : forall f, fits2 (R * s) (C * s) (new_grid (g_nr g) (g_nz g) 2 f)).
  { intros f. rewrite Gr, Gz. split; [apply new_grid_wf; nia|]. repeat split. }
  split; [intros []; apply F|]. split; [exact Fj|].
  intros i k c x y Hi Hk Hx Hy.
  assert (E : forall c, lv (getc c (gather g s j)) (i * s + x) (k * s + y) = gathered s j c (i * s + x + 2) (k * s + y + 2)) by (intros []; reflexivity).
  rewrite E. unfold gathered. rewrite !Z.add_simpl_r.
  replace ((i * s + x) / s) with i by (apply (Z.div_unique _ s i x); lia). replace ((i * s + x) mod s) with x by (apply (Z.mod_unique _ s i x); lia).
  replace ((k * s + y) / s) with k by (apply (Z.div_unique _ s k y); lia). replace ((k * s + y) mod s) with y by (apply (Z.mod_unique _ s k y); lia).
  reflexivity.
Qed.
(** a difference of the currents becomes a difference of the fields in the next step *)
Lemma current_to_field mu g R C s eps sg Eps Sg j J m y m' y' i k x z : 1 <= R -> 1 <= C -> 4 <= s -> g_nr g = R * s -> g_nz g = C * s ->
  g_nr g < 1000 -> g_nz g < 1000 -> inner2 R C s eps Eps -> inner2 R C s sg Sg ->
  same_fields g R C s m y -> all_fit R C s j -> fits3 (R * s) (C * s) J ->
  smb_step mu g R C s eps sg j m = Ok m' -> yee_step mu g Eps Sg J y = Ok y' ->
  0 <= i < R -> 0 <= k < C -> 0 <= x < s -> 0 <= z < s -> 1 <= i * s + x < R * s - 1 -> 1 <= k * s + z < C * s - 1 ->
  kh g Eps Sg (i * s + x) (k * s + z) <> 0%R -> lv (c_r (j (i, k))) x z <> lv (c_r J) (i * s + x) (k * s + z) ->
  lv (c_r (y_e (m' (i, k)))) x z <> lv (c_r (y_e y')) (i * s + x) (k * s + z).
Proof.
  intros HR HC Hs Gr Gz Lr Lz Ie Is SF Fj FJ E1 E2 Hi Hk Hx Hz Ii Ik K N.
  assert (SG := gather_same g R C s j HR HC Hs Gr Gz Lr Lz Fj).
  destruct (C65_step mu g R C s HR HC Hs ltac:(nia) Gr Gz ltac:(lia) ltac:(lia) eps sg Eps Sg Ie Is j (gather g s j) m y SF SG) as (m2 & y2 & E3 & E4 & SF2).
  rewrite E1 in E3. injection E3 as <-.
  destruct SF2 as (_ & _ & _ & _ & A & _). specialize (A i k Cr x z Hi Hk ltac:(lia)). cbn [getc] in A. rewrite A.
  destruct SF as ((Fe & Fh & Ft) & _). destruct Ie as (FE & _). destruct Is as (FS & _).
  assert (V : forall J0 y0, fits3 (R * s) (C * s) J0 -> yee_step mu g Eps Sg J0 y = Ok y0 ->
     lv (c_r (y_e y0)) (i * s + x) (k * s + z) = e_upd g Eps Sg (i * s + x) (k * s + z) (lv (c_r (y_e y)) (i * s + x) (k * s + z)) (lv (c_r J0) (i * s + x) (k * s + z)) (rot_r g (y_t y) (i * s + x) (k * s + z))).
  { intros J0 y0 F0 Y. unfold yee_step in Y.
    destruct (calc_field_e_spec g (y_t y) J0 Eps Sg) with (e := y_e y) as (e' & EE & _ & VE & _); auto; try (rewrite Gr, Gz; assumption); try nia.
    rewrite EE in Y. cbn [bind] in Y. destruct (calc_field_h mu g e' (y_h y) (y_t y)) as [[h t]| |]; try discriminate. cbn [bind] in Y. injection Y as <-. cbn [y_e].
    change (c_r e') with (getc Cr e'). rewrite VE by lia. unfold e_cell.
    replace ((lo_r g <=? i * s + x) && (i * s + x <? hi_r g) && (lo_z g <=? k * s + z) && (k * s + z <? hi_z g)) with true; [reflexivity|].
    symmetry. unfold lo_r, lo_z, hi_r, hi_z. rewrite Gr, Gz. destruct (g_w0 g), (g_w1 g), (g_w2 g), (g_w3 g); lia. }
  rewrite (V _ _ (proj1 SG) E4), (V _ _ FJ E2). unfold e_upd. intros Q. apply N.
  assert (G : lv (c_r (j (i, k))) x z = lv (c_r (gather g s j)) (i * s + x) (k * s + z)).
  { destruct SG as (_ & _ & A'). exact (A' i k Cr x z Hi Hk Hx Hz). }
  rewrite G. nra.
Qed.
Lemma crossing_current : exists j' J', smb_current zigzag_distribution geo8 2 2 4 (at_dom (1, 0) [crossing]) (fun _ => sz3 4 1) = Ok j' /\
  one_current zigzag_distribution geo8 [crossing] (sz3 8 1) = Ok J' /\ all_fit 2 2 4 j' /\ fits3 8 8 J' /\
  lv (c_r (j' (0, 1))) 3 0 = 0%R /\ lv (c_r J') 3 4 = (/ PI * (1 / 36))%R.
Proof.
  assert (L : forall i k, 0 <= i < 2 -> 0 <= k < 2 -> Forall (lands_from_near (dom_geo geo8 2 2 4 (i, k))) (at_dom (1, 0) [crossing] (i, k))).
  { intros i k Hi Hk. unfold at_dom. destruct (peq (i, k) (1, 0)) eqn:E; [|constructor]. constructor; [|constructor].
    apply peq_true in E. injection E as -> ->. unfold lands_from_near, dom_geo. cbn [fst snd g_d0 g_d1 g_nr g_nz g_dr g_dz geo8 m_r m_z m_ro m_zo crossing]. cells4. lia. }
  assert (F4 : all_fit 2 2 4 (fun _ => sz3 4 1)) by (intros i j _ _ []; apply sz_fits; lia).
  assert (F8 : fits3 8 8 (sz3 8 1)) by (intros []; apply sz_fits; lia).
  destruct (C121_zigzag_exact geo8 2 2 4 ltac:(lia) ltac:(lia) ltac:(lia) ltac:(lia) eq_refl eq_refl _ _ F4 L) as (j' & E' & Fj & V).
  destruct (zero_zigzag geo8 [crossing] (sz3 8 1) F8) as (J' & EJ & FJ & VJ).
  { constructor; [|constructor]. unfold lands_from_near. cbn [g_d0 g_d1 g_nr g_nz g_dr g_dz geo8 m_r m_z m_ro m_zo crossing]. cells4. lia. }
  exists j', J'. split; [exact E'|]. split; [exact EJ|]. split; [exact Fj|]. split; [exact FJ|]. split.
  - change (c_r (j' (0, 1))) with (getc Cr (j' (0, 1))). rewrite V by lia. apply sum2_zero.
    intros a b Ha Hb. destruct (anti _ _ _) eqn:An; [reflexivity|]. unfold at_dom. destruct (peq (a, b) (1, 0)) eqn:E; [|reflexivity].
    apply peq_true in E. injection E as -> ->. discriminate An.
  - change (c_r J') with (getc Cr J'). rewrite VJ by (unfold inw; cbn; lia).
    cbn [flat_map]. rewrite app_nil_r. unfold zigzag. cbn [g_dr g_dz g_dt g_d0 g_d1 geo8 m_r m_z m_ro m_zo m_q m_vphi crossing]. cells4. rewrite relay1, relay2.
    cbn [amount ceqb]. bools. unfold cell_volume. assert (P := PI_RGT_0). field; lra.
Qed.
(** two rounds, in the first of them a particle crosses the border between two rows of domains next to a corner: after the second
    the electric fields differ *)
Theorem C122_refuted : exists mu g R C s eps sg Eps Sg pss alls m y j J m' y' j' J',
  4 <= s /\ g_nr g = R * s /\ g_nz g = C * s /\ inner2 R C s eps Eps /\ inner2 R C s sg Sg /\
  same_fields g R C s m y /\ same_current R C s j J /\
  Forall2 (fun ps all => Permutation all (everyone R C ps) /\
    forall i k, 0 <= i < R -> 0 <= k < C -> Forall (lands_from_near (dom_geo g R C s (i, k))) (ps (i, k))) pss alls /\
  smb_em zigzag_distribution mu g R C s eps sg pss m j = Ok (m', j') /\ one_em zigzag_distribution mu g Eps Sg alls y J = Ok (y', J') /\
  ~ same_fields g R C s m' y'.
Proof.
  destruct crossing_current as (j1 & J1 & Ej & EJ & Fj & FJ & Vj & VJ).
  assert (Ie : inner2 2 2 4 (fun _ => sz 4 1) (sz 8 1)) by apply C65_example. assert (Is : inner2 2 2 4 (fun _ => sz 4 0) (sz 8 0)) by apply C65_example.
  assert (SF : same_fields geo8 2 2 4 (fun _ => mkYee (sz3 4 0) (sz3 4 0) (sz3 4 0)) (mkYee (sz3 8 0) (sz3 8 0) (sz3 8 0))) by apply C65_example.
  assert (SJ : same_current 2 2 4 (fun _ => sz3 4 1) (sz3 8 1)) by apply C65_example.
  destruct (C65_step 1 geo8 2 2 4 ltac:(lia) ltac:(lia) ltac:(lia) ltac:(lia) eq_refl eq_refl ltac:(cbn; lia) ltac:(cbn; lia) _ _ _ _ Ie Is _ _ _ _ SF SJ) as (m1 & y1 & E1 & E2 & SF1).
  assert (SG := gather_same geo8 2 2 4 j1 ltac:(lia) ltac:(lia) ltac:(lia) eq_refl eq_refl ltac:(cbn; lia) ltac:(cbn; lia) Fj).
  destruct (C65_step 1 geo8 2 2 4 ltac:(lia) ltac:(lia) ltac:(lia) ltac:(lia) eq_refl eq_refl ltac:(cbn; lia) ltac:(cbn; lia) _ _ _ _ Ie Is _ _ _ _ SF1 SG) as (m2 & _ & E3 & _ & _).
  assert (Y2 : exists y2, yee_step 1 geo8 (sz 8 1) (sz 8 0) J1 y1 = Ok y2).
  { destruct SF1 as (Fy & _). destruct Ie as (FE & _). destruct Is as (FS & _).
    destruct (yee_step_ok 1 geo8 (sz 8 1) (sz 8 0) J1 y1) as (y2 & Y & _); auto; [split; cbn; lia|]. exists y2. exact Y. }
  destruct Y2 as (y2 & E4).
  assert (Ln : forall i k, 0 <= i < 2 -> 0 <= k < 2 -> Forall (lands_from_near (dom_geo geo8 2 2 4 (i, k))) ((fun _ => [] : list mover) (i, k))) by (intros; constructor).
  destruct (C121_zigzag_exact geo8 2 2 4 ltac:(lia) ltac:(lia) ltac:(lia) ltac:(lia) eq_refl eq_refl (fun _ => []) j1 Fj Ln) as (j2 & Ej2 & _).
  destruct (zero_zigzag geo8 [] J1 FJ ltac:(constructor)) as (J2 & EJ2 & _).
  exists 1%R, geo8, 2, 2, 4, (fun _ => sz 4 1), (fun _ => sz 4 0), (sz 8 1), (sz 8 0), [at_dom (1, 0) [crossing]; fun _ => []], [[crossing]; []],
    (fun _ => mkYee (sz3 4 0) (sz3 4 0) (sz3 4 0)), (mkYee (sz3 8 0) (sz3 8 0) (sz3 8 0)), (fun _ => sz3 4 1), (sz3 8 1), m2, y2, j2, J2.
  split; [lia|]. split; [reflexivity|]. split; [reflexivity|]. split; [exact Ie|]. split; [exact Is|]. split; [exact SF|]. split; [exact SJ|]. split.
  { constructor; [|constructor; [|constructor]].
    - split; [reflexivity|]. intros i k Hi Hk. unfold at_dom. destruct (peq (i, k) (1, 0)) eqn:E; [|constructor]. constructor; [|constructor].
      apply peq_true in E. injection E as -> ->. unfold lands_from_near, dom_geo. cbn [fst snd g_d0 g_d1 g_nr g_nz g_dr g_dz geo8 m_r m_z m_ro m_zo crossing]. cells4. lia.
    - split; [reflexivity|exact Ln]. }
  split; [cbn [smb_em]; rewrite E1; cbn [bind]; rewrite Ej; cbn [bind]; rewrite E3; cbn [bind]; rewrite Ej2; reflexivity|].
  split; [cbn [one_em]; rewrite E2; cbn [bind]; rewrite EJ; cbn [bind]; rewrite E4; cbn [bind]; unfold one_current in EJ2 |- *; rewrite EJ2; reflexivity|].
  intros (_ & _ & _ & _ & A & _). specialize (A 0 1 Cr 3 0 ltac:(lia) ltac:(lia) ltac:(lia)). revert A. cbn [getc].
  apply (current_to_field 1 geo8 2 2 4 (fun _ => sz 4 1) (fun _ => sz 4 0) (sz 8 1) (sz 8 0) j1 J1 m1 y1 m2 y2 0 1 3 0); auto; try lia; try (cbn; lia).
  - unfold kh. rewrite !lv_sz by lia. cbn [g_dt geo8]. lra.
  - rewrite Vj. change (lv (c_r J1) (0 * 4 + 3) (1 * 4 + 0)) with (lv (c_r J1) 3 4). rewrite VJ. assert (P := PI_RGT_0). assert (0 < / PI)%R by (apply Rinv_0_lt_compat; lra). lra.
Qed.

Print Assumptions C109_refuted.
Print Assumptions C122_refuted.
