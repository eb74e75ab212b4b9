(** C148: a plasma at rest without fields stays as it is.  C149: whether the fields at the start of a run obey Gauss's law. *)
From Coq Require Import ZifyBool Reals Lra Psatz Permutation.
From Verif Require Import Base RndUtil DecompModel DecompProofs CollectorModel CollectorProofs ListUtil PushModel ThmPush ParticleModel ParticleProofs StepModel
  ThmParticle ThmInit ThmDecomp ThmStep ThmFlight GridModel GridProofs OverlayModel YeeModel YeeProofs ThmYee ExtModel ThmExt ThmInterp CurrentModel CurrentProofs ThmCurrent ThmCurrent2
  SumUtil YeeSmb ThmYeeSmb SmbCorner SmbCurrent ThmDivide RoundModel RoundProofs ThmRound.
Open Scope Z_scope.

(** ** specification *)
(** a particle at rest between the mirrors, not exactly on the border of a domain of s x s cells *)
Definition at_rest (g : YeeModel.geo) (s : Z) (p : part) : Prop :=
  (vel_r p = 0 /\ vel_phi p = 0 /\ vel_z p = 0 /\ pos_phi p = 0)%R /\
  (g_dr g / 2 <= pos_r p <= IZR (g_nr g) * g_dr g - g_dr g / 2)%R /\ (g_dz g / 2 <= pos_z p <= IZR (g_nz g) * g_dz g - g_dz g / 2)%R /\
  forall n, pos_r p <> (IZR (n * s) * g_dr g)%R /\ pos_z p <> (IZR (n * s) * g_dz g)%R.
(** a cold world: no fields and no currents in the cells, all particles at rest, in the domain of their cell *)
Definition cold (g : YeeModel.geo) (R C s : Z) (ids : list Z) (w : world) : Prop :=
  (all_fit R C s (fun p => y_e (w_f w p)) /\ all_fit R C s (fun p => y_h (w_f w p)) /\ all_fit R C s (fun p => y_t (w_f w p)) /\ all_fit R C s (w_j w)) /\
  (forall i k c x y, 0 <= i < R -> 0 <= k < C -> inw s s x y -> lv (getc c (y_e (w_f w (i, k)))) x y = 0%R /\
     lv (getc c (y_h (w_f w (i, k)))) x y = 0%R /\ lv (getc c (y_t (w_f w (i, k)))) x y = 0%R) /\
  (forall i k c x y, 0 <= i < R -> 0 <= k < C -> 0 <= x < s -> 0 <= y < s -> lv (getc c (w_j w (i, k))) x y = 0%R) /\
  ids_ok {| nr := R * s; nz := C * s; rd_ := R; zd_ := C |} ids (w_p w) /\
  (forall i k t q, 0 <= i < R -> 0 <= k < C -> In t (w_p w i k) -> In q (snd t) -> at_rest g s (now q) /\
     home (pt_cr (g_dr g)) (pt_cz (g_dz g)) {| nr := R * s; nz := C * s; rd_ := R; zd_ := C |} i k q).
(** what a particle is, apart from its velocity *)
Definition place (q : pt) : Rdefinitions.R * Rdefinitions.R * Rdefinitions.R := (pos_r (now q), pos_z (now q), weight (now q)).

(** ** flight and deposits of a particle at rest *)
Lemma flight_rest g s p : (0 < g_dr g)%R -> (0 < g_dz g)%R -> at_rest g s p ->
  flight (g_nr g) (g_nz g) (g_dr g) (g_dz g) (g_dt g) p =
  {| pos_r := pos_r p; pos_phi := 0; pos_z := pos_z p; vel_r := 0; vel_phi := 0; vel_z := 0; p_sin := 0; weight := weight p |}.
Proof.
  intros H1 H2 ((V1 & V2 & V3 & V4) & B1 & B2 & _). unfold flight. rewrite V1, V2, V3. rewrite !Rmult_0_l, !Rplus_0_r, sqrt_square by lra.
  unfold bounce.
  destruct (Rlt_dec _ (pos_r p)); [lra|]. destruct (Rlt_dec (pos_r p) _); [lra|]. destruct (Rlt_dec _ (pos_z p)); [lra|]. destruct (Rlt_dec (pos_z p) _); [lra|].
  cbn [fst snd]. assert (D : (0 / pos_r p = 0)%R) by (unfold Rdiv; ring). rewrite D. f_equal; ring.
Qed.
Lemma rest_calm g s p : (0 < g_dr g)%R -> (0 < g_dz g)%R -> at_rest g s p -> calm g s p.
Proof.
  intros H1 H2 ((V1 & V2 & V3 & V4) & B1 & B2 & B3). unfold calm. cbv zeta. rewrite V1, V2, V3, !Rmult_0_l.
  split; [exact V4|]. split; [exact B1|]. split; [exact B2|]. split; [replace (0 ^ 2 + 0 ^ 2)%R with 0%R by ring; rewrite sqrt_0; exact H1|].
  split; [rewrite Rabs_R0; exact H2|]. intros n. rewrite !Rplus_0_r, sqrt_square by lra. apply B3.
Qed.
Definition still (p : CurrentModel.mover) : Prop := m_ro p = m_r p /\ m_zo p = m_z p /\ m_vphi p = 0%R.
Definition nil_dep (d : dep) : Prop := match d with Inc _ _ _ v | Put _ _ _ v => v = 0%R end.
Lemma relay_same x d : (0 < d)%R -> relay_point (cell_number x d) (cell_number x d) x x d = x.
Proof.
  intros H. pose proof (cell_number_bounds x d H) as [A B]. unfold relay_point. rewrite (Rmin_left (IZR _ * d) _), (Rmax_left (IZR _ * d) _) by lra.
  replace ((x + x) / 2)%R with x by field. rewrite Rmax_right by lra. apply Rmin_right. lra.
Qed.
Lemma zigzag_still g p : (0 < g_dr g)%R -> (0 < g_dz g)%R -> still p -> Forall nil_dep (zigzag g p).
Proof.
  intros H1 H2 (A & B & D). unfold zigzag. rewrite A, B, D, !relay_same by assumption.
  repeat apply Forall_cons; try apply Forall_nil; cbn [nil_dep]; unfold Rminus; rewrite ?Rplus_opp_r, ?Rmult_0_r, ?Rmult_0_l; ring.
Qed.
Lemma azimuthal_still g p : still p -> Forall nil_dep (azimuthal g p).
Proof. intros (_ & _ & D). unfold azimuthal. rewrite D. repeat apply Forall_cons; try apply Forall_nil; cbn [nil_dep]; ring. Qed.
Lemma rz_still g p : sizes g -> ThmCurrent.bound g p -> still p -> rz_deps g p = [].
Proof.
  intros Sz B (A & Bz & _). unfold rz_deps. rewrite rz_particle_eq by assumption. destruct (1 <? _); [reflexivity|].
  assert (P : (0 < mnzl)%R) by (unfold mnzl; apply Rinv_0_lt_compat; lra).
  assert (L : forall x, YeeModel.rlt (Rabs (x - x)) mnzl = true).
  { intros x. unfold YeeModel.rlt. rewrite Rminus_diag_eq, Rabs_R0 by reflexivity. destruct (Rlt_dec 0 mnzl); [reflexivity|contradiction]. }
  rewrite A, Bz, L. cbn [orb]. unfold strict. rewrite !L. reflexivity.
Qed.
Lemma after_nil c x y ds : Forall nil_dep ds -> after c x y 0 ds = 0%R.
Proof.
  induction 1 as [|[c' i k w|c' i k w] ds D _ IH]; cbn [after]; auto; cbn [nil_dep] in D; subst w; destruct (_ && _); rewrite ?Rplus_0_r; exact IH.
Qed.
Lemma amount_nil c x y ds : Forall nil_dep ds -> amount c x y ds = 0%R.
Proof.
  induction 1 as [|[c' i k w|c' i k w] ds D _ IH]; cbn [amount]; auto; cbn [nil_dep] in D; subst w; rewrite IH; destruct (_ && _); ring.
Qed.
(** the schemes leave a grid without current when all particles stand still *)
Definition quiet_scheme (dist : YeeModel.geo -> list CurrentModel.mover -> grid3 Rdefinitions.R -> outcome (grid3 Rdefinitions.R)) : Prop :=
  forall h ps x, sizes h -> fits3 (g_nr h) (g_nz h) x -> Forall (lands h) ps -> Forall still ps ->
  exists j, one_current dist h ps x = Ok j /\ fits3 (g_nr h) (g_nz h) j /\ forall c u w, inw (g_nr h) (g_nz h) u w -> lv (getc c j) u w = 0%R.
Lemma quiet_zigzag : quiet_scheme zigzag_distribution.
Proof.
  intros h ps x (S1 & S2 & _) F L St. destruct (zero_zigzag h ps x F) as (j & E & Fj & V).
  - rewrite Forall_forall in *. intros p Hp. destruct (L p Hp) as ((_ & _ & B1 & B2) & A1 & A2). destruct (St p Hp) as (C1 & C2 & _).
    unfold lands_from_near. rewrite C1, C2, <- B1, <- B2. lia.
  - exists j. split; [exact E|]. split; [exact Fj|]. intros c u w W. rewrite V by exact W. apply amount_nil. apply Forall_flat_map.
    rewrite Forall_forall in *. intros p Hp. apply zigzag_still; auto.
Qed.
Lemma quiet_vb : quiet_scheme vb_distribution.
Proof.
  intros h ps x Sz F L St. unfold one_current. destruct (zero3_spec _ _ x F) as (a & Ea & Fa & Va). rewrite Ea. cbn [bind].
  destruct (vb_spec h ps a Sz Fa L) as (j & E & Fj & V). exists j. split; [exact E|]. split; [exact Fj|]. intros c u w W. rewrite V by exact W.
  replace (flat_map (rz_deps h) ps) with (@nil dep).
  - cbn [after]. destruct (interior h u w); [|reflexivity]. rewrite Va by exact W. apply after_nil. apply Forall_flat_map.
    rewrite Forall_forall in *. intros p Hp. apply azimuthal_still; auto.
  - symmetry. rewrite Forall_forall in L, St. clear - Sz L St. induction ps as [|p ps IH]; [reflexivity|]. cbn [flat_map].
    rewrite rz_still; [|exact Sz|apply L; now left|apply St; now left]. apply IH; intros q Hq; [apply L|apply St]; now right.
Qed.

(** ** one round *)
Definition blank (n m : Z) : grid3 Rdefinitions.R :=
  mkGrid3 (new_grid n m 2 (fun _ _ => 0%R)) (new_grid n m 2 (fun _ _ => 0%R)) (new_grid n m 2 (fun _ _ => 0%R)).
Lemma blank_fits n m : 0 <= n < 2 ^ 31 -> 0 <= m < 2 ^ 31 -> fits3 n m (blank n m).
Proof.
  intros Hn Hm c. assert (U1 : u32 (n + 2 * 2) = n + 4) by (rewrite u32_small; lia). assert (U2 : u32 (m + 2 * 2) = m + 4) by (rewrite u32_small; lia).
  destruct c; cbn [blank getc c_r c_phi c_z]; unfold fits2, wf, new_grid; cbn [xr yr xs ys os]; rewrite ?U1, ?U2; repeat split; lia.
Qed.
Lemma blank_zero n m c x y : lv (getc c (blank n m)) x y = 0%R.
Proof. destruct c; reflexivity. Qed.
Definition settled (q : pt) : pt :=
  mkPt {| pos_r := pos_r (now q); pos_phi := 0; pos_z := pos_z (now q); vel_r := 0; vel_phi := 0; vel_z := 0; p_sin := 0; weight := weight (now q) |}
       (pos_r (now q)) (pos_z (now q)).
Lemma settled_rest g s q : at_rest g s (now q) -> at_rest g s (now (settled q)).
Proof. intros (_ & B). split; [cbn; auto|exact B]. Qed.

Section Rest.
Variable pusher : Z -> v3 -> v3 -> v3 -> outcome v3.
Hypothesis idle : forall sid, pusher sid (V3 0 0 0) (V3 0 0 0) (V3 0 0 0) = Ok (V3 0 0 0).
Variable charge : Z -> R.
Variable dist : YeeModel.geo -> list CurrentModel.mover -> grid3 R -> outcome (grid3 R).
Hypothesis quiet : quiet_scheme dist.
Variable mu : R.
Variable g : YeeModel.geo.
Variables R C s : Z.
Hypothesis HR : 1 <= R.
Hypothesis HC : 1 <= C.
Hypothesis Hs : 4 <= s.
Hypothesis Gr : g_nr g = R * s.
Hypothesis Gz : g_nz g = C * s.
Hypothesis GrL : g_nr g < 2 ^ 31.
Hypothesis GzL : g_nz g < 2 ^ 31.
Hypothesis D0 : g_d0 g = 0.
Hypothesis D1 : g_d1 g = 0.
Hypothesis Sz : sizes g.
Variables eps sg : doms (grid Rdefinitions.R).
Variables Eps Sg : grid Rdefinitions.R.
Hypothesis Heps : inner2 R C s eps Eps.
Hypothesis Hsg : inner2 R C s sg Sg.
Let a := {| nr := R * s; nz := C * s; rd_ := R; zd_ := C |}.
Let dr := g_dr g.
Let dz := g_dz g.

Lemma fields_rest ids w : cold g R C s ids w -> exists m', smb_step mu g R C s eps sg (w_j w) (w_f w) = Ok m' /\
  (all_fit R C s (fun p => y_e (m' p)) /\ all_fit R C s (fun p => y_h (m' p)) /\ all_fit R C s (fun p => y_t (m' p))) /\
  forall i k c x y, 0 <= i < R -> 0 <= k < C -> inw s s x y -> lv (getc c (y_e (m' (i, k)))) x y = 0%R /\
     lv (getc c (y_h (m' (i, k)))) x y = 0%R /\ lv (getc c (y_t (m' (i, k)))) x y = 0%R.
Proof using HR HC Hs Gr Gz GrL GzL Heps Hsg.
  intros ((Le & Lh & Lt & Lj) & Zf & Zj & _). assert (HsL : s + 4 < 2 ^ 32) by nia.
  assert (B : fits3 (g_nr g) (g_nz g) (blank (g_nr g) (g_nz g))) by (apply blank_fits; nia).
  set (Y := mkYee (blank (g_nr g) (g_nz g)) (blank (g_nr g) (g_nz g)) (blank (g_nr g) (g_nz g))).
  assert (SF : same_fields g R C s (w_f w) Y).
  { split; [split; [exact B|split; exact B]|]. split; [exact Le|]. split; [exact Lh|]. split; [exact Lt|].
    split; [|split]; intros i k c x y Hi Hk Hw; cbn [Y y_e y_h y_t]; rewrite blank_zero; apply Zf; auto; unfold inw; lia. }
  assert (SJ : same_current R C s (w_j w) (blank (g_nr g) (g_nz g))).
  { split; [rewrite <- Gr, <- Gz; exact B|]. split; [exact Lj|]. intros i k c x y Hi Hk Hx Hy. rewrite blank_zero. now apply Zj. }
  destruct (C65_step mu g R C s HR HC Hs HsL Gr Gz ltac:(lia) ltac:(lia) eps sg Eps Sg Heps Hsg _ _ _ _ SF SJ) as (m' & y' & E1 & E2 & SF').
  destruct (step_corners mu g R C s HR HC Hs HsL Gr Gz ltac:(lia) ltac:(lia) eps sg Eps Sg Heps Hsg _ _ _ _ m' y' SF SJ E1 E2) as (Me & Mh & Mt).
  destruct (C38_empty mu g Eps Sg [blank (g_nr g) (g_nz g)] Y y') as (Ze & Zt & Zh).
  - split; nia.
  - rewrite Gr, Gz. apply Heps.
  - rewrite Gr, Gz. apply Hsg.
  - apply Forall_cons; [exact B|apply Forall_nil].
  - apply SF.
  - apply Forall_cons; [intros c x y _; apply blank_zero|apply Forall_nil].
  - intros c x y _. apply blank_zero.
  - intros c x y _. apply blank_zero.
  - intros c x y _. apply blank_zero.
  - cbn [yee_run]. rewrite E2. reflexivity.
  - exists m'. split; [exact E1|]. destruct SF' as (_ & F1 & F2 & F3 & _). split; [auto|].
    assert (K : forall (f : doms (grid3 Rdefinitions.R)) G, matches R C s f G -> (forall c x y, inw (g_nr g) (g_nz g) x y -> lv (getc c G) x y = 0%R) ->
       forall i k c x y, 0 <= i < R -> 0 <= k < C -> inw s s x y -> lv (getc c (f (i, k))) x y = 0%R).
    { intros f G M Z i k c x y Hi Hk W. destruct (M i k c x y Hi Hk W) as [N1 N2].
      assert (Dec : skew R C s i k x y \/ ~ skew R C s i k x y) by (unfold skew; lia). destruct Dec as [Sk|Sk]; [now apply N2|].
      rewrite N1 by exact Sk. apply Z. unfold inw in *. rewrite Gr, Gz. nia. }
    intros i k c x y Hi Hk W. split; [|split].
    + exact (K _ _ Me Ze i k c x y Hi Hk W).
    + exact (K _ _ Mh Zh i k c x y Hi Hk W).
    + exact (K _ _ Mt Zt i k c x y Hi Hk W).
Qed.
Lemma step_rest m i k sid q : 0 <= i < R -> 0 <= k < C -> fits3 s s (y_e m) -> fits3 s s (y_h m) ->
  (forall c x y, inw s s x y -> lv (getc c (y_e m)) x y = 0%R /\ lv (getc c (y_h m)) x y = 0%R) ->
  at_rest g s (now q) -> home (pt_cr dr) (pt_cz dz) a i k q ->
  step_particle pusher (dom_geo g R C s (i, k)) (domain_geo a dr dz i k) m sid q (settled q) /\
  i * s <= cell_number (pos_r (now q)) dr < i * s + s /\ k * s <= cell_number (pos_z (now q)) dz < k * s + s.
Proof using idle HR HC Hs Gr Gz GrL GzL D0 D1 Sz.
  intros Hi Hk Fe Fh Zf Re Hh. destruct Sz as (Hdr & Hdz & _). pose proof (rest_calm g s _ Hdr Hdz Re) as Cm. pose proof Re as ((U1 & U2 & U3 & U4) & B1 & B2 & _).
  destruct (calm_cells g s Hdr Hdz _ Cm) as [CR CZ]. fold dr dz in CR, CZ.
  destruct (home_cells g R C s HR HC Hs Gr Gz GrL GzL i k q Hi Hk ltac:(fold dr; lia) ltac:(fold dz; lia) Hh) as [Hr Hz]. fold dr dz in Hr, Hz.
  split; [|auto]. set (h := dom_geo g R C s (i, k)).
  assert (In0 : inside h (pos_r (now q)) (pos_z (now q))).
  { unfold inside, h, dom_geo. cbn [fst snd g_d0 g_d1 g_nr g_nz g_dr g_dz]. rewrite D0, D1, !Z.add_0_r. fold dr dz.
    pose proof (cell_number_bounds (pos_r (now q)) dr Hdr) as [A1 A2]. pose proof (cell_number_bounds (pos_z (now q)) dz Hdz) as [A3 A4].
    assert (IZR (i * s) <= IZR (cell_number (pos_r (now q)) dr))%R by (apply IZR_le; lia).
    assert (IZR (cell_number (pos_r (now q)) dr) + 1 <= IZR (i * s + s))%R by (rewrite <- (plus_IZR _ 1); apply IZR_le; lia).
    assert (IZR (k * s) <= IZR (cell_number (pos_z (now q)) dz))%R by (apply IZR_le; lia).
    assert (IZR (cell_number (pos_z (now q)) dz) + 1 <= IZR (k * s + s))%R by (rewrite <- (plus_IZR _ 1); apply IZR_le; lia).
    fold dr in Hdr, B1. fold dz in Hdz, B2. split; [|nia].
    assert (M : forall x y d, (0 < d)%R -> (x <= y)%R -> (x * d <= y * d)%R) by (intros; apply Rmult_le_compat_r; lra).
    pose proof (M _ _ _ Hdr H). pose proof (M _ _ _ Hdr H0). pose proof (M _ _ _ Hdz H1). pose proof (M _ _ _ Hdz H2).
    split; [exact Hdr|]. split; [exact Hdz|]. repeat split; lra. }
  destruct (C41_defined h (y_e m) _ _ Fe In0) as (e & _ & Ee & _). destruct (C41_defined h (y_h m) _ _ Fh In0) as (_ & b & _ & Eb).
  assert (Z0 : forall x, (Rabs x <= 0)%R -> x = 0%R) by (intros x Hx; revert Hx; unfold Rabs; destruct (Rcase_abs x); lra).
  assert (Nw : forall x y, near h x y -> inw s s x y) by (unfold near, inw, h, dom_geo; cbn [g_nr g_nz]; lia).
  assert (E0 : vec e = V3 0%R 0%R 0%R).
  { destruct (C109_electric h (y_e m) _ _ 0 0 e Fe In0 ltac:(lra) ltac:(lra) Ee) as (P1 & P2 & P3). destruct e as [[e1 e2] e3]. cbn [vcomp vec] in *.
    f_equal; apply Z0; [apply P1|apply P2|rewrite Rplus_0_r in P3; apply P3]; intros x y Nx; apply Nw in Nx;
    [destruct (Zf Cr x y Nx) as [X _]|destruct (Zf Cphi x y Nx) as [X _]|destruct (Zf Cz x y Nx) as [X _]|destruct (Zf Cphi x y Nx) as [X _]]; cbn [getc] in X; rewrite X, Rabs_R0; lra. }
  assert (B0 : vec b = V3 0%R 0%R 0%R).
  { assert (P : forall c, vcomp c b = 0%R).
    { intros c. apply Z0. apply (C109_magnetic h (y_h m) (pos_r (now q)) (pos_z (now q)) c 0 b Fh In0); [|exact Eb].
      intros x y Nx. destruct (Zf c x y (Nw x y Nx)) as [_ X]. rewrite X, Rabs_R0. lra. }
    pose proof (P Cr) as P1. pose proof (P Cphi) as P2. pose proof (P Cz) as P3. destruct b as [[b1 b2] b3]. cbn [vcomp vec] in *. now subst. }
  exists e, b, (V3 0%R 0%R 0%R). split; [exact Ee|]. split; [exact Eb|]. rewrite E0, B0, U1, U2, U3. split; [apply idle|].
  assert (Same : at_rest g s (set_vel (now q) (V3 0%R 0%R 0%R))) by (split; [cbn; auto|apply Re]).
  split; [|split; reflexivity].
  assert (X := flies_dom g R C s HR HC Hs Gr Gz GrL GzL Hdr Hdz i k q (V3 0%R 0%R 0%R) Hi Hk Hh (rest_calm g s _ Hdr Hdz Same)).
  rewrite (flight_rest g s _ Hdr Hdz Same) in X. exact X.
Qed.
Theorem round_rest ids w : cold g R C s ids w -> exists w', smb_round pusher charge dist mu g R C s eps sg w w' /\ cold g R C s ids w' /\
  forall sid, Permutation (map place (particles_of a sid (w_p w'))) (map place (particles_of a sid (w_p w))).
Proof using idle quiet HR HC Hs Gr Gz GrL GzL D0 D1 Sz Heps Hsg.
  intros Co. destruct (fields_rest ids w Co) as (m' & Em & (Le & Lh & Lt) & Zm).
  destruct Co as ((_ & _ & _ & Lj) & _ & _ & Ii & Pa). fold a dr dz in Pa, Ii. assert (HsL : s + 4 < 2 ^ 32) by nia.
  pose proof Sz as (Hdr & Hdz & Hdt).
  set (Q := fun i k sid (q q' : pt) => step_particle pusher (dom_geo g R C s (i, k)) (domain_geo a dr dz i k) (m' (i, k)) sid q q' /\ q' = settled q /\
      at_rest g s (now q) /\ home (pt_cr dr) (pt_cz dz) a i k q).
  destruct (step_build a Q (w_p w)) as (st1 & Sd & So).
  { intros i k t q Hi Hk Ht Hq. cbn [rd_ zd_ a] in Hi, Hk. destruct (Pa i k t q Hi Hk Ht Hq) as [Re Hh]. exists (settled q). split; [|auto].
    apply step_rest; auto. intros c x y W. destruct (Zm i k c x y Hi Hk W) as (Z1 & Z2 & _). auto. }
  assert (Is : ids_ok a ids st1).
  { destruct Ii as [N I]. split; [exact N|]. intros i k Hi Hk. rewrite <- (I i k Hi Hk). specialize (Sd i k Hi Hk). clear - Sd.
    induction Sd as [|u u' l l' [E _] _ IH]; [reflexivity|]. cbn [map]. now rewrite E, IH. }
  destruct (C08_collector_conserves pt pt_eq_dec (pt_cr dr) (pt_cz dz) a ids st1 (area_good g R C s HR HC Hs Gr Gz GrL GzL) (pt_int g) Is) as (st' & Ec & I' & P' & H').
  assert (In1 : forall sid q, In q (particles_of a sid st1) -> exists i k q0, 0 <= i < R /\ 0 <= k < C /\ q = settled q0 /\ at_rest g s (now q0) /\ home (pt_cr dr) (pt_cz dz) a i k q0).
  { intros sid q Hq. apply In_particles in Hq as (i & k & t & Hi & Hk & Ht & _ & Hq).
    destruct (forall2_in _ _ _ t (Sd i k Hi Hk) Ht) as (u & Hu & _ & Fu). destruct (forall2_in _ _ _ q Fu Hq) as (q0 & _ & _ & E & Re & Hh). exists i, k, q0. cbn [rd_ zd_ a] in Hi, Hk. auto. }
  assert (Cells : forall i k q0, 0 <= i < R -> 0 <= k < C -> at_rest g s (now q0) -> home (pt_cr dr) (pt_cz dz) a i k q0 ->
     (0 <= cell_number (pos_r (now q0)) dr < g_nr g /\ 0 <= cell_number (pos_z (now q0)) dz < g_nz g) /\
     i * s <= cell_number (pos_r (now q0)) dr < i * s + s /\ k * s <= cell_number (pos_z (now q0)) dz < k * s + s).
  { intros i k q0 Hi Hk Re Hh. pose proof (rest_calm g s _ Hdr Hdz Re) as Cm. destruct (calm_cells g s Hdr Hdz _ Cm) as [CR CZ]. fold dr dz in CR, CZ. split; [auto|].
    apply (home_cells g R C s HR HC Hs Gr Gz GrL GzL i k q0 Hi Hk); auto; fold dr dz; lia. }
  assert (Al : forall sid q, In q (particles_of a sid st1) -> alive (pt_cr dr) (pt_cz dz) a q = true).
  { intros sid q Hq. destruct (In1 sid q Hq) as (i & k & q0 & Hi & Hk & -> & Re & Hh). destruct (Cells i k q0 Hi Hk Re Hh) as ((CR & CZ) & _).
    unfold alive, pt_cr, pt_cz, part_cr, part_cz. cbn [settled now pos_r pos_z nr nz a].
    change (ParticleModel.cell_number (pos_r (now q0)) dr) with (cell_number (pos_r (now q0)) dr). change (ParticleModel.cell_number (pos_z (now q0)) dz) with (cell_number (pos_z (now q0)) dz).
    rewrite !s32_small by lia. lia. }
  assert (P1 : forall sid, Permutation (particles_of a sid st') (particles_of a sid st1)).
  { intros sid. rewrite P'. assert (X : forall l, (forall q, In q l -> alive (pt_cr dr) (pt_cz dz) a q = true) -> filter (alive (pt_cr dr) (pt_cz dz) a) l = l).
    { induction l as [|q l IH]; intros H; [reflexivity|]. cbn [filter]. rewrite (H q (or_introl eq_refl)), IH; auto. intros q' Hq'. apply H. now right. }
    rewrite X; [reflexivity|]. apply Al. }
  assert (Hm : forall i k t q, 0 <= i < R -> 0 <= k < C -> In t (st' i k) -> In q (snd t) -> home (pt_cr dr) (pt_cz dz) a i k q /\ exists q0, q = settled q0 /\ at_rest g s (now q0)).
  { intros i k [sid l] q Hi Hk Ht Hq. split; [exact (H' i k sid l q Hi Hk Ht Hq)|].
    assert (X : In q (particles_of a sid st')) by (apply In_particles; exists i, k, (sid, l); cbn [rd_ zd_ a]; auto).
    apply (Permutation_in _ (P1 sid)) in X. destruct (In1 sid q X) as (_ & _ & q0 & _ & _ & E & Re & _). eauto. }
  set (ps := fun ik : Z * Z => movers charge dr dz (st' (fst ik) (snd ik))).
  assert (Ps : forall i k, 0 <= i < R -> 0 <= k < C -> Forall (lands (dom_geo g R C s (i, k))) (ps (i, k)) /\ Forall still (ps (i, k))).
  { intros i k Hi Hk. split; apply Forall_forall; intros p Hp; unfold ps, movers in Hp; cbn [fst snd] in Hp; apply in_flat_map in Hp as (t & Ht & Hp); apply in_map_iff in Hp as (q & <- & Hq);
    destruct (Hm i k t q Hi Hk Ht Hq) as [Hh (q0 & Eq & Re)].
    - assert (Req : at_rest g s (now q)) by (rewrite Eq; now apply settled_rest). destruct (Cells i k q Hi Hk Req Hh) as ((CR & CZ) & Hr & Hz).
      unfold lands, ThmCurrent.bound, dom_geo. cbn [fst snd g_d0 g_d1 g_nr g_nz g_dr g_dz mover_of m_r m_z m_ro m_zo m_cr m_cz]. unfold pt_cr, pt_cz, part_cr, part_cz.
      change (ParticleModel.cell_number (pos_r (now q)) dr) with (cell_number (pos_r (now q)) dr). change (ParticleModel.cell_number (pos_z (now q)) dz) with (cell_number (pos_z (now q)) dz).
      rewrite !s32_small by lia. rewrite D0, D1. fold dr dz. destruct Req as (_ & Rr & _). fold dr in Rr, Hdr. assert (old_r q = pos_r (now q)) by now rewrite Eq.
      repeat split; try lia; rewrite ?H; lra.
    - unfold still. cbn [mover_of m_r m_z m_ro m_zo m_vphi]. rewrite Eq. cbn [settled now old_r old_z pos_r pos_z vel_phi]. auto. }
  assert (Ej : exists j', smb_current dist g R C s ps (w_j w) = Ok j' /\ all_fit R C s j' /\
     forall i k c x y, 0 <= i < R -> 0 <= k < C -> 0 <= x < s -> 0 <= y < s -> lv (getc c (j' (i, k))) x y = 0%R).
  { unfold smb_current.
    destruct (each_dom_spec R C (fun p x => do a <- zero3 x; dist (dom_geo g R C s p) (ps p) a) (w_j w)
      (fun p x => fits3 s s x /\ forall c u v, inw s s u v -> lv (getc c x) u v = 0%R)) as (j1 & E1 & Q1); [lia|lia| |].
    { intros i k Hi Hk. destruct (Ps i k Hi Hk) as [L St]. destruct (quiet (dom_geo g R C s (i, k)) (ps (i, k)) (w_j w (i, k)) Sz (Lj i k Hi Hk) L St) as (x & Ex & Fx & Vx).
      exists x. split; [exact Ex|]. split; [exact Fx|exact Vx]. }
    rewrite E1. cbn [bind]. destruct (stitch_sum R C s HR HC Hs HsL j1) as (j' & E2 & F2 & V2); [intros i k Hi Hk; apply (Q1 i k Hi Hk)|].
    exists j'. split; [exact E2|]. split; [exact F2|]. intros i k c x y Hi Hk Hx Hy.
    rewrite (V2 c (fun _ _ _ => 0%R)); auto.
    - apply sum2_zero. intros u v Hu Hv. destruct (anti _ _ _); reflexivity.
    - intros i0 k0 x0 y0 Hi0 Hk0 W. now apply (Q1 i0 k0 Hi0 Hk0). }
  destruct Ej as (j' & Ej & Fj & Zj').
  exists (mkWorld m' j' st'). split; [|split].
  - exists st1. cbn [w_f w_j w_p]. split; [exact Em|]. split; [|split; [exact Ec|exact Ej]].
    split; [|exact So]. intros i k Hi Hk. specialize (Sd i k Hi Hk). clear - Sd. unfold step_domain.
    induction Sd as [|u u' l l' [E F] _ IH]; constructor; auto. split; [exact E|]. clear - F. induction F as [|x x' l l' Hx _ IH]; constructor; auto. apply Hx.
  - cbn [w_f w_j w_p]. split; [auto|]. split; [exact Zm|]. split; [exact Zj'|]. split; [exact I'|].
    intros i k t q Hi Hk Ht Hq. destruct (Hm i k t q Hi Hk Ht Hq) as [Hh (q0 & Eq & Re)]. split; [rewrite Eq; now apply settled_rest|exact Hh].
  - intros sid. cbn [w_p]. rewrite (Permutation_map place (P1 sid)).
    assert (F2 : Forall2 (fun q q' => q' = settled q) (particles_of a sid (w_p w)) (particles_of a sid st1)).
    { apply (stepped_species a Q (fun _ q q' => q' = settled q) (w_p w) st1 sid); [intros i k q q' _ _ (_ & E & _); exact E|exact Sd]. }
    clear - F2. induction F2 as [|q q' l l' -> _ IH]; [constructor|]. cbn [map]. change (place (settled q)) with (place q). now constructor.
Qed.
End Rest.

(** * C148 *)
(** a world at rest has a next round, and the world after it is at rest too, with the same particles at the same places *)
Theorem C148_round : forall pusher charge mu g R C s eps sg Eps Sg ids w, (forall sid, pusher sid (V3 0 0 0)%R (V3 0 0 0)%R (V3 0 0 0)%R = Ok (V3 0 0 0)%R) ->
  1 <= R -> 1 <= C -> 4 <= s -> g_nr g = R * s -> g_nz g = C * s -> g_nr g < 2 ^ 31 -> g_nz g < 2 ^ 31 -> g_d0 g = 0 -> g_d1 g = 0 -> sizes g ->
  inner2 R C s eps Eps -> inner2 R C s sg Sg -> cold g R C s ids w ->
  forall dist, dist = zigzag_distribution \/ dist = vb_distribution ->
  exists w', smb_round pusher charge dist mu g R C s eps sg w w' /\ cold g R C s ids w' /\
  forall sid, Permutation (map place (particles_of {| nr := R * s; nz := C * s; rd_ := R; zd_ := C |} sid (w_p w')))
                          (map place (particles_of {| nr := R * s; nz := C * s; rd_ := R; zd_ := C |} sid (w_p w))).
Proof.
  intros pusher charge mu g R C s eps sg Eps Sg ids w I HR HC Hs Gr Gz GrL GzL D0 D1 Sz Ie Is Co dist Hd.
  assert (Q : quiet_scheme dist) by (destruct Hd as [-> | ->]; [apply quiet_zigzag|apply quiet_vb]).
  exact (round_rest pusher I charge dist Q mu g R C s HR HC Hs Gr Gz GrL GzL D0 D1 Sz eps sg Eps Sg Ie Is ids w Co).
Qed.
(** the run never gets out of this state, whatever the number of rounds *)
Theorem C148_run : forall pusher charge mu g R C s eps sg Eps Sg ids n w, (forall sid, pusher sid (V3 0 0 0)%R (V3 0 0 0)%R (V3 0 0 0)%R = Ok (V3 0 0 0)%R) ->
  1 <= R -> 1 <= C -> 4 <= s -> g_nr g = R * s -> g_nz g = C * s -> g_nr g < 2 ^ 31 -> g_nz g < 2 ^ 31 -> g_d0 g = 0 -> g_d1 g = 0 -> sizes g ->
  inner2 R C s eps Eps -> inner2 R C s sg Sg -> cold g R C s ids w ->
  forall dist, dist = zigzag_distribution \/ dist = vb_distribution ->
  (exists w', rounds (smb_round pusher charge dist mu g R C s eps sg) n w w') /\
  forall w', rounds (smb_round pusher charge dist mu g R C s eps sg) n w w' -> cold g R C s ids w' /\
  forall sid, Permutation (map place (particles_of {| nr := R * s; nz := C * s; rd_ := R; zd_ := C |} sid (w_p w')))
                          (map place (particles_of {| nr := R * s; nz := C * s; rd_ := R; zd_ := C |} sid (w_p w))).
Proof.
  intros pusher charge mu g R C s eps sg Eps Sg ids n w I HR HC Hs Gr Gz GrL GzL D0 D1 Sz Ie Is Co dist Hd. revert w Co.
  induction n as [|n IH]; intros w Co; cbn [rounds]; [split; [now exists w|]; intros w' ->; split; [exact Co|reflexivity]|].
  destruct (C148_round pusher charge mu g R C s eps sg Eps Sg ids w I HR HC Hs Gr Gz GrL GzL D0 D1 Sz Ie Is Co dist Hd) as (u & Hu & Cu & Pu).
  destruct (IH u Cu) as [(w' & Hw') A]. split; [exists w', u; auto|].
  intros w2 (u2 & Hu2 & Hw2). rewrite <- (C125_deterministic _ _ _ _ _ _ _ _ _ _ _ _ _ Hu Hu2) in Hw2. destruct (A w2 Hw2) as [C2 P2].
  split; [exact C2|]. intros sid. rewrite P2. apply Pu.
Qed.
(** without fields and without velocity the pushers do nothing; the adaptive one reads a variable without value *)
Theorem C148_pushers : forall c k mu, (0 < c)%R -> let o := (V3 0 0 0)%R in
  boris_classic k mu o o o = o /\ boris_relativistic c k mu o o o = Ok o /\ vay c k mu o o o = Ok o /\ hc c k mu o o o = Ok o.
Proof.
  intros c k mu Hc o. assert (L : lorenz_factor c (len2 o) = Ok 1%R).
  { unfold lorenz_factor, len2, o. cbn [vx vy vz]. replace ((0 * 0 + 0 * 0 + 0 * 0) / (c * c))%R with 0%R by (unfold Rdiv; ring).
    unfold PushModel.rlt, PushModel.req. destruct (Rlt_dec 1 0); [lra|]. destruct (Req_EM_T 0 1); [lra|]. rewrite Rminus_0_r, sqrt_1. unfold Rdiv. rewrite Rinv_1, Rmult_1_l. reflexivity. }
  split; [|split; [|split]].
  - unfold boris_classic, boris_rotate, vadd, vscale, o. cbn [vx vy vz]. f_equal; ring.
  - unfold boris_relativistic. rewrite L. cbn [bind]. f_equal. unfold boris_rotate, vadd, vscale, o. cbn [vx vy vz]. f_equal; ring.
  - unfold vay. rewrite L. cbn [bind]. f_equal. unfold vay_momentum, vay_prime, vdot, vadd, vscale, o. cbn [vx vy vz]. f_equal; ring.
  - unfold hc. rewrite L. cbn [bind]. f_equal. unfold hc_rotate, vadd, vscale, o. cbn [vx vy vz]. f_equal; ring.
Qed.
Theorem C148_adaptive_refuted : forall c lim k mu, (let o := V3 0 0 0 in boris_adaptive c lim k mu o o o = UB)%R.
Proof.
  intros c lim k mu o. unfold boris_adaptive, PushModel.rlt, len2, o. cbn [vx vy vz]. destruct (Rlt_dec _ _) as [H|]; [|reflexivity].
  exfalso. pose proof (Rle_0_sqr lim) as Q. unfold Rsqr in Q. lra.
Qed.

(** ** an example: two electrons and an ion at rest in 2 x 2 domains, pushed by the method of Higuera and Cary *)
Definition sitting (r z : R) : pt := mkPt {| pos_r := r; pos_phi := 0; pos_z := z; vel_r := 0; vel_phi := 0; vel_z := 0; p_sin := 0; weight := 1 |} r z.
Definition frozen : world := mkWorld (fun _ => mkYee (sz3 4 0) (sz3 4 0) (sz3 4 0)) (fun _ => sz3 4 0)
  (fun i k => [(7, if (i =? 0) && (k =? 0) then [sitting (5 / 4) (9 / 4)] else []); (9, if (i =? 1) && (k =? 0) then [sitting (21 / 4) (9 / 4); sitting (19 / 4) (5 / 2)] else [])]).
Lemma border n : IZR (n * 4) <> (5 / 4)%R /\ IZR (n * 4) <> (9 / 4)%R /\ IZR (n * 4) <> (21 / 4)%R /\ IZR (n * 4) <> (19 / 4)%R /\ IZR (n * 4) <> (5 / 2)%R.
Proof.
  assert (X : forall p, (4 * p <> IZR (n * 16))%R -> IZR (n * 4) <> p) by (intros p H E; apply H; rewrite <- E, !mult_IZR; lra).
  repeat split; apply X; intros E; [apply (eq_IZR 5 (n * 16)) in E || (replace (4 * (5 / 4))%R with 5%R in E by lra; apply (eq_IZR 5 (n * 16)) in E)|
    replace (4 * (9 / 4))%R with 9%R in E by lra; apply (eq_IZR 9 (n * 16)) in E|replace (4 * (21 / 4))%R with 21%R in E by lra; apply (eq_IZR 21 (n * 16)) in E|
    replace (4 * (19 / 4))%R with 19%R in E by lra; apply (eq_IZR 19 (n * 16)) in E|replace (4 * (5 / 2))%R with 10%R in E by lra; apply (eq_IZR 10 (n * 16)) in E]; lia.
Qed.
Lemma frozen_cold : cold geo8 2 2 4 [7; 9] frozen.
Proof.
  assert (F : fits3 4 4 (sz3 4 0)) by (intros []; apply sz_fits; lia).
  assert (L : forall c x y, lv (getc c (sz3 4 0)) x y = 0%R) by (intros [] x y; reflexivity).
  split; [split; [|split; [|split]]; intros i k _ _; exact F|]. split; [intros; cbn [frozen w_f y_e y_h y_t]; rewrite !L; auto|]. split; [intros; cbn [frozen w_j]; apply L|].
  split; [split; [repeat constructor; cbn; intuition lia|reflexivity]|].
  assert (A : forall i k r z n m, cell_number r 1 = n -> cell_number z 1 = m -> ((0 <= i < 2 /\ 0 <= k < 2) /\ (i * 4 <= n < i * 4 + 4 /\ k * 4 <= m < k * 4 + 4))%Z -> (1 / 2 <= r <= 15 / 2)%R -> (1 / 2 <= z <= 15 / 2)%R ->
    (forall n, IZR (n * 4) <> r /\ IZR (n * 4) <> z) ->
    at_rest geo8 4 (now (sitting r z)) /\ home (pt_cr (g_dr geo8)) (pt_cz (g_dz geo8)) {| nr := 2 * 4; nz := 2 * 4; rd_ := 2; zd_ := 2 |} i k (sitting r z)).
  { intros i k r z n m En Em ((Hi & Hk) & Hn & Hm) Br Bz Bb. split.
    - split; [cbn; auto|]. cbn [sitting now pos_r pos_z geo8 g_dr g_dz g_nr g_nz]. split; [lra|]. split; [lra|]. intros b. rewrite !Rmult_1_r. destruct (Bb b). auto.
    - unfold home, pt_cr, pt_cz, part_cr, part_cz. cbn [sitting now pos_r pos_z g_dr g_dz geo8 nr nz rd_ zd_].
      change (ParticleModel.cell_number r 1) with (cell_number r 1). change (ParticleModel.cell_number z 1) with (cell_number z 1). rewrite En, Em, !s32_small by lia.
      assert (i = 0 \/ i = 1) as [-> | ->] by lia; assert (k = 0 \/ k = 1) as [-> | ->] by lia; vm_compute DecompModel.bound; lia. }
  intros i k t q Hi Hk [<-|[<-|[]]] Hq; cbn [snd] in Hq.
  - destruct ((i =? 0) && (k =? 0)) eqn:E; [|destruct Hq]. destruct Hq as [<-|[]]. assert (i = 0 /\ k = 0) as [-> ->] by lia.
    apply (A 0 0 _ _ 1 2); try lra; try (apply cell_is; lra); [lia|intros n; pose proof (border n); intuition].
  - destruct ((i =? 1) && (k =? 0)) eqn:E; [|destruct Hq]. assert (i = 1 /\ k = 0) as [-> ->] by lia. destruct Hq as [<-|[<-|[]]].
    + apply (A 1 0 _ _ 5 2); try lra; try (apply cell_is; lra); [lia|intros n; pose proof (border n); intuition].
    + apply (A 1 0 _ _ 4 2); try lra; try (apply cell_is; lra); [lia|intros n; pose proof (border n); intuition].
Qed.

Definition hc_pusher : Z -> v3 -> v3 -> v3 -> outcome v3 := fun _ => hc 3 1 1.
Example C148_ex : cold geo8 2 2 4 [7; 9] frozen /\ (forall sid, hc_pusher sid (V3 0 0 0)%R (V3 0 0 0)%R (V3 0 0 0)%R = Ok (V3 0 0 0)%R) /\
  inner2 2 2 4 (fun _ => sz 4 1) (sz 8 1) /\ inner2 2 2 4 (fun _ => sz 4 0) (sz 8 0) /\ sizes geo8 /\
  exists w', rounds (smb_round hc_pusher (fun _ => 1%R) vb_distribution 1 geo8 2 2 4 (fun _ => sz 4 1) (fun _ => sz 4 0)) 1000 frozen w' /\
    Permutation (map place (particles_of {| nr := 2 * 4; nz := 2 * 4; rd_ := 2; zd_ := 2 |} 9 (w_p w'))) [(21 / 4, 9 / 4, 1)%R; (19 / 4, 5 / 2, 1)%R].
Proof.
  assert (I : forall sid, hc_pusher sid (V3 0 0 0)%R (V3 0 0 0)%R (V3 0 0 0)%R = Ok (V3 0 0 0)%R) by (intros sid; apply C148_pushers; lra).
  assert (Ie : inner2 2 2 4 (fun _ => sz 4 1) (sz 8 1)) by apply C65_example. assert (Is : inner2 2 2 4 (fun _ => sz 4 0) (sz 8 0)) by apply C65_example.
  assert (Sz : sizes geo8) by (unfold sizes; cbn; lra).
  split; [apply frozen_cold|]. split; [exact I|]. split; [exact Ie|]. split; [exact Is|]. split; [exact Sz|].
  destruct (C148_run hc_pusher (fun _ => 1%R) 1 geo8 2 2 4 _ _ _ _ _ 1000 frozen I ltac:(lia) ltac:(lia) ltac:(lia) eq_refl eq_refl ltac:(cbn; lia) ltac:(cbn; lia) eq_refl eq_refl Sz Ie Is
    frozen_cold vb_distribution (or_intror eq_refl)) as [(w' & E) A]. exists w'. split; [exact E|]. destruct (A w' E) as [_ P]. rewrite (P 9). apply Permutation_refl.
Qed.

Print Assumptions C148_round.
Print Assumptions C148_run.
Print Assumptions C148_pushers.
Print Assumptions C148_adaptive_refuted.
