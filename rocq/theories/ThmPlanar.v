(** C174: a run without azimuthal motion stays without it.  C175: the mirror image of a run (the azimuth reversed). *)
From Coq Require Import Reals Lra Psatz Permutation FunctionalExtensionality.
From Verif Require Import Base RndUtil PushModel ThmPush DecompModel CollectorModel CollectorProofs ListUtil ParticleModel ParticleProofs StepModel ThmDecomp ThmStep GridModel OverlayModel YeeModel YeeSmb ThmYeeSmb SmbCurrent
  ThmParticle ThmInit ExtModel CurrentModel BeamModel RoundModel RoundProofs ThmRound ThmRoundGauss FullModel ThmFull ThmCollRound ThmSpeed ScaleProofs ThmScale.
Open Scope Z_scope.

(** ** specification *)
Definition nought (f : grid R) : Prop := forall i j, GridModel.cell f i j = 0%R.
(** only E_r, E_z and H_phi *)
Definition planar_fields (y : yee) : Prop :=
  nought (c_phi (y_e y)) /\ (nought (c_r (y_h y)) /\ nought (c_z (y_h y))) /\ (nought (c_r (y_t y)) /\ nought (c_z (y_t y))).
(** a particle that stays in its half plane *)
Definition planar_particle (q : pt) : Prop := pos_phi (now q) = 0%R /\ vel_phi (now q) = 0%R.
Definition planar_particles (a : area) (st : smb pt) : Prop :=
  forall i k sid l q, 0 <= i < rd_ a -> 0 <= k < zd_ a -> In (sid, l) (st i k) -> In q l -> planar_particle q.
Definition keeps_planar (impulse : Z -> Z -> domain pt -> domain pt -> Prop) : Prop :=
  forall i k d d', impulse i k d d' -> everywhere planar_particle d -> everywhere planar_particle d'.
Definition planar_extern (x : option (doms yee)) : Prop := match x with None => True | Some m => forall ik, planar_fields (m ik) end.

(** ** fields and currents: the number 1 for one polarisation, 0 for the other *)
Lemma nought_sc f : nought f <-> sc 0 f f.
Proof.
  split; [intros H; split; try reflexivity; intros i j; rewrite H; ring|]. intros [_ _ _ _ _ S] i j. rewrite S. ring.
Qed.
Lemma any_sc f : sc 1 f f.
Proof. split; try reflexivity. intros. ring. Qed.
Lemma planar_sy y : planar_fields y <-> sy 1 0 y y.
Proof.
  unfold planar_fields. rewrite !nought_sc. split.
  - intros (A & (B & C) & D & E). split; split; first [assumption|apply any_sc].
  - intros [[] [] []]. auto.
Qed.
Lemma planar_sc3 j : nought (c_phi j) <-> sc3 1 0 j j.
Proof. rewrite nought_sc. split; [intros H; split; first [assumption|apply any_sc]|now intros []]. Qed.
Lemma scheme_planar dist : scheme dist -> scheme_sc 1 0 0 dist.
Proof. intros [->| ->]; [apply zigzag_distribution_sc|apply vb_distribution_sc]; ring. Qed.
Lemma movers_planar charge dr dz d : everywhere planar_particle d -> Forall2 (smover 1 0) (movers charge dr dz d) (movers charge dr dz d).
Proof.
  unfold movers, everywhere. induction d as [|[sid l] d IH]; intros H; cbn [flat_map fst snd]; [constructor|]. inversion H as [|? ? A B]; subst. apply Forall2_app; [|now apply IH]. clear IH B H.
  cbn [snd] in A. induction A as [|q l [_ V] A IH]; cbn [map]; constructor; [|exact IH]. unfold smover, mover_of. cbn [m_r m_z m_ro m_zo m_cr m_cz m_vphi m_q]. rewrite V. f_equal; ring.
Qed.

(** ** what a particle meets *)
Definition planar3 (x : R * R * R) : Prop := snd (fst x) = 0%R.
Lemma field_e_planar g e r z x : nought (c_phi e) -> get_field_e g e r z = Ok x -> planar3 x.
Proof.
  intros N. apply nought_sc in N. unfold get_field_e. destruct (contributions g (c_r e) _ _) as [[[[? ?] ?] ?]| |]; cbn [bind]; try discriminate.
  destruct (contributions g (c_z e) _ _) as [[[[? ?] ?] ?]| |]; cbn [bind]; try discriminate. assert (H := contributions_sc 0 g _ _ r (place_node g r z) N).
  destruct (contributions g (c_phi e) _ _) as [[[[a b] c] d]| |]; cbn [bind]; try discriminate. intros [= <-]. cbn in H. injection H as A B C D. unfold planar3. cbn [fst snd].
  rewrite A, B, C. ring.
Qed.
Lemma field_h_planar g h r z x : nought (c_r h) -> nought (c_z h) -> get_field_h g h r z = Ok x -> fst (fst x) = 0%R /\ snd x = 0%R.
Proof.
  intros N M E. apply nought_sc in N, M. assert (S : sc3 0 1 h h) by (split; [exact N|apply any_sc|exact M]). assert (H := get_field_h_sc 0 1 g _ _ r z S). rewrite E in H.
  destruct x as [[a b] c]. cbn in H. injection H as A _ C. cbn. split; [rewrite A|rewrite C]; ring.
Qed.
Definition planar_e (e : v3) : Prop := vy e = 0%R.
Definition planar_b (b : v3) : Prop := vx b = 0%R /\ vz b = 0%R.
Lemma fields_planar h y x r z e b : planar_fields y -> match x with None => True | Some x => planar_fields x end -> fields_at h y x r z e b -> planar_e e /\ planar_b b.
Proof.
  intros (A & (B & C) & _) X (e1 & b1 & E1 & B1 & Q). assert (P1 := field_e_planar _ _ _ _ _ A E1). assert (P2 := field_h_planar _ _ _ _ _ B C B1). unfold planar3 in P1.
  destruct e1 as [[? ?] ?], b1 as [[? ?] ?]. cbn in P1, P2. destruct P2 as [P2 P3]. destruct x as [x|].
  - destruct X as (A' & (B' & C') & _). destruct Q as (e2 & b2 & E2 & B2 & -> & ->). assert (Q1 := field_e_planar _ _ _ _ _ A' E2). assert (Q2 := field_h_planar _ _ _ _ _ B' C' B2). unfold planar3 in Q1.
    destruct e2 as [[? ?] ?], b2 as [[? ?] ?]. cbn in Q1, Q2. destruct Q2 as [Q2 Q3]. unfold planar_e, planar_b. cbn. repeat split; lra.
  - destruct Q as [-> ->]. unfold planar_e, planar_b. cbn. auto.
Qed.
(** All five pushers keep the particle in its plane *)
Theorem C174_pushers : forall p c lim k mu e b v w, planar_e e -> planar_b b -> vy v = 0%R -> push p c lim k mu e b v = Ok w -> vy w = 0%R.
Proof.
  intros p c lim k mu [e1 e2 e3] [b1 b2 b3] [v1 v2 v3] w E [B1 B3] V. unfold planar_e in E. cbn in E, B1, B3, V. subst.
  assert (Rel : boris_relativistic c k mu (V3 e1 0 e3) (V3 0 b2 0) (V3 v1 0 v3) = Ok w -> vy w = 0%R).
  { unfold boris_relativistic. destruct (lorenz_factor _ _) as [g| |]; cbn [bind]; try discriminate. intros [= <-]. unfold vscale, vadd, boris_rotate. cbn [vx vy vz]. ring. }
  destruct p; cbn [push].
  - intros [= <-]. unfold boris_classic, vscale, vadd, boris_rotate. cbn [vx vy vz]. ring.
  - exact Rel.
  - unfold boris_adaptive. cbv zeta. destruct (PushModel.rlt _ _); [exact Rel|discriminate].
  - unfold vay. destruct (lorenz_factor _ _) as [g| |]; cbn [bind]; try discriminate. intros [= <-]. unfold vay_momentum, vay_prime, vscale, vadd, vdot. cbn [vx vy vz]. ring.
  - unfold hc. destruct (lorenz_factor _ _) as [g| |]; cbn [bind]; try discriminate. intros [= <-]. unfold hc_rotate, vscale, vadd. cbn [vx vy vz]. ring.
Qed.
Lemma kicked_planar pusher h y x sid q q' : (forall e b v w, planar_e e -> planar_b b -> vy v = 0%R -> pusher sid e b v = Ok w -> vy w = 0%R) ->
  planar_fields y -> match x with None => True | Some x => planar_fields x end -> kicked pusher h y x sid q q' -> planar_particle q -> planar_particle q'.
Proof.
  intros Pu Y X (e & b & v & F & P & ->) [A B]. destruct (fields_planar _ _ _ _ _ _ _ Y X F) as [E Bb]. split; [exact A|]. cbn [now]. unfold set_vel. cbn [vel_phi]. exact (Pu e b (V3 (vel_r (now q)) (vel_phi (now q)) (vel_z (now q))) v E Bb B P).
Qed.

(** ** the flight *)
Lemma back_planar dt p : pos_phi p = 0%R -> vel_phi p = 0%R -> off_axis (ParticleModel.mover dt p) ->
  pos_phi (back_position (ParticleModel.mover dt p)) = 0%R /\ vel_phi (back_position (ParticleModel.mover dt p)) = 0%R /\ p_sin (back_position (ParticleModel.mover dt p)) = 0%R.
Proof. intros A B O. unfold back_position, ParticleModel.mover. cbn [pos_r pos_phi pos_z vel_r vel_phi vel_z p_sin]. rewrite A, B. repeat split. unfold Rdiv. ring. Qed.
Lemma back_velocity_planar p : pos_phi p = 0%R -> vel_phi p = 0%R -> p_sin p = 0%R -> pos_phi (back_velocity p) = 0%R /\ vel_phi (back_velocity p) = 0%R.
Proof. intros A B C. unfold back_velocity. cbn [pos_phi vel_phi]. rewrite A, B, C. split; ring. Qed.
Lemma flown_planar beams h G sid q q' : misses_axis (YeeModel.g_dt h) q -> flown beams h G sid q q' -> planar_particle q -> planar_particle q'.
Proof.
  intros M (F & _) [A B]. destruct (back_planar _ _ A B M) as (X & Y & Z). unfold planar_particle. destruct (beams sid).
  - rewrite F. apply back_velocity_planar; unfold beam_reflect; destruct (_ && _); assumption.
  - destruct F as (n & F). specialize (F n (le_n n)). unfold advance, reflect in F. destruct (refl_loop _ _ _) as [[[[pr pz] vr] vz]|]; [|discriminate]. injection F as <-.
    apply back_velocity_planar; assumption.
Qed.

(** ** a round *)
Section Run.
Variables (p : pusher_kind) (c lim mup : R).
Variables (charge mass : Z -> R).
Variable dist : YeeModel.geo -> list CurrentModel.mover -> grid3 R -> outcome (grid3 R).
Hypothesis Di : scheme dist.
Variable mu : R.
Variable beams : Z -> option (beam * R).
Variable extern : option (doms yee).
Hypothesis Ex : planar_extern extern.
Variable impulse : Z -> Z -> domain pt -> domain pt -> Prop.
Hypothesis Im : velocities_only impulse.
Hypothesis Ip : keeps_planar impulse.
Variable draw : nat -> Z -> Z -> Z -> nat -> R * R.
Variable g : YeeModel.geo.
Let pu := pusher_of p c lim mup (YeeModel.g_dt g) charge mass.
Lemma domain_planar h G y x i k d d' : planar_fields y -> match x with None => True | Some x => planar_fields x end ->
  advance_domain pu beams (off_the_axis (YeeModel.g_dt h) impulse) h G y x i k d d' -> everywhere planar_particle d -> everywhere planar_particle d'.
Proof using Ip.
  intros Y X (d1 & d2 & K & (Co & Ms) & F) S. assert (S1 : everywhere planar_particle d1).
  { revert K S. apply every_each. intros sid q q'. apply kicked_planar; auto. intros e b v w. apply C174_pushers. }
  assert (S2 := Ip _ _ _ _ Co S1). assert (A := each_and _ _ _ _ F Ms). revert A S2. apply every_each. intros sid q q' [M Fl]. now apply flown_planar with beams h G sid.
Qed.
Lemma inject_planar a dr dz dt t cnt st i k : everywhere planar_particle (st i k) -> everywhere planar_particle (inject_beams beams draw a dr dz dt t cnt st i k).
Proof using.
  intros S. unfold everywhere, inject_beams in *. apply Forall_map. rewrite Forall_forall in *. intros s J. cbn [snd]. apply Forall_app. split; [now apply S|].
  unfold newcomers. destruct (beams (fst s)) as [[b n]|] eqn:E; [|constructor]. apply Forall_map. apply Forall_forall. intros m _.
  unfold new_particle. destruct (injected_particle _ _ _ _ _ _) as [[[r z] x] y]. now split.
Qed.
Lemma particles_planar a ids dr dz dt hs m t cnt st st' : good_area a -> ids_ok a ids st -> (forall ik, YeeModel.g_dt (hs ik) = dt) -> (forall i k, 0 <= i < rd_ a -> 0 <= k < zd_ a -> planar_fields (m (i, k))) ->
  full_particles pu beams extern (off_the_axis dt impulse) draw a dr dz dt hs m t cnt st st' -> planar_particles a st -> ids_ok a ids st' /\ planar_particles a st'.
Proof using Ex Im Ip.
  intros HA Io Hdt Hm (p1 & [Ad _] & Ec) S.
  assert (Im' : velocities_only (off_the_axis dt impulse)) by (intros i k d d' [H _]; exact (Im i k d d' H)).
  set (st0 := inject_beams beams draw a dr dz dt t cnt st) in *.
  assert (I0 : ids_ok a ids st0) by now apply inject_ids.
  assert (I1 : ids_ok a ids p1).
  { destruct I0 as [N J]. split; [exact N|]. intros i k Hi Hk. rewrite (each_ids _ _ _ (advance_remembers _ _ _ Im' _ _ _ _ _ _ _ _ (Ad i k Hi Hk))). now apply J. }
  destruct (C08_collector_conserves pt pt_eq_dec (pt_cr dr) (pt_cz dz) a ids p1 HA (fun q => int_cells_part dr dz (now q)) I1) as (st2 & Ec' & I' & P' & _).
  rewrite Ec in Ec'. injection Ec' as <-. split; [exact I'|].
  assert (S1 : planar_particles a p1).
  { refine (proj2 (area_every a planar_particle p1) _). intros i k Hi Hk. specialize (Ad i k Hi Hk). rewrite <- (Hdt (i, k)) in Ad.
    eapply domain_planar; [now apply Hm| |exact Ad|]; [|apply inject_planar; now apply (proj1 (area_every a planar_particle st) S)].
    unfold planar_extern in Ex. destruct extern; [apply Ex|constructor]. }
  refine (proj2 (area_species a planar_particle ids st' I') _). intros sid q J. assert (K := Permutation_in _ (P' sid) J). apply filter_In in K as [K _].
  exact (proj1 (area_species a planar_particle ids p1 I1) S1 sid q K).
Qed.
Section Divided.
Variables R C s : Z.
Variables eps sg : doms (grid Rdefinitions.R).
Let a := {| nr := R * s; nz := C * s; rd_ := R; zd_ := C |}.
Hypothesis HA : good_area a.
Let round := full_round pu charge dist mu beams extern (off_the_axis (YeeModel.g_dt g) impulse) draw g R C s eps sg.
Definition planar_run (u : full) : Prop := planar_particles a (w_p (u_w u)) /\ (forall ik, planar_fields (w_f (u_w u) ik)) /\ (forall ik, nought (c_phi (w_j (u_w u) ik))).
Lemma round_planar u u' ids : round u u' -> ids_ok a ids (w_p (u_w u)) -> planar_run u -> ids_ok a ids (w_p (u_w u')) /\ planar_run u'.
Proof using Di Ex Im Ip HA.
  intros (Y & P & J & _) Io (A & F & K). cbv zeta in *. fold a in P.
  assert (F' : forall ik, planar_fields (w_f (u_w u') ik)).
  { assert (H := smb_step_sc 1 0 mu g R C s eps sg _ _ _ _ (fun ik => proj1 (planar_sc3 _) (K ik)) (fun ik => proj1 (planar_sy _) (F ik))). rewrite Y in H. intros ik. apply planar_sy, H. }
  destruct (particles_planar a ids _ _ (YeeModel.g_dt g) (dom_geo g R C s) _ _ _ _ _ HA Io (fun ik => eq_refl) (fun i k _ _ => F' (i, k)) P A) as [I' A']. split; [exact I'|].
  split; [exact A'|]. split; [exact F'|]. assert (H := smb_current_sc 1 0 0 dist g R C s
    (fun ik => movers charge (YeeModel.g_dr g) (YeeModel.g_dz g) (w_p (u_w u') (fst ik) (snd ik))) _ _ _ (scheme_planar _ Di)
    (fun q Hi Hk => movers_planar charge (YeeModel.g_dr g) (YeeModel.g_dz g) _ (proj1 (area_every a planar_particle _) A' (fst q) (snd q) Hi Hk)) (fun ik => proj1 (planar_sc3 _) (K ik))).
  rewrite J in H. intros ik. apply planar_sc3, H.
Qed.
(** Any number of rounds: no azimuthal motion, no azimuthal electric field or current, no magnetic field in the plane. *)
Theorem C174_run : forall n u u' ids, rounds round n u u' -> ids_ok a ids (w_p (u_w u)) -> planar_run u -> planar_run u'.
Proof using Di Ex Im Ip HA.
  induction n as [|n IH]; cbn [rounds]; intros u u' ids; [intros ->; auto|]. intros (v & H1 & H2) Io S. destruct (round_planar _ _ _ H1 Io S) as [Iv Sv]. exact (IH v u' ids H2 Iv Sv).
Qed.
End Divided.
Section One.
Variables Eps Sg : grid R.
Let a := {| nr := g_nr g; nz := g_nz g; rd_ := 1; zd_ := 1 |}.
Hypothesis HA : good_area a.
Let round := full1_round pu charge dist mu beams extern (off_the_axis (YeeModel.g_dt g) impulse) draw g Eps Sg.
Definition planar_run1 (u : full1) : Prop := planar_particles a (o_p (v_w u)) /\ planar_fields (o_f (v_w u)) /\ nought (c_phi (o_j (v_w u))).
Lemma round1_planar u u' ids : round u u' -> ids_ok a ids (o_p (v_w u)) -> planar_run1 u -> ids_ok a ids (o_p (v_w u')) /\ planar_run1 u'.
Proof using Di Ex Im Ip HA.
  intros (Y & P & J & _) Io (A & F & K). cbv zeta in *. fold a in P.
  assert (F' : planar_fields (o_f (v_w u'))).
  { assert (H := yee_step_sc 1 0 mu g Eps Sg _ _ _ _ (proj1 (planar_sc3 _) K) (proj1 (planar_sy _) F)). rewrite Y in H. apply planar_sy, H. }
  destruct (particles_planar a ids _ _ (YeeModel.g_dt g) (fun _ => g) _ _ _ _ _ HA Io (fun ik => eq_refl) (fun i k _ _ => F') P A) as [I' A']. split; [exact I'|].
  split; [exact A'|]. split; [exact F'|]. assert (H := one_current_sc 1 0 0 dist g
    (movers charge (YeeModel.g_dr g) (YeeModel.g_dz g) (o_p (v_w u') 0 0)) _ _ _ (scheme_planar _ Di)
    (movers_planar charge (YeeModel.g_dr g) (YeeModel.g_dz g) _ (proj1 (area_every a planar_particle _) A' 0 0 ltac:(cbn; lia) ltac:(cbn; lia))) (proj1 (planar_sc3 _) K)).
  rewrite J in H. apply planar_sc3, H.
Qed.
Theorem C174_one_domain : forall n u u' ids, rounds round n u u' -> ids_ok a ids (o_p (v_w u)) -> planar_run1 u -> planar_run1 u'.
Proof using Di Ex Im Ip HA.
  induction n as [|n IH]; cbn [rounds]; intros u u' ids; [intros ->; auto|]. intros (v & H1 & H2) Io S. destruct (round1_planar _ _ _ H1 Io S) as [Iv Sv]. exact (IH v u' ids H2 Iv Sv).
Qed.
End One.
End Run.

(** ** the mirror image *)
(** The azimuth reversed: azimuthal positions and velocities change their sign; so does the azimuthal component of the electric field
    and of the current, and the two other components of the magnetic field, which is an axial vector. *)
Definition mirror_part (q : part) : part :=
  {| pos_r := pos_r q; pos_phi := - pos_phi q; pos_z := pos_z q; vel_r := vel_r q; vel_phi := - vel_phi q; vel_z := vel_z q; p_sin := - p_sin q; weight := weight q |}%R.
Definition mirror_polar (v : v3) : v3 := V3 (vx v) (- vy v) (vz v).
Definition mirror_axial (v : v3) : v3 := V3 (- vx v) (vy v) (- vz v).
Definition same_grid (f f' : grid R) : Prop := xr f' = xr f /\ yr f' = yr f /\ xs f' = xs f /\ ys f' = ys f /\ os f' = os f /\ forall i j, GridModel.cell f' i j = GridModel.cell f i j.
Definition opposite_grid (f f' : grid R) : Prop := xr f' = xr f /\ yr f' = yr f /\ xs f' = xs f /\ ys f' = ys f /\ os f' = os f /\ forall i j, GridModel.cell f' i j = (- GridModel.cell f i j)%R.
Definition polar_image (f f' : grid3 R) : Prop := same_grid (c_r f) (c_r f') /\ opposite_grid (c_phi f) (c_phi f') /\ same_grid (c_z f) (c_z f').
Definition axial_image (f f' : grid3 R) : Prop := opposite_grid (c_r f) (c_r f') /\ same_grid (c_phi f) (c_phi f') /\ opposite_grid (c_z f) (c_z f').
Definition image (y y' : yee) : Prop := polar_image (y_e y) (y_e y') /\ axial_image (y_h y) (y_h y') /\ axial_image (y_t y) (y_t y').
Definition mover_image (m m' : CurrentModel.mover) : Prop :=
  m' = mkMover (m_r m) (m_z m) (m_ro m) (m_zo m) (m_cr m) (m_cz m) (- m_vphi m)%R (m_q m).
(** both programs end in the same way *)
Definition both {A} (P : A -> A -> Prop) (m n : outcome A) : Prop :=
  match m with Ok a => exists b, n = Ok b /\ P a b | Fatal => n = Fatal | UB => n = UB end.
Lemma both_orel {A} (P Q : A -> A -> Prop) m n : (forall a b, P a b -> Q a b) -> orel P m n -> both Q m n.
Proof. intros H. destruct m, n; cbn; try contradiction; eauto. Qed.
Lemma same_sc f f' : same_grid f f' <-> sc 1 f f'.
Proof.
  split; [intros (A & B & C & D & E & F); split; auto; intros; rewrite F; ring|]. intros [A B C D E F]. repeat split; auto. intros. rewrite F. ring.
Qed.
Lemma opposite_sc f f' : opposite_grid f f' <-> sc (-1) f f'.
Proof.
  split; [intros (A & B & C & D & E & F); split; auto; intros; rewrite F; ring|]. intros [A B C D E F]. repeat split; auto. intros. rewrite F. ring.
Qed.
Lemma polar_sc f f' : polar_image f f' <-> sc3 1 (-1) f f'.
Proof. unfold polar_image. rewrite !same_sc, opposite_sc. split; [intros (A & B & C); now split|intros []; auto]. Qed.
Lemma axial_sc f f' : axial_image f f' <-> sc3 (-1) 1 f f'.
Proof. unfold axial_image. rewrite same_sc, !opposite_sc. split; [intros (A & B & C); now split|intros []; auto]. Qed.
Lemma image_sy y y' : image y y' <-> sy 1 (-1) y y'.
Proof. unfold image. rewrite polar_sc, !axial_sc. split; [intros (A & B & C); now split|intros []; auto]. Qed.
Lemma mover_smover m m' : mover_image m m' -> smover 1 (-1) m m'.
Proof. intros ->. unfold smover. f_equal; ring. Qed.
Lemma movers_smovers l l' : Forall2 mover_image l l' -> Forall2 (smover 1 (-1)) l l'.
Proof. induction 1; constructor; auto using mover_smover. Qed.
(** The solver, for one domain and for any number of them *)
Theorem C175_solver : forall mu g,
  (forall eps sg j j' y y', polar_image j j' -> image y y' -> both image (yee_step mu g eps sg j y) (yee_step mu g eps sg j' y')) /\
  (forall R C s eps sg (j j' : doms (grid3 Rdefinitions.R)) (m m' : doms yee), (forall ik, polar_image (j ik) (j' ik)) -> (forall ik, image (m ik) (m' ik)) ->
     both (fun a b => forall ik, image (a ik) (b ik)) (smb_step mu g R C s eps sg j m) (smb_step mu g R C s eps sg j' m')).
Proof.
  intros mu g. split.
  - intros eps sg j j' y y' J Y. apply both_orel with (sy 1 (-1)); [apply image_sy|]. apply yee_step_sc; [now apply polar_sc|now apply image_sy].
  - intros R C s eps sg j j' m m' J M. apply both_orel with (sd (sy 1 (-1))); [intros a b H ik; apply image_sy, H|]. apply smb_step_sc; intros ik; [apply polar_sc, J|apply image_sy, M].
Qed.
(** The currents of the mirrored particles *)
Theorem C175_currents : forall dist g, scheme dist ->
  (forall l l' j j', Forall2 mover_image l l' -> polar_image j j' -> both polar_image (one_current dist g l j) (one_current dist g l' j')) /\
  (forall R C s (l l' : Z * Z -> list CurrentModel.mover) (j j' : doms (grid3 Rdefinitions.R)), (forall ik, 0 <= fst ik < R -> 0 <= snd ik < C -> Forall2 mover_image (l ik) (l' ik)) -> (forall ik, polar_image (j ik) (j' ik)) ->
     both (fun a b => forall ik, polar_image (a ik) (b ik)) (smb_current dist g R C s l j) (smb_current dist g R C s l' j')).
Proof.
  intros dist g Di. assert (Ds : scheme_sc 1 (-1) (-1) dist) by (destruct Di as [->| ->]; [apply zigzag_distribution_sc|apply vb_distribution_sc]; ring). split.
  - intros l l' j j' L J. apply both_orel with (sc3 1 (-1)); [apply polar_sc|]. apply one_current_sc with (-1)%R; [exact Ds|now apply movers_smovers|now apply polar_sc].
  - intros R C s l l' j j' L J. apply both_orel with (sd (sc3 1 (-1))); [intros a b H ik; apply polar_sc, H|].
    apply smb_current_sc with (-1)%R; [exact Ds|intros ik Hi Hk; apply movers_smovers; now apply L|intros ik; apply polar_sc, J].
Qed.
(** The magnetic field that the particles meet *)
Theorem C175_magnetic : forall g h h' r z, axial_image h h' -> both (fun x y => y = (- fst (fst x), snd (fst x), - snd x)%R) (get_field_h g h r z) (get_field_h g h' r z).
Proof.
  intros g h h' r z H. apply both_orel with (s3 (-1) 1); [|apply get_field_h_sc; now apply axial_sc]. intros [[a b] c] y ->. cbn. f_equal; [f_equal|]; ring.
Qed.
Definition omap {A B} (f : A -> B) (m : outcome A) : outcome B := do a <- m; Ok (f a).
Lemma len2_polar v : len2 (mirror_polar v) = len2 v.
Proof. unfold len2, mirror_polar. cbn. ring. Qed.
Lemma scale_polar k v : vscale k (mirror_polar v) = mirror_polar (vscale k v).
Proof. unfold vscale, mirror_polar. cbn. f_equal; ring. Qed.
Lemma scale_axial k v : vscale k (mirror_axial v) = mirror_axial (vscale k v).
Proof. unfold vscale, mirror_axial. cbn. f_equal; ring. Qed.
Lemma add_polar u v : vadd (mirror_polar u) (mirror_polar v) = mirror_polar (vadd u v).
Proof. unfold vadd, mirror_polar. cbn. f_equal; ring. Qed.
Lemma len2_axial v : len2 (mirror_axial v) = len2 v.
Proof. unfold len2, mirror_axial. cbn. ring. Qed.
Lemma rotate_mirror v b : boris_rotate (mirror_polar v) (mirror_axial b) = mirror_polar (boris_rotate v b).
Proof. unfold boris_rotate. rewrite len2_axial. unfold mirror_polar, mirror_axial. cbn [vx vy vz]. f_equal; ring. Qed.
Lemma vay_mirror b u : vay_momentum (mirror_axial b) (mirror_polar u) = mirror_polar (vay_momentum b u).
Proof.
  unfold vay_momentum. cbv zeta. rewrite len2_axial, len2_polar. replace (vdot (mirror_polar u) (mirror_axial b)) with (- vdot u b)%R by (unfold vdot; cbn; ring).
  replace (- vdot u b * - vdot u b)%R with (vdot u b * vdot u b)%R by ring. rewrite scale_axial, len2_axial.
  match goal with |- context [vscale ?al b] => set (b' := vscale al b) end. replace (vdot (mirror_polar u) (mirror_axial b')) with (- vdot u b')%R by (unfold vdot; cbn; ring).
  unfold mirror_polar, mirror_axial. cbn [vx vy vz]. f_equal; ring.
Qed.
(** Four of the five pushers *)
Theorem C175_pushers_partial : forall p c lim k mu e b v, p <> HC -> push p c lim k mu (mirror_polar e) (mirror_axial b) (mirror_polar v) = omap mirror_polar (push p c lim k mu e b v).
Proof.
  intros p c lim k mu e b v N.
  assert (Rel : boris_relativistic c k mu (mirror_polar e) (mirror_axial b) (mirror_polar v) = omap mirror_polar (boris_relativistic c k mu e b v)).
  { unfold boris_relativistic. rewrite !len2_polar, scale_polar, scale_axial. destruct (lorenz_factor _ _); cbn [bind omap]; try reflexivity.
    rewrite !scale_polar, !add_polar, !len2_polar, !scale_axial, !rotate_mirror, !add_polar, !len2_polar, scale_polar. reflexivity. }
  destruct p; cbn [push]; try contradiction.
  - unfold boris_classic. rewrite !scale_polar, scale_axial, !add_polar, rotate_mirror, add_polar. reflexivity.
  - exact Rel.
  - unfold boris_adaptive. rewrite len2_polar, Rel. cbv zeta. destruct (PushModel.rlt _ _); reflexivity.
  - unfold vay. rewrite len2_polar. destruct (lorenz_factor _ _) as [g| |]; cbn [bind omap]; try reflexivity. rewrite scale_polar, scale_axial.
    assert (P : vay_prime c k mu (mirror_polar e) (mirror_axial b) (mirror_polar (vscale g v)) = mirror_polar (vay_prime c k mu e b (vscale g v))).
    { unfold vay_prime. cbv zeta. rewrite len2_polar, scale_polar, scale_axial, add_polar. unfold mirror_polar, mirror_axial. cbn [vx vy vz]. f_equal; ring. }
    rewrite P, vay_mirror, len2_polar, scale_polar. reflexivity.
Qed.
(** The flight *)
Theorem C175_flight : forall G dt fuel q, advance G dt fuel (mirror_part q) = option_map mirror_part (advance G dt fuel q) /\
  back_velocity (beam_reflect G (back_position (ParticleModel.mover dt (mirror_part q)))) = mirror_part (back_velocity (beam_reflect G (back_position (ParticleModel.mover dt q)))).
Proof.
  intros G dt fuel q.
  assert (B : back_position (ParticleModel.mover dt (mirror_part q)) = mirror_part (back_position (ParticleModel.mover dt q))).
  { unfold back_position, ParticleModel.mover, mirror_part. cbn [pos_r pos_phi pos_z vel_r vel_phi vel_z p_sin ParticleModel.weight].
    replace ((- pos_phi q + - vel_phi q * dt) * (- pos_phi q + - vel_phi q * dt))%R with ((pos_phi q + vel_phi q * dt) * (pos_phi q + vel_phi q * dt))%R by ring.
    f_equal; [ring|]. unfold Rdiv. ring. }
  assert (V : forall p, back_velocity (mirror_part p) = mirror_part (back_velocity p)).
  { intros p. unfold back_velocity, mirror_part. cbn [pos_r pos_phi pos_z vel_r vel_phi vel_z p_sin ParticleModel.weight]. cbv zeta.
    replace (- p_sin p * - p_sin p)%R with (p_sin p * p_sin p)%R by ring. f_equal; ring. }
  split.
  - unfold advance. rewrite B. set (p := back_position _). unfold reflect. cbv zeta. unfold mirror_part at 1 2 3 4. cbn [pos_r pos_z vel_r vel_z].
    destruct (refl_loop _ _ _) as [[[[a b] c] d]|]; cbn [option_map]; [|reflexivity]. f_equal. rewrite <- V. reflexivity.
  - rewrite B. set (p := back_position _). rewrite <- V. f_equal. unfold beam_reflect. cbv zeta. unfold mirror_part at 1. cbn [pos_r]. destruct (_ && _); reflexivity.
Qed.
(** The electric field is where the symmetry is lost: the part of E_phi that the code adds to E_z changes its sign *)
From Verif Require Import YeeProofs ThmYee ThmExt.
Theorem C175_electric_refuted : exists g e e' r z x x', fits3 (g_nr g) (g_nz g) e /\ inside g r z /\ polar_image e e' /\
  get_field_e g e r z = Ok x /\ get_field_e g e' r z = Ok x' /\ snd x' <> snd x.
Proof.
  destruct C41_field_e_refuted as (g & f & r & z & v & F & In_ & Z & E & N). set (f' := mkGrid3 (c_r f) (times_grid (-1) (c_phi f)) (c_z f)).
  assert (Nz : nought (c_z f)). { intros i j. specialize (Z (i - os (c_z f)) (j - os (c_z f))). unfold lv in Z. rewrite !Z.sub_add in Z. exact Z. }
  assert (P : polar_image f f') by (repeat split; cbn; intros; ring).
  assert (Sz : sc (-1) (c_z f) (c_z f)) by (split; try reflexivity; intros; rewrite !Nz; ring). assert (Sp : sc (-1) (c_phi f) (c_phi f')) by (split; reflexivity).
  assert (H : exists x', get_field_e g f' r z = Ok x' /\ snd x' = (- snd v)%R).
  { revert E. unfold get_field_e. cbn [c_r c_z f']. destruct (contributions g (c_r f) _ _) as [[[[? ?] ?] ?]| |]; cbn [bind]; try discriminate.
    assert (Hz := contributions_sc (-1) g _ _ r (place_half_z g r z) Sz). destruct (contributions g (c_z f) _ _) as [[[[a b] c] d]| |]; cbn [bind]; try discriminate.
    assert (Hp := contributions_sc (-1) g _ _ r (place_node g r z) Sp). destruct (contributions g (c_phi f) _ _) as [[[[? ?] ?] ?]| |]; cbn [bind]; try discriminate.
    destruct (contributions g (c_phi f') _ _) as [[[[? ?] ?] ?]| |]; try contradiction. intros [= <-]. cbn in Hz, Hp. injection Hz as A B C D. injection Hp as -> -> -> ->. cbn [bind].
    eexists. split; [reflexivity|]. cbn [snd]. lra. }
  destruct H as (x' & E' & S). exists g, f, f', r, z, v, x'. repeat (split; [assumption|]). rewrite S. destruct v as [[a b] c]. cbn in *. lra.
Qed.
(** HC: the wrong component in one place (C47) *)
Lemma hc_lengthwise c k mu B V : (0 < c)%R -> (V * V < c * c)%R -> exists w t, hc c k mu ThmPush.zero3 (V3 0 0 B) (V3 0 0 V) = Ok w /\ (0 < t)%R /\ vx w = (- (k * mu * B * V) * t)%R.
Proof.
  intros Hc S. assert (Sl : subluminal c (V3 0 0 V)) by (unfold subluminal, len2; cbn; lra). unfold hc. cbv zeta. rewrite (lorenz_eq c Hc _ Sl). cbn [bind].
  assert (G := gam_pos c Hc _ Sl). set (g := gam c _) in *. match goal with |- context [hc_gamma ?b ?u] => assert (Hg : (0 < hc_gamma b u)%R); [|set (y := hc_gamma b u) in *] end.
  { unfold hc_gamma. cbv zeta. unfold Rdiv. rewrite !Rmult_1_l. apply Rinv_0_lt_compat, sqrt_lt_R0. match goal with |- (0 < / 2 * (?s + sqrt (?s * ?s + 4 * (?q + ?n * ?n))))%R => set (s0 := s); set (q0 := q); set (n0 := n) end.
    assert (Q : (0 <= q0)%R) by (unfold q0; apply len2_nonneg). assert (P : (0 < s0 * s0 + 4 * (q0 + n0 * n0) \/ (s0 > 0))%R).
    { destruct (Rle_lt_dec q0 0) as [Z|Z]; [right|left; nra]. unfold s0. assert (Z' : q0 = 0%R) by lra. unfold q0 in Z'. rewrite Z'. assert (U := len2_nonneg (vadd (vscale g (V3 0 0 V)) (vscale k ThmPush.zero3))). lra. }
    assert (sqrt (s0 * s0) = Rabs s0) by apply sqrt_Rsqr_abs. assert (sqrt (s0 * s0) <= sqrt (s0 * s0 + 4 * (q0 + n0 * n0)))%R by (apply sqrt_le_1; nra).
    destruct (Rle_lt_dec q0 0) as [Z|Z].
    - assert (s0 > 0)%R. { unfold s0. assert (Z' : q0 = 0%R) by lra. unfold q0 in Z'. rewrite Z'. assert (U := len2_nonneg (vadd (vscale g (V3 0 0 V)) (vscale k ThmPush.zero3))). lra. }
      assert (0 <= sqrt (s0 * s0 + 4 * (q0 + n0 * n0)))%R by apply sqrt_pos. lra.
    - assert (sqrt (s0 * s0) < sqrt (s0 * s0 + 4 * (q0 + n0 * n0)))%R by (apply sqrt_lt_1; nra). unfold Rabs in *. destruct (Rcase_abs s0); lra. }
  match goal with |- context [lorenz_factor_inv c ?n] => assert (Hl : (0 < lorenz_factor_inv c n)%R); [|set (li := lorenz_factor_inv c n) in *] end.
  { unfold lorenz_factor_inv. apply Rinv_0_lt_compat, sqrt_lt_R0. match goal with |- (0 < 1 + len2 ?x / _)%R => assert (U := len2_nonneg x); assert (0 <= len2 x / (c * c))%R by (apply Rmult_le_pos; [exact U|left; apply Rinv_0_lt_compat; nra]) end. lra. }
  clearbody y li. clearbody g. eexists. exists (2 * y * g * li)%R. split; [reflexivity|]. split; [repeat apply Rmult_lt_0_compat; lra|].
  unfold vscale, vadd, hc_rotate, ThmPush.zero3. cbn [vx vy vz]. field.
Qed.
Theorem C175_hc_refuted : forall c k mu B V, (0 < c)%R -> (V * V < c * c)%R -> (V <> 0)%R -> (k * mu * B <> 0)%R ->
  push HC c 1 k mu (mirror_polar ThmPush.zero3) (mirror_axial (V3 0 0 B)) (mirror_polar (V3 0 0 V)) <> omap mirror_polar (push HC c 1 k mu ThmPush.zero3 (V3 0 0 B) (V3 0 0 V)).
Proof.
  intros c k mu B V Hc S N K. cbn [push]. replace (mirror_polar ThmPush.zero3) with ThmPush.zero3 by (unfold mirror_polar, ThmPush.zero3; cbn; now rewrite Ropp_0).
  replace (mirror_axial (V3 0 0 B)) with (V3 0 0 (- B)) by (unfold mirror_axial; cbn; now rewrite Ropp_0). replace (mirror_polar (V3 0 0 V)) with (V3 0 0 V) by (unfold mirror_polar; cbn; now rewrite Ropp_0).
  destruct (hc_lengthwise c k mu B V Hc S) as (w & t & E & T & X). destruct (hc_lengthwise c k mu (- B) V Hc S) as (w' & t' & E' & T' & X'). rewrite E, E'. cbn [omap bind]. intros H. apply ok_inj in H.
  apply (f_equal vx) in H. rewrite X' in H. unfold mirror_polar in H. cbn [vx] in H. rewrite X in H. assert (Q : (k * mu * B * V * (t + t') = 0)%R) by lra.
  apply Rmult_integral in Q as [Q|Q]; [|lra]. apply Rmult_integral in Q as [Q|Q]; auto.
Qed.

(** ** examples *)
From Verif Require Import ThmGauss ThmGaussRef ThmBeamGauss.
Example C174_ex : exists u', full1_round (pusher_of Relativistic 1 1 1 1 elec unit_mass) elec vb_distribution 1 bms outside (off_the_axis 1 none) dice geo8 (sz 8 1) (sz 8 0) empty9 u' /\
  o_p (v_w u') 0 0 = [(9, [flew])] /\ planar_run1 geo8 empty9 /\ planar_run1 geo8 u'.
Proof.
  destruct (beam_round_any (off_the_axis 1 none)) as (u' & H & P).
  { split; [reflexivity|]. constructor; [|constructor]. constructor; [|constructor]. unfold misses_axis, off_axis, hurled, came, ParticleModel.mover. cbn. lra. }
  assert (Pq : planar_fields quiet) by (repeat split; intros i j; reflexivity).
  assert (S : planar_run1 geo8 empty9).
  { split; [|split; [exact Pq|intros i j; reflexivity]]. intros i k sid l q _ _ [[= <- <-]|[]] []. }
  exists u'. split; [exact H|]. split; [exact P|]. split; [exact S|].
  refine (C174_one_domain Relativistic 1 1 1 elec unit_mass vb_distribution (or_intror eq_refl) 1 bms outside (fun _ => Pq) none _ _ dice geo8 (sz 8 1) (sz 8 0) _ 1 empty9 u' [9] _ _ S).
  - exact (proj1 C160_gauss_refuted).
  - intros i k d d' ->. auto.
  - apply one_good; cbn; lia.
  - exists u'. split; [exact H|reflexivity].
  - split; [repeat constructor; intros []|]. intros i k Hi Hk. reflexivity.
Qed.
Example C175_ex : image quiet quiet /\ mover_image (mkMover 1 1 1 1 1 1 (1 / 2) 1) (mkMover 1 1 1 1 1 1 (- (1 / 2)) 1) /\
  push Relativistic 1 1 1 1 (mirror_polar (V3 0 1 0)) (mirror_axial (V3 1 0 0)) (mirror_polar (V3 0 (1 / 2) 0)) = omap mirror_polar (push Relativistic 1 1 1 1 (V3 0 1 0) (V3 1 0 0) (V3 0 (1 / 2) 0)) /\
  mirror_polar (V3 0 1 0) <> V3 0 1 0 /\ ((1 / 2) * (1 / 2) < 1 * 1)%R.
Proof.
  split; [repeat split; intros; cbn; ring|]. split; [reflexivity|]. split; [apply C175_pushers_partial; discriminate|]. split; [|lra]. unfold mirror_polar. cbn. intros H. injection H. lra.
Qed.

Print Assumptions C174_pushers.
Print Assumptions C174_run.
Print Assumptions C174_one_domain.
Print Assumptions C174_ex.
Print Assumptions C175_solver.
Print Assumptions C175_currents.
Print Assumptions C175_magnetic.
Print Assumptions C175_pushers_partial.
Print Assumptions C175_flight.
Print Assumptions C175_electric_refuted.
Print Assumptions C175_hc_refuted.
Print Assumptions C175_ex.
