(** C178: a run with beams takes place. *)
From Coq Require Import ZifyBool Reals Lra Psatz Permutation.
From Verif Require Import Base RndUtil DecompModel DecompProofs CollectorModel CollectorProofs ListUtil PushModel ThmPush ParticleModel ParticleProofs StepModel
  ThmParticle ThmInit ThmDecomp ThmStep ThmFlight GridModel GridProofs OverlayModel YeeModel YeeProofs ThmYee ExtModel ThmExt ThmInterp CurrentModel CurrentProofs ThmCurrent ThmCurrent2
  SumUtil YeeSmb ThmYeeSmb SmbCorner SmbCurrent ThmDivide RoundModel RoundProofs ThmRound BeamModel FullModel ThmFull CollRoundModel ThmCollRound ThmSpeed ThmTakesPlace.
From Verif Require FieldMpi ThmBeam.
Open Scope Z_scope.

(** ** specification *)
(** a particle in the half plane, not nearer to the axis than the mirror in front of it *)
Definition afoot (g : YeeModel.geo) (p : part) : Prop := (pos_phi p = 0 /\ g_dr g / 2 <= pos_r p)%R.
(** a particle of species [sid] in domain (i, k) before a round: slower than light and in the cells of the domain; particles of beams
    pass through the walls at the ends and at the outside, all others are between the mirrors *)
Definition lively' (beams : Z -> option (beam * Rdefinitions.R)) (c : Rdefinitions.R) (g : YeeModel.geo) (s sid i k : Z) (q : pt) : Prop :=
  match beams sid with None => between g (now q) | Some _ => afoot g (now q) end /\ slower c q /\
  i * s <= cell_number (pos_r (now q)) (g_dr g) < i * s + s /\ k * s <= cell_number (pos_z (now q)) (g_dz g) < k * s + s.
Definition each_one (P : Z -> pt -> Prop) (d : domain pt) : Prop := forall t q, In t d -> In q (snd t) -> P (fst t) q.
Definition all_of (R C : Z) (P : Z -> Z -> Z -> pt -> Prop) (st : smb pt) : Prop :=
  forall i k, 0 <= i < R -> 0 <= k < C -> each_one (fun sid => P sid i k) (st i k).
Definition total' beams (c : Rdefinitions.R) (g : YeeModel.geo) (R C s : Z) (impulse : Z -> Z -> domain pt -> domain pt -> Prop) : Prop :=
  forall i k d, 0 <= i < R -> 0 <= k < C -> each_one (fun sid => lively' beams c g s sid i k) d -> exists d', impulse i k d d'.
Definition living' beams (c : Rdefinitions.R) (g : YeeModel.geo) (R C s : Z) (ids : list Z) (w : world) : Prop :=
  sized R C s (w_f w) /\ all_fit R C s (w_j w) /\ ids_ok {| nr := R * s; nz := C * s; rd_ := R; zd_ := C |} ids (w_p w) /\
  all_of R C (lively' beams c g s) (w_p w).
(** no particle that is not of a beam sits exactly on a line between two domains *)
Definition clear' (beams : Z -> option (beam * Rdefinitions.R)) (g : YeeModel.geo) (R C s : Z) (w : world) : Prop :=
  all_of R C (fun sid _ _ q => beams sid = None -> off_lines g R C s (now q)) (w_p w).
(** beams slower than light, going to the right, that with half a cell to spare fit into the domains at the axis; random numbers from [0, 1) *)
Definition beams_fit (beams : Z -> option (beam * Rdefinitions.R)) (draw : nat -> Z -> Z -> Z -> nat -> Rdefinitions.R * Rdefinitions.R) (c : Rdefinitions.R) (g : YeeModel.geo) (s : Z) : Prop :=
  (forall sid b n, beams sid = Some (b, n) -> (0 <= b_velocity b < c /\ 0 < b_radius b /\ b_radius b + g_dr g / 2 <= IZR s * g_dr g)%R) /\
  (forall t i k sid m, (0 <= fst (draw t i k sid m) < 1 /\ 0 <= snd (draw t i k sid m) < 1)%R).

Lemma afoot_between g p : between g p -> afoot g p.
Proof. intros (P0 & Br & _). split; [exact P0|lra]. Qed.
Lemma lively_afoot beams c g s sid i k q : lively' beams c g s sid i k q -> afoot g (now q) /\ slower c q /\
  i * s <= cell_number (pos_r (now q)) (g_dr g) < i * s + s /\ k * s <= cell_number (pos_z (now q)) (g_dz g) < k * s + s.
Proof. unfold lively'. intros (H & T). split; [|exact T]. destruct (beams sid); [exact H|now apply afoot_between]. Qed.
Lemma flown_plasma beams h G sid q q' : beams sid = None -> (flown beams h G sid q q' <-> flown (fun _ => None) h G sid q q').
Proof. intros E. unfold flown. now rewrite E. Qed.

Section Takes.
Variables (c mu : R).
Hypothesis Hc : (0 < c)%R.
Variable pusher : Z -> v3 -> v3 -> v3 -> outcome v3.
Hypothesis Pu : relativistic c mu pusher.
Variable beams : Z -> option (beam * R).
Variable extern : option (doms yee).
Variable impulse : Z -> Z -> domain pt -> domain pt -> Prop.
Hypothesis Im : velocities_only impulse.
Hypothesis Is : keeps_slow c impulse.
Variable draw : nat -> Z -> Z -> Z -> nat -> R * R.
Variable charge : Z -> R.
Variable dist : YeeModel.geo -> list CurrentModel.mover -> grid3 R -> outcome (grid3 R).
Hypothesis Di : defined_scheme dist.
Variable mu0 : R.
Variable g : YeeModel.geo.
Variables R C s : Z.
Hypothesis HR : 1 <= R.
Hypothesis HC : 1 <= C.
Hypothesis Hs : 4 <= s.
Hypothesis Gr : g_nr g = R * s.
Hypothesis Gz : g_nz g = C * s.
Hypothesis GrL : g_nr g < 2 ^ 31.
Hypothesis GzL : g_nz g < 2 ^ 31.
Hypothesis D0 : g_d0 g = 0.
Hypothesis D1 : g_d1 g = 0.
Hypothesis Sz : sizes g.
Hypothesis Courant : (c * g_dt g <= g_dr g / 2 /\ c * g_dt g <= g_dz g / 2)%R.
Hypothesis Bf : beams_fit beams draw c g s.
Variables eps sg : doms (grid Rdefinitions.R).
Hypothesis Feps : forall i k, 0 <= i < R -> 0 <= k < C -> fits2 s s (eps (i, k)).
Hypothesis Fsg : forall i k, 0 <= i < R -> 0 <= k < C -> fits2 s s (sg (i, k)).
Hypothesis Fex : forall x, extern = Some x -> sized R C s x.
Let a := {| nr := R * s; nz := C * s; rd_ := R; zd_ := C |}.
Let dr := g_dr g.
Let dz := g_dz g.
Let dt := g_dt g.
Let fine := lively' beams c g s.
(** a particle after its flight *)
Let arrived (sid : Z) (q q' : pt) : Prop :=
  (pos_phi (now q') = 0 /\ 0 < pos_r (now q') /\
   Rabs (pos_r (now q') - pos_r (now q)) < g_dr g /\ Rabs (pos_z (now q') - pos_z (now q)) < g_dz g)%R /\ slower c q' /\
  old_r q' = pos_r (now q) /\ old_z q' = pos_z (now q) /\ (0 < pos_r (now q))%R /\
  match beams sid with
  | None => (0 < pos_r (now q') < IZR (g_nr g) * g_dr g /\ 0 < pos_z (now q') < IZR (g_nz g) * g_dz g)%R /\ (off_lines g R C s (now q') -> between g (now q'))
  | Some _ => (g_dr g / 2 <= pos_r (now q'))%R
  end.

(** ** injection *)
Lemma came t cnt i k sid q : 0 <= i < R -> 0 <= k < C -> In q (newcomers beams draw a dr dz dt t cnt i k sid) -> fine sid i k q.
Proof using Hc HR HC Hs Gr Gz GrL GzL Sz Courant Bf.
  intros Hi Hk Hq. unfold newcomers in Hq. unfold fine, lively'. destruct (beams sid) as [[b n]|] eqn:B; [|destruct Hq].
  destruct Bf as [Bb Bd]. destruct (Bb sid b n B) as (V & Rp & Rf). destruct Sz as (Hdr & Hdz & Hdt). destruct Courant as [_ K2]. fold dr in Hdr, Rf. fold dz in Hdz, K2. fold dt in Hdt, K2.
  apply in_map_iff in Hq as (m & <- & Hm). apply in_seq in Hm as [_ Hm]. cbn [plus] in Hm. destruct (Bd t i k sid m) as [U1 U2].
  assert (Eb : d_bot (beam_dom a dr i k) = i * s) by (cbn [beam_dom d_bot nr rd_ a]; rewrite (bound_dom s Hs) by lia; reflexivity).
  assert (El : d_left (beam_dom a dr i k) = k * s) by (cbn [beam_dom d_left nz zd_ a]; rewrite (bound_dom s Hs) by lia; reflexivity).
  assert (Et : d_top (beam_dom a dr i k) = (i + 1) * s) by (cbn [beam_dom d_top nr rd_ a]; rewrite (bound_dom s Hs) by lia; reflexivity).
  assert (Ed : d_dr (beam_dom a dr i k) = dr) by reflexivity.
  set (D := beam_dom a dr i k) in *. clearbody D.
  unfold manage_beam in Hm. rewrite El in Hm. destruct (Z.eqb_spec (k * s) 0) as [Ek|Ek]; [|cbn [fst] in Hm; lia]. assert (k = 0) by nia. subst k.
  assert (Ei : i = 0).
  { destruct (Z.eq_dec i 0) as [|Ni]; [assumption|exfalso]. unfold inject in Hm. rewrite Eb, Ed in Hm.
    assert (A : (IZR s * dr <= IZR (i * s) * dr)%R) by (apply Rmult_le_compat_r; [lra|apply IZR_le; nia]).
    assert (F : Rltb (IZR (i * s) * dr) (b_radius b) = false) by (unfold Rltb; destruct (Rlt_dec _ _); [lra|reflexivity]).
    rewrite F in Hm. cbn [andb] in Hm. destruct (_ <? _)%nat; cbn [fst] in Hm; lia. }
  subst i. unfold new_particle, injected_particle. cbn [now pos_phi pos_r pos_z].
  assert (Dr : domain_radius b D = b_radius b).
  { unfold domain_radius. rewrite El, Et, Eb, Ed. cbn [Z.mul Z.ltb Z.compare]. unfold Rltb. replace ((0 + 1) * s) with s by lia.
    destruct (Rlt_dec (IZR s * dr) (b_radius b)); [lra|]. destruct (Rlt_dec (IZR 0 * dr) (b_radius b)); lra. }
  rewrite Dr, Ed, Eb. destruct (draw t 0 0 sid m) as [u v]. cbn [fst snd] in *. unfold slower, afoot. cbn [now pos_phi pos_r pos_z vel_r vel_phi vel_z].
  fold dr dz. assert (VT : (0 <= b_velocity b * dt)%R) by (apply Rmult_le_pos; lra). assert (VT2 : (b_velocity b * dt <= dz / 2)%R) by (assert (b_velocity b * dt <= c * dt)%R by (apply Rmult_le_compat_r; lra); lra).
  assert (S4 : (4 <= IZR s)%R) by (apply IZR_le; lia).
  assert (RU : (0 <= b_radius b * u <= b_radius b /\ (b_radius b * u < b_radius b))%R) by nra.
  assert (VU : (0 <= b_velocity b * dt * v <= b_velocity b * dt)%R) by nra.
  split; [split; [reflexivity|]; cbn [Z.mul]; lra|]. split; [nra|]. split.
  - apply cell_number_range; [exact Hdr|]. replace (0 * s) with 0 by lia. replace (0 + s) with s by lia. cbn [IZR]. rewrite !Rmult_0_l. lra.
  - apply cell_number_range; [exact Hdz|]. replace (0 * s) with 0 by lia. replace (0 + s) with s by lia. rewrite !Rmult_0_l. assert (4 * dz <= IZR s * dz)%R by (apply Rmult_le_compat_r; lra). lra.
Qed.
Lemma injected_fine t cnt st : all_of R C fine st -> all_of R C fine (inject_beams beams draw a dr dz dt t cnt st).
Proof using Hc HR HC Hs Gr Gz GrL GzL Sz Courant Bf.
  intros H i k Hi Hk u q Hu Hq. unfold inject_beams in Hu. apply in_map_iff in Hu as (u0 & <- & Hu). cbn [fst snd] in *.
  apply in_app_or in Hq as [Hq|Hq]; [exact (H i k Hi Hk u0 q Hu Hq)|]. now apply (came t cnt).
Qed.

(** ** the flight *)
Lemma short q : afoot g (now q) -> slower c q -> let p0 := back_position (ParticleModel.mover dt (now q)) in
  (Rabs (pos_r p0 - pos_r (now q)) < dr / 2 /\ Rabs (pos_z p0 - pos_z (now q)) < dz / 2)%R /\ misses_axis dt q.
Proof using Hc Sz Courant.
  intros (P0 & Br) Sl. destruct Sz as (Hdr & Hdz & Hdt). destruct Courant as [K1 K2]. fold dr in Hdr, K1, Br. fold dz in Hdz, K2. fold dt in Hdt, K1, K2. unfold slower in Sl.
  set (p := now q) in *. cbn zeta.
  assert (Len : (sqrt ((vel_r p * dt) ^ 2 + (vel_phi p * dt) ^ 2) < c * dt)%R).
  { apply Rsqr_incrst_0; [|apply sqrt_pos|nra]. rewrite Rsqr_sqrt by nra. unfold Rsqr. 
    assert (0 < dt * dt)%R by nra. assert (0 <= vel_z p * vel_z p)%R by nra.
    replace ((vel_r p * dt) ^ 2 + (vel_phi p * dt) ^ 2)%R with ((vel_r p * vel_r p + vel_phi p * vel_phi p) * (dt * dt))%R by ring.
    replace (c * dt * (c * dt))%R with (c * c * (dt * dt))%R by ring. apply Rmult_lt_compat_r; lra. }
  assert (Lz : (Rabs (vel_z p * dt) < c * dt)%R).
  { rewrite Rabs_mult, (Rabs_right dt) by lra. apply Rmult_lt_compat_r; [lra|].
    assert (X : (Rsqr (vel_z p) < Rsqr c)%R) by (unfold Rsqr; nra). apply Rsqr_lt_abs_0 in X. rewrite (Rabs_right c) in X by lra. exact X. }
  split; [split|].
  - unfold back_position, ParticleModel.mover. cbn [pos_r pos_phi]. rewrite P0. apply radius_change2; lra.
  - unfold back_position, ParticleModel.mover. cbn [pos_z]. replace (pos_z p + vel_z p * dt - pos_z p)%R with (vel_z p * dt)%R by ring. lra.
  - unfold misses_axis, off_axis. fold p. cbn [ParticleModel.mover pos_r pos_phi]. left.
    assert (Rabs (vel_r p * dt) < c * dt)%R.
    { rewrite Rabs_mult, (Rabs_right dt) by lra. apply Rmult_lt_compat_r; [lra|].
      assert (X : (Rsqr (vel_r p) < Rsqr c)%R) by (unfold Rsqr; nra). apply Rsqr_lt_abs_0 in X. rewrite (Rabs_right c) in X by lra. exact X. }
    apply Rabs_def2 in H. lra.
Qed.
Lemma fly' i k sid q : 0 <= i < R -> 0 <= k < C -> fine sid i k q ->
  exists q', flown beams (dom_geo g R C s (i, k)) (domain_geo a dr dz i k) sid q q'.
Proof using Hc HR HC Hs Gr Gz GrL GzL Sz Courant.
  intros Hi Hk F. unfold fine, lively' in F. destruct (beams sid) as [bn|] eqn:B.
  - eexists (mkPt _ (pos_r (now q)) (pos_z (now q))). unfold flown. rewrite B. cbn [now old_r old_z]. split; [reflexivity|auto].
  - destruct (fly c Hc g R C s HR HC Hs Gr Gz GrL GzL Sz Courant i k sid q Hi Hk F) as (q' & H). exists q'. now apply (flown_plasma beams).
Qed.
Lemma flew' i k sid q q' : 0 <= i < R -> 0 <= k < C -> fine sid i k q ->
  flown beams (dom_geo g R C s (i, k)) (domain_geo a dr dz i k) sid q q' -> arrived sid q q'.
Proof using Hc HR HC Hs Gr Gz GrL GzL Sz Courant.
  intros Hi Hk F Fl. unfold arrived. unfold fine, lively' in F. destruct (beams sid) as [bn|] eqn:B.
  - destruct F as (Af & Sl & Hr & Hz). destruct (short q Af Sl) as ((Nr & Nz) & Ms). destruct Sz as (Hdr & Hdz & Hdt).
    destruct (flown_speed beams (dom_geo g R C s (i, k)) _ _ _ _ Ms Fl) as [Sp _].
    destruct Fl as (Fl & O1 & O2). rewrite B in Fl. change (YeeModel.g_dt (dom_geo g R C s (i, k))) with dt in Fl.
    destruct (cells_place s Hs R i _ _ Hdr Hi Hr) as (P1 & P2 & P3 & P4).
    destruct (geo_is g R C s HR HC Hs Gr Gz GrL GzL i k Hi Hk) as (G1 & G2 & G3 & G4). fold a dr dz in G1, G2, G3, G4. set (G := domain_geo a dr dz i k) in *.
    set (p0 := back_position (ParticleModel.mover dt (now q))) in *. destruct Af as [_ Br].
    apply Rabs_def2 in Nr, Nz. fold dr in Hdr, Br, P1, P2, P3, P4 |- *. fold dz in Hdz |- *.
    assert (W1 : w_r0 G = (i =? 0)) by reflexivity. assert (Gd : ParticleModel.g_dr G = dr) by reflexivity.
    assert (X : (pos_phi (beam_reflect G p0) = 0 /\ pos_z (beam_reflect G p0) = pos_z p0 /\ dr / 2 <= pos_r (beam_reflect G p0) /\ -dr < pos_r (beam_reflect G p0) - pos_r (now q) < dr)%R).
    { unfold beam_reflect, half_dr. rewrite W1, G3, Gd. unfold Rltb. destruct (Rlt_dec _ _) as [L|L]; cbn [andb]; [destruct (Z.eqb_spec i 0) as [Ei|Ei]|].
      - cbn [pos_phi pos_z pos_r]. rewrite P2 in *. repeat split; try lra; try reflexivity.
      - repeat split; try lra; try reflexivity.
      - destruct (Z.eqb_spec i 0) as [Ei|Ei]; repeat split; try lra; try reflexivity. }
    destruct X as (X1 & X2 & X3 & X4).
    assert (F1 : pos_r (now q') = pos_r (beam_reflect G p0)) by now rewrite Fl. assert (F2 : pos_z (now q') = pos_z (beam_reflect G p0)) by now rewrite Fl.
    assert (F3 : pos_phi (now q') = 0%R) by (rewrite Fl; cbn [back_velocity pos_phi]; rewrite X1; reflexivity).
    rewrite F1, F2, F3, X2. split.
    { split; [reflexivity|]. split; [lra|]. split; apply Rabs_def1; lra. }
    split. { apply (proj2 (slower_vel _ _)). apply (proj1 (slower_vel _ _)) in Sl. unfold subluminal in *. change (len2 (vel q')) with (len q'). now rewrite Sp. }
    split; [exact O1|]. split; [exact O2|]. split; [lra|exact X3].
  - destruct (flew c Hc g R C s HR HC Hs Gr Gz GrL GzL Sz Courant i k sid q q' Hi Hk F (proj1 (flown_plasma beams _ _ _ _ _ B) Fl)) as ((A1 & A2 & A3 & A4 & A5) & A6 & A7 & A8 & A9 & A10).
    split; [|auto 8]. split; [exact A1|]. split; [lra|]. auto.
Qed.
Lemma seen' i k q y : 0 <= i < R -> 0 <= k < C -> afoot g (now q) /\ slower c q /\
  i * s <= cell_number (pos_r (now q)) (g_dr g) < i * s + s /\ k * s <= cell_number (pos_z (now q)) (g_dz g) < k * s + s -> fits3 s s (y_e y) -> fits3 s s (y_h y) ->
  exists e b, get_field_e (dom_geo g R C s (i, k)) (y_e y) (pos_r (now q)) (pos_z (now q)) = Ok e /\ get_field_h (dom_geo g R C s (i, k)) (y_h y) (pos_r (now q)) (pos_z (now q)) = Ok b.
Proof using HR HC Hs D0 D1 Sz.
  intros Hi Hk (Be & _ & Hr & Hz) Fe Fh. destruct Sz as (Hdr & Hdz & _).
  assert (In0 : ThmExt.inside (dom_geo g R C s (i, k)) (pos_r (now q)) (pos_z (now q))).
  { unfold ThmExt.inside, dom_geo. cbn [fst snd g_d0 g_d1 g_nr g_nz YeeModel.g_dr YeeModel.g_dz]. rewrite D0, D1, !Z.add_0_r.
    pose proof (cell_number_bounds (pos_r (now q)) _ Hdr) as [A1 A2]. pose proof (cell_number_bounds (pos_z (now q)) _ Hdz) as [A3 A4].
    assert (M : forall u v d, (0 < d)%R -> u <= v -> (IZR u * d <= IZR v * d)%R) by (intros u v d Hd Huv; apply Rmult_le_compat_r; [lra|now apply IZR_le]).
    pose proof (M (i * s) (cell_number (pos_r (now q)) (g_dr g)) _ Hdr ltac:(lia)) as M1. pose proof (M (cell_number (pos_r (now q)) (g_dr g) + 1) (i * s + s) _ Hdr ltac:(lia)) as M2.
    pose proof (M (k * s) (cell_number (pos_z (now q)) (g_dz g)) _ Hdz ltac:(lia)) as M3. pose proof (M (cell_number (pos_z (now q)) (g_dz g) + 1) (k * s + s) _ Hdz ltac:(lia)) as M4.
    rewrite plus_IZR in M2 at 1. rewrite plus_IZR in M4 at 1. destruct Be as (_ & Br). split; [|nia]. split; [exact Hdr|]. split; [exact Hdz|]. repeat split; lra. }
  destruct (C41_defined (dom_geo g R C s (i, k)) (y_e y) _ _ Fe In0) as (e & _ & Ee & _). destruct (C41_defined (dom_geo g R C s (i, k)) (y_h y) _ _ Fh In0) as (_ & b & _ & Eb). eauto.
Qed.
Let ext_of (i k : Z) : option yee := match extern with None => None | Some x => Some (x (i, k)) end.
Lemma kick' m i k sid q : 0 <= i < R -> 0 <= k < C -> sized R C s m -> fine sid i k q ->
  exists q', kicked pusher (dom_geo g R C s (i, k)) (m (i, k)) (ext_of i k) sid q q'.
Proof using Hc Pu HR HC Hs D0 D1 Sz Fex.
  intros Hi Hk (Me & Mh & _) Fi. apply lively_afoot in Fi. destruct (seen' i k q (m (i, k)) Hi Hk Fi (Me i k Hi Hk) (Mh i k Hi Hk)) as (e1 & b1 & E1 & B1).
  assert (X : exists e b, fields_at (dom_geo g R C s (i, k)) (m (i, k)) (ext_of i k) (pos_r (now q)) (pos_z (now q)) e b).
  { unfold fields_at, ext_of. destruct extern as [x|] eqn:Ex.
    - destruct (Fex x eq_refl) as (Xe & Xh & _). destruct (seen' i k q (x (i, k)) Hi Hk Fi (Xe i k Hi Hk) (Xh i k Hi Hk)) as (e2 & b2 & E2 & B2).
      do 2 eexists. exists e1, b1. split; [exact E1|]. split; [exact B1|]. exists e2, b2. split; [exact E2|]. split; [exact B2|]. split; reflexivity.
    - exists (vec e1), (vec b1), e1, b1. auto. }
  destruct X as (e & b & F). destruct Fi as (_ & Sl & _). apply (proj1 (slower_vel _ _)) in Sl.
  destruct (pushers_slow c mu pusher Hc Pu sid e b _ Sl) as (v & Ev & _). exists (mkPt (set_vel (now q) v) (old_r q) (old_z q)), e, b, v. auto.
Qed.
Lemma kick_fine' h y x i k sid q q' : fine sid i k q -> kicked pusher h y x sid q q' -> fine sid i k q'.
Proof using Hc Pu.
  intros (Be & Sl & Ho) (e & b & v & _ & E & ->). split; [exact Be|]. split; [|exact Ho]. apply (proj1 (slower_vel _ _)) in Sl.
  destruct (pushers_slow c mu pusher Hc Pu sid e b _ Sl) as (v' & Ev & Sv). unfold vel in Ev. rewrite E in Ev. injection Ev as <-. apply (proj2 (slower_vel _ _)). destruct v. exact Sv.
Qed.
Lemma hit_fine' i k d d' : impulse i k d d' -> each_one (fun sid => fine sid i k) d -> each_one (fun sid => fine sid i k) d'.
Proof using Im Is.
  intros Co Fi. assert (S0 : everywhere (slower c) d) by (apply every_in; intros t q Ht Hq; apply (Fi t q Ht Hq)).
  assert (S1 := Is _ _ _ _ Co S0). apply Im in Co. intros t' q' Ht Hq.
  destruct (each_in (fun _ => struck) d d' t' q' Co Ht Hq) as (t & q & It & Iq & Et & (v & Ev)). rewrite <- Et.
  destruct (Fi t q It Iq) as (Be & _ & Ho). assert (Sl := proj1 (every_in _ _) S1 t' q' Ht Hq).
  subst q'. split; [exact Be|]. split; [exact Sl|exact Ho].
Qed.
Lemma kicks_fine h y x i k d d' : each (kicked pusher h y x) d d' -> each_one (fun sid => fine sid i k) d -> each_one (fun sid => fine sid i k) d'.
Proof using Hc Pu.
  intros K F t' q' Ht Hq. destruct (each_in _ _ _ t' q' K Ht Hq) as (t & q & It & Iq & Et & Q). rewrite <- Et. exact (kick_fine' _ _ _ _ _ _ _ _ (F t q It Iq) Q).
Qed.
(** one domain *)
Lemma domain_moves' (Tot : total' beams c g R C s impulse) m i k d : 0 <= i < R -> 0 <= k < C -> sized R C s m -> each_one (fun sid => fine sid i k) d ->
  exists d', advance_domain pusher beams impulse (dom_geo g R C s (i, k)) (domain_geo a dr dz i k) (m (i, k)) (ext_of i k) i k d d'.
Proof using Hc Pu Im Is HR HC Hs Gr Gz GrL GzL D0 D1 Sz Courant Fex.
  intros Hi Hk Sm Fi.
  destruct (each_build (kicked pusher (dom_geo g R C s (i, k)) (m (i, k)) (ext_of i k)) d) as (d1 & K).
  { intros t q Ht Hq. apply kick'; auto. }
  assert (F1 := kicks_fine _ _ _ i k _ _ K Fi).
  destruct (Tot i k d1 Hi Hk F1) as (d2 & Co). assert (F2 := hit_fine' _ _ _ _ Co F1).
  destruct (each_build (flown beams (dom_geo g R C s (i, k)) (domain_geo a dr dz i k)) d2) as (d' & Fl).
  { intros t q Ht Hq. apply fly'; auto. }
  exists d', d1, d2. auto.
Qed.
Let landed (sid : Z) (q' : pt) : Prop := exists q i k, 0 <= i < R /\ 0 <= k < C /\ fine sid i k q /\ arrived sid q q'.
Lemma domain_moved' m i k d d' : 0 <= i < R -> 0 <= k < C -> each_one (fun sid => fine sid i k) d ->
  advance_domain pusher beams impulse (dom_geo g R C s (i, k)) (domain_geo a dr dz i k) (m (i, k)) (ext_of i k) i k d d' -> each_one landed d'.
Proof using Hc Pu Im Is HR HC Hs Gr Gz GrL GzL Sz Courant.
  intros Hi Hk Fi (d1 & d2 & K & Co & Fl).
  assert (F1 := kicks_fine _ _ _ i k _ _ K Fi). assert (F2 := hit_fine' _ _ _ _ Co F1). intros t' q' Ht Hq.
  destruct (each_in _ _ _ t' q' Fl Ht Hq) as (t & q & It & Iq & Et & Q). rewrite <- Et. assert (Fq := F2 t q It Iq).
  exists q, i, k. split; [exact Hi|]. split; [exact Hk|]. split; [exact Fq|]. exact (flew' i k _ q q' Hi Hk Fq Q).
Qed.
(** all particles of a round *)
Let after (sid i k : Z) (q : pt) : Prop := landed sid q /\
  i * s <= cell_number (pos_r (now q)) (g_dr g) < i * s + s /\ k * s <= cell_number (pos_z (now q)) (g_dz g) < k * s + s.
Lemma landed_near sid q : landed sid q -> -1 <= cell_number (pos_r (now q)) (g_dr g) <= g_nr g /\ -1 <= cell_number (pos_z (now q)) (g_dz g) <= g_nz g.
Proof using Sz Gr Gz Hs.
  intros (q0 & i & k & Hi & Hk & (_ & _ & Hr & Hz) & (_ & _ & Nr & Nz) & _). destruct Sz as (Hdr & Hdz & _).
  rewrite Rabs_minus_sym in Nr, Nz. pose proof (near_cells _ _ _ Hdr Nr) as NR. pose proof (near_cells _ _ _ Hdz Nz) as NZ. rewrite Gr, Gz. nia.
Qed.
Lemma landed_plasma sid q : beams sid = None -> landed sid q -> 0 <= cell_number (pos_r (now q)) (g_dr g) < g_nr g /\ 0 <= cell_number (pos_z (now q)) (g_dz g) < g_nz g.
Proof using Sz.
  intros B (q0 & i & k & _ & _ & _ & (_ & _ & _ & _ & _ & L)). rewrite B in L. destruct L as ((Br & Bz) & _). destruct Sz as (Hdr & Hdz & _).
  split; apply cell_number_range; auto; cbn [IZR]; lra.
Qed.
Lemma collected' ids st1 st' : ids_ok a ids st1 -> all_of R C (fun sid _ _ => landed sid) st1 -> collect pt (pt_cr dr) (pt_cz dz) a (code_order a) st1 = Ok st' ->
  ids_ok a ids st' /\ all_of R C after st' /\ forall sid, beams sid = None -> Permutation (particles_of a sid st') (particles_of a sid st1).
Proof using HR HC Hs Gr Gz GrL GzL Sz.
  intros I1 L1 E.
  destruct (C08_collector_conserves pt pt_eq_dec (pt_cr dr) (pt_cz dz) a ids st1 (area_good g R C s HR HC Hs Gr Gz GrL GzL) (pt_int g) I1) as (st2 & Ec & I' & P' & H').
  rewrite E in Ec. injection Ec as <-. split; [exact I'|]. split.
  2:{ intros sid B. rewrite P'. assert (X : forall l, (forall q, In q l -> alive (pt_cr dr) (pt_cz dz) a q = true) -> filter (alive (pt_cr dr) (pt_cz dz) a) l = l).
    { induction l as [|q l IH]; intros H; [reflexivity|]. cbn [filter]. rewrite (H q (or_introl eq_refl)), IH; auto. intros q' Hq'. apply H. now right. }
    rewrite X; [reflexivity|]. intros q Hq. apply In_particles in Hq as (i0 & k0 & t0 & Hi0 & Hk0 & Ht0 & Es & Hq0).
    assert (Lq := L1 i0 k0 Hi0 Hk0 t0 q Ht0 Hq0). cbv beta in Lq. rewrite Es in Lq.
    destruct (landed_plasma sid q B Lq) as [CR CZ]. fold dr in CR. fold dz in CZ.
    unfold alive, pt_cr, pt_cz, part_cr, part_cz. cbn [nr nz a].
    change (ParticleModel.cell_number (pos_r (now q)) dr) with (cell_number (pos_r (now q)) dr). change (ParticleModel.cell_number (pos_z (now q)) dz) with (cell_number (pos_z (now q)) dz).
    rewrite !s32_small by lia. lia. }
  intros i k Hi Hk [sid l] q Ht Hq. cbn [fst snd] in *.
  assert (X : In q (particles_of a sid st')) by (apply In_particles; exists i, k, (sid, l); cbn [rd_ zd_ a]; auto).
  apply (Permutation_in _ (P' sid)) in X. apply filter_In in X as [X _]. apply In_particles in X as (i0 & k0 & t0 & Hi0 & Hk0 & Ht0 & Es & Hq0).
  assert (Lq := L1 i0 k0 Hi0 Hk0 t0 q Ht0 Hq0). cbv beta in Lq. rewrite Es in Lq. split; [exact Lq|]. destruct (landed_near sid q Lq) as [CR CZ].
  apply (home_cells g R C s HR HC Hs Gr Gz GrL GzL i k q Hi Hk CR CZ). exact (H' i k sid l q Hi Hk Ht Hq).
Qed.
Let go := full_particles pusher beams extern impulse draw a dr dz dt (dom_geo g R C s).
Lemma ids_advance h G y x i k d d' : advance_domain pusher beams impulse h G y x i k d d' -> map fst d' = map fst d.
Proof using Im. intros A. exact (each_ids _ _ _ (advance_remembers _ _ _ Im _ _ _ _ _ _ _ _ A)). Qed.
Lemma particles_move' (Tot : total' beams c g R C s impulse) ids m t cnt st : sized R C s m -> ids_ok a ids st -> all_of R C fine st -> exists st', go m t cnt st st'.
Proof using Hc Pu Im Is HR HC Hs Gr Gz GrL GzL D0 D1 Sz Courant Fex Bf.
  intros Sm Io Ev0. set (st0 := inject_beams beams draw a dr dz dt t cnt st).
  assert (Ev : all_of R C fine st0) by now apply injected_fine. assert (I0 : ids_ok a ids st0) by now apply inject_ids.
  assert (Dm : forall i, 0 <= i < R -> exists f : Z -> domain pt, forall k, 0 <= k < C ->
     advance_domain pusher beams impulse (dom_geo g R C s (i, k)) (domain_geo a dr dz i k) (m (i, k)) (ext_of i k) i k (st0 i k) (f k)).
  { intros i Hi. apply (FieldMpi.choose_fun C (fun k d' => advance_domain pusher beams impulse (dom_geo g R C s (i, k)) (domain_geo a dr dz i k) (m (i, k)) (ext_of i k) i k (st0 i k) d') HC).
    intros k Hk. apply domain_moves'; auto. }
  destruct (FieldMpi.choose_fun R (fun i f => forall k, 0 <= k < C ->
     advance_domain pusher beams impulse (dom_geo g R C s (i, k)) (domain_geo a dr dz i k) (m (i, k)) (ext_of i k) i k (st0 i k) (f k)) HR Dm) as (F & HF).
  set (p1 := fun i k => if (0 <=? i) && (i <? R) && (0 <=? k) && (k <? C) then F i k else st0 i k).
  assert (A : forall i k, 0 <= i < R -> 0 <= k < C -> p1 i k = F i k).
  { intros i k Hi Hk. unfold p1. replace (_ && _ && _ && _) with true by lia. reflexivity. }
  assert (I1 : ids_ok a ids p1).
  { destruct I0 as [N I]. split; [exact N|]. intros i k Hi Hk. rewrite A by assumption. rewrite (ids_advance _ _ _ _ _ _ _ _ (HF i Hi k Hk)). now apply I. }
  destruct (C08_collector_conserves pt pt_eq_dec (pt_cr dr) (pt_cz dz) a ids p1 (area_good g R C s HR HC Hs Gr Gz GrL GzL) (pt_int g) I1) as (st' & Ec & _).
  exists st', p1. split; [|exact Ec]. fold st0. split.
  - intros i k Hi Hk. cbn [rd_ zd_ a] in Hi, Hk. rewrite A by assumption. exact (HF i Hi k Hk).
  - intros i k N. unfold p1. cbn [rd_ zd_ a] in N. replace (_ && _ && _ && _) with false by lia. reflexivity.
Qed.
Lemma particles_moved' ids m t cnt st st' : ids_ok a ids st -> all_of R C fine st -> go m t cnt st st' -> ids_ok a ids st' /\ all_of R C after st' /\
  forall sid, beams sid = None -> length (particles_of a sid st') = length (particles_of a sid st).
Proof using Hc Pu Im Is HR HC Hs Gr Gz GrL GzL Sz Courant Bf.
  intros Io Ev0 (p1 & [Ad _] & Ec). set (st0 := inject_beams beams draw a dr dz dt t cnt st) in *.
  assert (Ev : all_of R C fine st0) by now apply injected_fine. assert (I0 : ids_ok a ids st0) by now apply inject_ids.
  assert (Ln : forall sid, length (particles_of a sid st0) = length (particles_of a sid p1)).
  { intros sid. apply (same_length remembers). apply (stepped_species a (fun _ _ _ => remembers) (fun _ => remembers) st0 p1 sid); [auto|].
    intros i k Hi Hk. specialize (Ad i k Hi Hk). exact (advance_remembers _ _ _ Im _ _ _ _ _ _ _ _ Ad). }
  assert (Same : forall sid, beams sid = None -> particles_of a sid st0 = particles_of a sid st).
  { intros sid B. unfold particles_of, st0. apply flat_map_ext. intros [i k]. cbn [fst snd]. unfold inject_beams. generalize (st i k). induction d as [|[x l] d IH]; [reflexivity|].
    cbn [map flat_map fst snd]. rewrite IH. f_equal. destruct (Z.eqb_spec x sid) as [->|]; [|reflexivity]. unfold newcomers. rewrite B. now rewrite app_nil_r. }
  cut (ids_ok a ids st' /\ all_of R C after st' /\ forall sid, beams sid = None -> Permutation (particles_of a sid st') (particles_of a sid p1)).
  { intros (H1 & H2 & H3). split; [exact H1|]. split; [exact H2|]. intros sid B. rewrite <- (Same sid B), Ln. now apply Permutation_length, H3. }
  apply (collected' ids p1 st'); [| |exact Ec].
  - destruct I0 as [N I]. split; [exact N|]. intros i k Hi Hk. rewrite (ids_advance _ _ _ _ _ _ _ _ (Ad i k Hi Hk)). now apply I.
  - intros i k Hi Hk. specialize (Ad i k Hi Hk). exact (domain_moved' m i k _ _ Hi Hk (Ev i k Hi Hk) Ad).
Qed.
(** the currents *)
Lemma currents' st' j : all_of R C after st' -> all_fit R C s j ->
  exists j', smb_current dist g R C s (fun ik => movers charge dr dz (st' (fst ik) (snd ik))) j = Ok j' /\ all_fit R C s j'.
Proof using Di HR HC Hs Gr Gz GrL GzL D0 D1 Sz Courant extern ext_of.
  intros Ev Fj. assert (HsL : s + 4 < 2 ^ 32) by nia. unfold smb_current.
  destruct (each_dom_spec R C (fun p x => do a <- zero3 x; dist (dom_geo g R C s p) (movers charge dr dz (st' (fst p) (snd p))) a) j (fun p x => fits3 s s x)) as (j1 & E1 & Q1); [lia|lia| |].
  { intros i k Hi Hk. cbn [fst snd].
    assert (X : Forall (fun p => lands (dom_geo g R C s (i, k)) p /\ lands_from_near (dom_geo g R C s (i, k)) p) (movers charge dr dz (st' i k))).
    { apply Forall_forall. intros p Hp. unfold movers in Hp. apply in_flat_map in Hp as (t & Ht & Hp). apply in_map_iff in Hp as (q & <- & Hq).
      destruct (Ev i k Hi Hk t q Ht Hq) as (Lq & Hr & Hz). destruct (landed_near _ q Lq) as [CR CZ].
      destruct Lq as (q0 & _ & _ & _ & _ & _ & (_ & Br & Nr & Nz) & _ & O1 & O2 & P0 & _). destruct Sz as (Hdr & Hdz & _).
      pose proof (near_cells _ _ _ Hdr Nr) as NR. pose proof (near_cells _ _ _ Hdz Nz) as NZ.
      unfold lands, lands_from_near, ThmCurrent.bound, dom_geo. cbn [fst snd g_d0 g_d1 g_nr g_nz YeeModel.g_dr YeeModel.g_dz mover_of m_r m_z m_ro m_zo m_cr m_cz]. rewrite O1, O2.
      unfold pt_cr, pt_cz, part_cr, part_cz. fold dr dz in CR, CZ, Hr, Hz, NR, NZ |- *.
      change (ParticleModel.cell_number (pos_r (now q)) dr) with (cell_number (pos_r (now q)) dr). change (ParticleModel.cell_number (pos_z (now q)) dz) with (cell_number (pos_z (now q)) dz).
      rewrite !s32_small by lia. rewrite D0, D1. repeat split; try lia; lra. }
    destruct (Di (dom_geo g R C s (i, k)) (movers charge dr dz (st' i k)) (j (i, k)) Sz (Fj i k Hi Hk)) as (x & Ex & Fx).
    - revert X. apply Forall_impl. tauto.
    - revert X. apply Forall_impl. tauto.
    - exists x. split; [exact Ex|exact Fx]. }
  rewrite E1. cbn [bind]. destruct (stitch_sum R C s HR HC Hs HsL j1) as (j' & E2 & F2 & _); [exact Q1|]. eauto.
Qed.

Let round := full_round pusher charge dist mu0 beams extern impulse draw g R C s eps sg.
Lemma takes_place' (Tot : total' beams c g R C s impulse) ids u : living' beams c g R C s ids (u_w u) -> exists u', round u u'.
Proof using Hc Pu Im Is Di HR HC Hs Gr Gz GrL GzL D0 D1 Sz Courant Feps Fsg Fex Bf.
  intros (Sm & Fj & Io & Ev). assert (HsL : s + 4 < 2 ^ 32) by nia.
  destruct (fields_step mu0 g R C s eps sg (w_j (u_w u)) (w_f (u_w u)) HR HC Hs HsL Feps Fsg Fj Sm) as (m' & Em & Sm').
  destruct (particles_move' Tot ids m' (u_t u) (u_c u) (w_p (u_w u)) Sm' Io Ev) as (st' & Ep).
  destruct (particles_moved' ids m' (u_t u) (u_c u) _ st' Io Ev Ep) as (_ & Ev' & _). destruct (currents' st' (w_j (u_w u)) Ev' Fj) as (j' & Ej & _).
  exists (mkFull (mkWorld m' j' st') (S (u_t u)) (next_bunch beams a dr dt (u_t u) (u_c u))). unfold round, full_round. cbn [u_w u_t u_c w_f w_j w_p]. auto.
Qed.
Lemma took_place' ids u u' : living' beams c g R C s ids (u_w u) -> round u u' -> clear' beams g R C s (u_w u') -> living' beams c g R C s ids (u_w u').
Proof using Hc Pu Im Is Di HR HC Hs Gr Gz GrL GzL D0 D1 Sz Courant Feps Fsg Bf.
  intros (Sm & Fj & Io & Ev) (Em & Ep & Ej & _) Cl. assert (HsL : s + 4 < 2 ^ 32) by nia.
  destruct (fields_step mu0 g R C s eps sg (w_j (u_w u)) (w_f (u_w u)) HR HC Hs HsL Feps Fsg Fj Sm) as (m' & Em' & Sm'). rewrite Em in Em'. injection Em' as <-.
  destruct (particles_moved' ids _ (u_t u) (u_c u) _ _ Io Ev Ep) as (Io' & Ev' & _). destruct (currents' _ (w_j (u_w u)) Ev' Fj) as (j' & Ej' & Fj'). fold dr dz in Ej.
  rewrite Ej in Ej'. injection Ej' as <-. split; [exact Sm'|]. split; [exact Fj'|]. split; [exact Io'|].
  intros i k Hi Hk t q Ht Hq. destruct (Ev' i k Hi Hk t q Ht Hq) as ((q0 & i0 & k0 & _ & _ & _ & Ar) & Hr & Hz). destruct Ar as ((P0 & _) & Sl & _ & _ & _ & Be).
  split; [|split; [exact Sl|split; [exact Hr|exact Hz]]]. destruct (beams (fst t)) as [bn|] eqn:B; [split; [exact P0|exact Be]|]. apply Be, (Cl i k Hi Hk t q Ht Hq B).
Qed.
Lemma none_lost' ids u u' : living' beams c g R C s ids (u_w u) -> round u u' -> forall sid, beams sid = None -> length (particles_of a sid (w_p (u_w u'))) = length (particles_of a sid (w_p (u_w u))).
Proof using Hc Pu Im Is HR HC Hs Gr Gz GrL GzL Sz Courant Bf.
  intros (_ & _ & Io & Ev) (_ & Ep & _) sid. destruct (particles_moved' ids _ (u_t u) (u_c u) _ _ Io Ev Ep) as (_ & _ & Ln). apply Ln.
Qed.
End Takes.

(** ** C178 *)
(** Any fields, any number of particles, any number of beams: a round takes place; no particle is lost in it that is not of a beam; and after it, unless
    such a particle is exactly on a line between two domains, the state is again one from which a round takes place. *)
Theorem C178_round : forall c mu pusher beams impulse dist g R C s eps sg extern draw charge mu0 ids u, parts_fit c mu pusher impulse dist -> area_fits c g R C s eps sg extern ->
  beams_fit beams draw c g s -> total' beams c g R C s impulse -> living' beams c g R C s ids (u_w u) ->
  (exists u', full_round pusher charge dist mu0 beams extern impulse draw g R C s eps sg u u') /\
  forall u', full_round pusher charge dist mu0 beams extern impulse draw g R C s eps sg u u' ->
    (forall sid, beams sid = None -> length (particles_of {| nr := R * s; nz := C * s; rd_ := R; zd_ := C |} sid (w_p (u_w u'))) = length (particles_of {| nr := R * s; nz := C * s; rd_ := R; zd_ := C |} sid (w_p (u_w u)))) /\
    (clear' beams g R C s (u_w u') -> living' beams c g R C s ids (u_w u')).
Proof.
  intros c mu pusher beams impulse dist g R C s eps sg extern draw charge mu0 ids u (Hc & Pu & Im & Is & Di) ((HR & HC & Hs) & (Gr & Gz & GrL & GzL & D0 & D1) & Sz & Co & Fg & Fx) Bf Tot L.
  split; [|intros u' H; split].
  - eapply (takes_place' c mu) with (ids := ids); eauto using dist_defined; intros i k Hi Hk; apply (Fg i k Hi Hk).
  - eapply (none_lost' c mu); eauto.
  - eapply (took_place' c mu); eauto using dist_defined; intros i k Hi Hk; apply (Fg i k Hi Hk).
Qed.
(** Any number of rounds after each of which none of these particles is exactly on such a line: another round takes place, and none of them was lost. *)
Theorem C178_run : forall c mu pusher beams impulse dist g R C s eps sg extern draw charge mu0 ids n u u', parts_fit c mu pusher impulse dist -> area_fits c g R C s eps sg extern ->
  beams_fit beams draw c g s -> total' beams c g R C s impulse -> living' beams c g R C s ids (u_w u) ->
  rounds (fun x y => full_round pusher charge dist mu0 beams extern impulse draw g R C s eps sg x y /\ clear' beams g R C s (u_w y)) n u u' ->
  living' beams c g R C s ids (u_w u') /\ (exists u2, full_round pusher charge dist mu0 beams extern impulse draw g R C s eps sg u' u2) /\
  forall sid, beams sid = None -> length (particles_of {| nr := R * s; nz := C * s; rd_ := R; zd_ := C |} sid (w_p (u_w u'))) = length (particles_of {| nr := R * s; nz := C * s; rd_ := R; zd_ := C |} sid (w_p (u_w u))).
Proof.
  intros c mu pusher beams impulse dist g R C s eps sg extern draw charge mu0 ids n u u' Pf Af Bf Tot. revert u. induction n as [|n IH]; intros u L Run.
  - cbn in Run. subst u'. split; [exact L|]. split; [|reflexivity]. apply (C178_round c mu pusher beams impulse dist g R C s eps sg extern draw charge mu0 ids u Pf Af Bf Tot L).
  - destruct Run as (v & (Q & Cl) & Run). destruct (C178_round c mu pusher beams impulse dist g R C s eps sg extern draw charge mu0 ids u Pf Af Bf Tot L) as (_ & K).
    destruct (K v Q) as [Ln Lv]. destruct (IH v (Lv Cl) Run) as (A & B & E). split; [exact A|]. split; [exact B|]. intros sid N. now rewrite E, Ln.
Qed.
(** One domain, or particles of beams only: there are runs of any length. *)
Theorem C178_length : forall c mu pusher beams impulse dist g R C s eps sg extern draw charge mu0 ids n u, parts_fit c mu pusher impulse dist -> area_fits c g R C s eps sg extern ->
  beams_fit beams draw c g s -> total' beams c g R C s impulse -> living' beams c g R C s ids (u_w u) ->
  R = 1 /\ C = 1 \/ (forall sid, In sid ids -> beams sid <> None) ->
  (exists u', rounds (full_round pusher charge dist mu0 beams extern impulse draw g R C s eps sg) n u u') /\
  forall u', rounds (full_round pusher charge dist mu0 beams extern impulse draw g R C s eps sg) n u u' -> living' beams c g R C s ids (u_w u') /\
    forall sid, beams sid = None -> length (particles_of {| nr := R * s; nz := C * s; rd_ := R; zd_ := C |} sid (w_p (u_w u'))) = length (particles_of {| nr := R * s; nz := C * s; rd_ := R; zd_ := C |} sid (w_p (u_w u))).
Proof.
  intros c mu pusher beams impulse dist g R C s eps sg extern draw charge mu0 ids n u Pf Af Bf Tot L0 One. revert u L0.
  assert (Step : forall u, living' beams c g R C s ids (u_w u) -> (exists v, full_round pusher charge dist mu0 beams extern impulse draw g R C s eps sg u v) /\
     forall v, full_round pusher charge dist mu0 beams extern impulse draw g R C s eps sg u v -> living' beams c g R C s ids (u_w v) /\
      forall sid, beams sid = None -> length (particles_of {| nr := R * s; nz := C * s; rd_ := R; zd_ := C |} sid (w_p (u_w v))) = length (particles_of {| nr := R * s; nz := C * s; rd_ := R; zd_ := C |} sid (w_p (u_w u)))).
  { intros u L. destruct (C178_round c mu pusher beams impulse dist g R C s eps sg extern draw charge mu0 ids u Pf Af Bf Tot L) as (X & K). split; [exact X|].
    intros v Q. destruct (K v Q) as [Ln Lv]. split; [|exact Ln]. apply Lv. destruct One as [[-> ->]|B].
    - intros i k _ _ t q _ _ _. split; intros; lia.
    - destruct Pf as (Hc & Pu & Im & Is & Di). destruct Af as ((HR & HC & Hs) & (Gr & Gz & GrL & GzL & D0 & D1) & Sz & Co & _ & _). destruct L as (_ & _ & Io & Ev). destruct Q as (_ & Ep & _).
      destruct (particles_moved' c mu Hc pusher Pu beams extern impulse Im Is draw g R C s HR HC Hs Gr Gz GrL GzL Sz Co Bf ids _ _ _ _ _ Io Ev Ep) as ((_ & Io') & _).
      intros i k Hi Hk t q Ht _ N. exfalso. apply (B (fst t)); [|exact N]. rewrite <- (Io' i k Hi Hk). now apply in_map. }
  induction n as [|n IH]; intros u L.
  - split; [now exists u|]. intros u' Run. cbn in Run. subst u'. auto.
  - destruct (Step u L) as ((v & Q) & K). destruct (K v Q) as [Lv _].
    destruct (IH v Lv) as ((u' & Run) & _). split; [exists u', v; auto|]. clear v Q Lv u' Run. intros u' (v & Q & Run). destruct (K v Q) as [Lv Ln].
    destruct (IH v Lv) as (_ & K'). destruct (K' u' Run) as [A B]. split; [exact A|]. intros sid N. now rewrite B, Ln.
Qed.
(** Without beams this is C176. *)
Theorem C178_no_beams : forall c g R C s ids w, living' (fun _ => None) c g R C s ids w <-> living c g R C s ids w.
Proof.
  intros c g R C s ids w. unfold living', living, all_of, each_one, everybody, lively', lively. split; intros (A & B & E & F); (split; [exact A|]); (split; [exact B|]); (split; [exact E|]).
  - intros i k t q Hi Hk. exact (F i k Hi Hk t q).
  - intros i k Hi Hk t q. exact (F i k t q Hi Hk).
Qed.

(** ** a beam, electrons in front of it *)
Definition a_beam : beam := {| b_start := 0; b_length := 1; b_distance := 1; b_velocity := 1 / 2; b_radius := 3; b_bunches := 1; b_macro := 8 |}%R.
Definition wide_beam : beam := {| b_start := 0; b_length := 1; b_distance := 1; b_velocity := 1 / 2; b_radius := 4; b_bunches := 1; b_macro := 8 |}%R.
Definition one_beam (b : beam) (sid : Z) : option (beam * R) := if sid =? 5 then Some (b, 1%R) else None.
Definition draws (t : nat) (i k sid : Z) (m : nat) : R * R := (19 / 20, 1 / 3)%R.
Definition full_b : full := mkFull (mkWorld (fun _ => quiet4) (fun _ => sz3 4 0) (fun i k => if k =? 0 then [(0, []); (5, [])] else [(0, [neutral]); (5, [])])) 0 (fun _ _ _ => 0%nat).
Lemma comes b r : b_radius b = r -> (0 < r)%R -> b_start b = 0%R -> b_length b = 1%R -> b_velocity b = (1 / 2)%R -> b_bunches b = 1%nat -> b_macro b = 8%nat -> (r <= 4)%R ->
  In (new_particle b 1 (beam_dom {| nr := 1 * 4; nz := 2 * 4; rd_ := 1; zd_ := 2 |} 1 0 0) 1 (1 / 2) (draws 0 0 0 5 0))
     (newcomers (one_beam b) draws {| nr := 1 * 4; nz := 2 * 4; rd_ := 1; zd_ := 2 |} 1 1 (1 / 2) 0 (fun _ _ _ => 0%nat) 0 0 5) /\
  domain_radius b (beam_dom {| nr := 1 * 4; nz := 2 * 4; rd_ := 1; zd_ := 2 |} 1 0 0) = r.
Proof.
  intros E Hr S0 L V B M R4. set (D := beam_dom _ 1 0 0).
  assert (Db : d_bot D = 0) by reflexivity. assert (Dl : d_left D = 0) by reflexivity. assert (Dt : d_top D = 4) by reflexivity. assert (Dd : d_dr D = 1%R) by reflexivity.
  assert (Dr : domain_radius b D = r).
  { unfold domain_radius. rewrite Dl, Dt, Db, Dd, E. cbn [Z.ltb Z.compare]. unfold Rltb. destruct (Rlt_dec (4 * 1) r); [lra|]. destruct (Rlt_dec (0 * 1) r); lra. }
  split; [|exact Dr]. unfold newcomers, one_beam. cbn [Z.eqb Pos.eqb]. fold D. apply in_map_iff. exists 0%nat. split; [reflexivity|]. apply in_seq. split; [lia|]. cbn [plus].
  unfold manage_beam. rewrite Dl. cbn [Z.eqb]. unfold inject. rewrite B, Db, Dd, E. cbn [Nat.ltb Nat.leb fst].
  assert (T1 : Rltb (0 * 1) r = true) by (unfold Rltb; destruct (Rlt_dec (0 * 1) r); [reflexivity|lra]).
  assert (T2 : Rleb (bunch_start b 0) (INR 0 * (1 / 2)) = true) by (unfold Rleb, bunch_start; rewrite S0; cbn [INR]; destruct (Rle_dec _ _) as [|N]; [reflexivity|exfalso; apply N; lra]).
  assert (T3 : Rltb (INR 0 * (1 / 2)) (bunch_finish b 0) = true) by (unfold Rltb, bunch_finish, bunch_start; rewrite S0, L, V; cbn [INR]; destruct (Rlt_dec _ _) as [|N]; [reflexivity|exfalso; apply N; lra]).
  rewrite T1, T2, T3. cbn [andb].
  assert (P : (0 < macro_per_step b D (1 / 2))%R).
  { unfold macro_per_step, bunch_macro_amount. rewrite Dr, E, L, V, B, M. replace (r / r)%R with 1%R by (field; lra). change (8 / 1)%nat with 8%nat. cbn [INR]. lra. }
  destruct (ThmBeam.loop_count_pos _ P) as [Np _]. lia.
Qed.
(** A beam that fits into the domains at the axis but not with half a cell to spare: a particle starts outside of its domain, here outside of the area. *)
Theorem C178_wide_refuted : (b_radius wide_beam <= IZR 4 * g_dr geoh)%R /\
  exists q, In q (newcomers (one_beam wide_beam) draws {| nr := 1 * 4; nz := 2 * 4; rd_ := 1; zd_ := 2 |} (g_dr geoh) (g_dz geoh) (g_dt geoh) 0 (fun _ _ _ => 0%nat) 0 0 5) /\
  (IZR (g_nr geoh) * g_dr geoh < pos_r (now q))%R /\ ~ lively' (one_beam wide_beam) 1 geoh 4 5 0 0 q.
Proof.
  split; [cbn; lra|]. cbn [geoh YeeModel.g_dr YeeModel.g_dz YeeModel.g_dt g_nr].
  destruct (comes wide_beam 4 eq_refl ltac:(lra) eq_refl eq_refl eq_refl eq_refl eq_refl ltac:(lra)) as [I Dr]. eexists. split; [exact I|].
  set (q := new_particle _ _ _ _ _ _). assert (Pr : pos_r (now q) = (4 * (19 / 20) + 1 / 2)%R).
  { unfold q, new_particle, injected_particle. cbn [draws now pos_r]. rewrite Dr. change (d_bot _) with 0. change (d_dr _) with 1%R. unfold draws. cbn [fst]. lra. }
  clearbody q. split; [rewrite Pr; lra|]. intros (_ & _ & Hr & _). rewrite Pr in Hr. cbn [geoh YeeModel.g_dr] in Hr. rewrite (cell_number_is _ 1 4) in Hr by lra. lia.
Qed.
Example C178_ex : (forall dist, dist = zigzag_distribution \/ dist = vb_distribution -> parts_fit 1 1 mixed no_collisions dist) /\
  area_fits 1 geoh 1 2 4 (fun _ => sz 4 1) (fun _ => sz 4 0) (Some (fun _ => quiet4)) /\ beams_fit (one_beam a_beam) draws 1 geoh 4 /\
  total' (one_beam a_beam) 1 geoh 1 2 4 no_collisions /\ living' (one_beam a_beam) 1 geoh 1 2 4 [0; 5] (u_w full_b) /\ clear' (one_beam a_beam) geoh 1 2 4 (u_w full_b) /\
  newcomers (one_beam a_beam) draws {| nr := 1 * 4; nz := 2 * 4; rd_ := 1; zd_ := 2 |} 1 1 (1 / 2) 0 (fun _ _ _ => 0%nat) 0 0 5 <> [] /\
  (exists q, lively' (one_beam a_beam) 1 geoh 4 5 0 1 q /\ ~ between geoh (now q)).
Proof.
  destruct (ex_fits zigzag_distribution (or_introl eq_refl)) as (_ & Af & _ & L). split; [intros dist Di; apply (ex_fits dist Di)|]. split; [exact Af|]. split; [|split; [|split; [|split; [|split]]]].
  - split; [|intros; cbn; lra]. intros sid b n E. unfold one_beam in E. destruct (sid =? 5); [|discriminate]. injection E as <- <-. cbn. lra.
  - intros i k d _ _ _. now exists d.
  - cbn [u_w full_b]. split; [split; [|split]; intros i k _ _; apply sz3_fits|]. split; [intros i k _ _; apply sz3_fits|]. split.
    + split; [repeat constructor; cbn; lia|]. intros i k _ _. cbn [w_p]. destruct (k =? 0); reflexivity.
    + intros i k Hi Hk t q Ht Hq. cbn [w_p] in Ht. replace i with 0 by lia. destruct (Z.eqb_spec k 0) as [->|N].
      * destruct Ht as [<-|[<-|[]]]; destruct Hq.
      * replace k with 1 by lia. destruct Ht as [<-|[<-|[]]]; [|destruct Hq]. destruct Hq as [<-|[]]. unfold lively', between, slower. cbn [fst one_beam Z.eqb now neutral pt_at pos_r pos_z pos_phi vel_r vel_phi vel_z geoh YeeModel.g_dr YeeModel.g_dz g_nr g_nz].
        rewrite (cell_number_is (3 / 5) 1 0) by lra. rewrite (cell_number_is (17 / 4) 1 4) by lra. repeat split; try lra; lia.
  - intros i k Hi Hk t q Ht Hq _. split; intros n Hn; [lia|]. replace n with 1 by lia. cbn [w_p u_w full_b] in Ht. destruct (k =? 0).
    + destruct Ht as [<-|[<-|[]]]; destruct Hq.
    + destruct Ht as [<-|[<-|[]]]; [|destruct Hq]. destruct Hq as [<-|[]]. cbn. lra.
  - destruct (comes a_beam 3 eq_refl ltac:(lra) eq_refl eq_refl eq_refl eq_refl eq_refl ltac:(lra)) as [I _]. intros E. rewrite E in I. destruct I.
  - exists (pt_at 1 (31 / 4) 0 0 (1 / 2)). unfold lively', between, afoot, slower. cbn [one_beam Z.eqb Pos.eqb now pt_at pos_r pos_z pos_phi vel_r vel_phi vel_z geoh YeeModel.g_dr YeeModel.g_dz g_nr g_nz].
    rewrite (cell_number_is 1 1 1) by lra. rewrite (cell_number_is (31 / 4) 1 7) by lra. split; [repeat split; try lra; lia|]. intros (_ & _ & Bz). lra.
Qed.
Print Assumptions C178_round.
Print Assumptions C178_run.
Print Assumptions C178_length.
Print Assumptions C178_no_beams.
Print Assumptions C178_wide_refuted.
