(** C159: the particles of a whole round with beams, collisions and external fields. *)
From Coq Require Import ZifyBool Reals Lra Psatz Permutation.
From Verif Require Import Base RndUtil DecompModel DecompProofs CollectorModel CollectorProofs ListUtil PushModel ParticleModel ParticleProofs StepModel
  ThmParticle ThmInit ThmDecomp ThmStep ThmFlight GridModel GridProofs OverlayModel YeeModel YeeProofs ThmYee ExtModel ThmExt CurrentModel CurrentProofs ThmCurrent ThmCurrent2
  CavityProofs ThmEnergy ThmGauss YeeSmb ThmYeeSmb SmbCorner SmbCurrent ThmDivide ThmGaussSmb BeamModel RoundModel RoundProofs ThmRound ThmRoundGauss FullModel.
Open Scope Z_scope.

(** ** specification *)
(** with another velocity *)
Definition struck (q q' : pt) : Prop := exists v, q' = mkPt (hurled q v) (old_r q) (old_z q).
(** collisions: every particle keeps its place, its species and its weight *)
Definition velocities_only (impulse : Z -> Z -> domain pt -> domain pt -> Prop) : Prop :=
  forall i k d d', impulse i k d d' -> Forall2 (fun s s' => fst s = fst s' /\ Forall2 struck (snd s) (snd s')) d d'.
(** a particle after a round: it remembers where it was; its weight is the same *)
Definition remembers (q q' : pt) : Prop := weight (now q') = weight (now q) /\ old_r q' = pos_r (now q) /\ old_z q' = pos_z (now q).
(** the particle is in one of the cells of the area *)
Definition in_area (a : area) (dr dz : R) (q : pt) : bool :=
  let i := s32 (cell_number (pos_r (now q)) dr) in let k := s32 (cell_number (pos_z (now q)) dz) in (0 <=? i) && (i <? nr a) && (0 <=? k) && (k <? nz a).
(** what one beam adds to one domain in the round at time t: as many particles as [manage_beam] says (see C22-C24, C143, C144), each at one of the
    places of [injected_particle] with the weight of [injected_weight], flying along the axis with the velocity of the beam *)
Definition enters (b : beam) (n : R) (d : bdom) (dz dt : R) (q : pt) : Prop :=
  exists u v i k, injected_particle b d dz dt u v = (pos_r (now q), pos_z (now q), i, k) /\ weight (now q) = injected_weight b d n dz (pos_r (now q)) /\
    pos_phi (now q) = 0%R /\ vel_r (now q) = 0%R /\ vel_phi (now q) = 0%R /\ vel_z (now q) = b_velocity b.
Definition entered (beams : Z -> option (beam * R)) (a : area) (dr dz dt : R) (t : nat) (c : Z -> Z -> Z -> nat) (sid i k : Z) (l : list pt) : Prop :=
  match beams sid with
  | None => l = []
  | Some (b, n) => length l = fst (manage_beam b (beam_dom a dr i k) dt (INR t * dt) (c i k sid)) /\ Forall (enters b n (beam_dom a dr i k) dz dt) l
  end.

(** ** lists *)
Lemma f2_impl {A B} (P Q : A -> B -> Prop) l m : (forall x y, P x y -> Q x y) -> Forall2 P l m -> Forall2 Q l m.
Proof. intros H. induction 1; constructor; auto. Qed.
Lemma forall2_comp {A B D} (P : A -> B -> Prop) (Q : B -> D -> Prop) l m n : Forall2 P l m -> Forall2 Q m n -> Forall2 (fun x z => exists y, P x y /\ Q y z) l n.
Proof. intros F. revert n. induction F as [|x y l m Hx F IH]; intros n G; inversion G; subst; constructor; eauto. Qed.
Lemma each_comp (P Q : Z -> pt -> pt -> Prop) d d1 d2 : each P d d1 -> each Q d1 d2 -> each (fun sid q q2 => exists q1, P sid q q1 /\ Q sid q1 q2) d d2.
Proof.
  intros F G. eapply f2_impl; [|exact (forall2_comp _ _ _ _ _ F G)]. intros s s2 (s1 & [E F1] & [E1 G1]). split; [congruence|]. rewrite <- E in G1.
  exact (forall2_comp _ _ _ _ _ F1 G1).
Qed.
Lemma each_impl (P Q : Z -> pt -> pt -> Prop) d d' : (forall sid q q', P sid q q' -> Q sid q q') -> each P d d' -> each Q d d'.
Proof. intros H F. eapply f2_impl; [|exact F]. intros s s' [E G]. split; [exact E|]. eapply f2_impl; [|exact G]. intros; now apply H. Qed.
Lemma each_ids P d d' : each P d d' -> map fst d' = map fst d.
Proof. induction 1 as [|s s' d d' [E _] _ IH]; [reflexivity|]. cbn [map]. now rewrite E, IH. Qed.
Lemma flat_absent {A} (d : list (Z * list A)) sid : ~ In sid (map fst d) -> flat_map (fun s => if fst s =? sid then snd s else []) d = [].
Proof. induction d as [|t d IH]; intros N; [reflexivity|]. cbn in *. replace (fst t =? sid) with false by lia. apply IH. tauto. Qed.
Lemma inject_domain {A} (d : list (Z * list A)) (f : Z -> list A) sid : NoDup (map fst d) ->
  flat_map (fun s => if fst s =? sid then snd s else []) (map (fun s => (fst s, snd s ++ f (fst s))) d) =
  flat_map (fun s => if fst s =? sid then snd s else []) d ++ (if in_dec Z.eq_dec sid (map fst d) then f sid else []).
Proof.
  induction d as [|s d IH]; intros N; [reflexivity|]. cbn [map flat_map fst snd] in *. inversion N as [|x l N1 N2]; subst. specialize (IH N2).
  destruct (fst s =? sid) eqn:E.
  - assert (fst s = sid) by lia. subst sid. clear IH. rewrite !flat_absent; [|exact N1|now rewrite map_map; cbn [fst]].
    rewrite !app_nil_r. destruct (in_dec _ _ _) as [I|I]; [reflexivity|]. exfalso. apply I. now left.
  - rewrite IH. cbn [app]. f_equal. destruct (in_dec Z.eq_dec sid (map fst d)) as [I|I], (in_dec Z.eq_dec sid (fst s :: map fst d)) as [J|J]; try reflexivity.
    + exfalso. apply J. now right.
    + destruct J as [J|J]; [lia|contradiction].
Qed.
Lemma inject_species a dr dz dt beams draw t c ids st sid : ids_ok a ids st ->
  Permutation (particles_of a sid (inject_beams beams draw a dr dz dt t c st))
    (particles_of a sid st ++ (if in_dec Z.eq_dec sid ids then flat_map (fun ik => newcomers beams draw a dr dz dt t c (fst ik) (snd ik) sid) (pairs (rd_ a) (zd_ a)) else [])).
Proof.
  intros [N I]. unfold particles_of.
  assert (E : flat_map (fun ij => flat_map (fun s => if fst s =? sid then snd s else []) (inject_beams beams draw a dr dz dt t c st (fst ij) (snd ij))) (pairs (rd_ a) (zd_ a)) =
    flat_map (fun ij => flat_map (fun s => if fst s =? sid then snd s else []) (st (fst ij) (snd ij)) ++ (if in_dec Z.eq_dec sid ids then newcomers beams draw a dr dz dt t c (fst ij) (snd ij) sid else [])) (pairs (rd_ a) (zd_ a))).
  { assert (A : forall ij, In ij (pairs (rd_ a) (zd_ a)) -> 0 <= fst ij < rd_ a /\ 0 <= snd ij < zd_ a) by (intros [i k] H; now apply In_pairs in H).
    induction (pairs (rd_ a) (zd_ a)) as [|ij l IH]; [reflexivity|]. cbn [flat_map]. rewrite IH by (intros; apply A; now right). f_equal.
    destruct (A ij (or_introl eq_refl)) as [Hi Hk]. unfold inject_beams. rewrite inject_domain; rewrite (I _ _ Hi Hk); [reflexivity|exact N]. }
  rewrite E, <- perm_flat_app. apply Permutation_app_head. destruct (in_dec _ _ _); [reflexivity|].
  clear. induction (pairs (rd_ a) (zd_ a)); [constructor|assumption].
Qed.
Lemma inject_ids a dr dz dt beams draw t c ids st : ids_ok a ids st -> ids_ok a ids (inject_beams beams draw a dr dz dt t c st).
Proof. intros [N I]. split; [exact N|]. intros i j Hi Hj. unfold inject_beams. rewrite map_map. cbn [fst]. now apply I. Qed.
Lemma newcomers_enter beams draw a dr dz dt t c sid i k : entered beams a dr dz dt t c sid i k (newcomers beams draw a dr dz dt t c i k sid).
Proof.
  unfold entered, newcomers. destruct (beams sid) as [[b n]|]; [|reflexivity]. split; [now rewrite map_length, seq_length|].
  apply Forall_forall. intros q Hq. apply in_map_iff in Hq as (m & <- & _). unfold new_particle, enters.
  destruct (draw t i k sid m) as [u v]. cbn [fst snd]. destruct (injected_particle b (beam_dom a dr i k) dz dt u v) as [[[r z] ci] ck] eqn:E.
  exists u, v, ci, ck. cbn [now pos_r pos_z pos_phi vel_r vel_phi vel_z weight]. repeat split; auto.
Qed.

Section Area.
Variable pusher : Z -> v3 -> v3 -> v3 -> outcome v3.
Variable beams : Z -> option (beam * R).
Variable extern : option (doms yee).
Variable impulse : Z -> Z -> domain pt -> domain pt -> Prop.
Variable draw : nat -> Z -> Z -> Z -> nat -> R * R.
Hypothesis Im : velocities_only impulse.

Lemma flown_remembers h G sid q q' : flown beams h G sid q q' -> remembers q q'.
Proof using.
  intros (M & O1 & O2). split; [|auto]. destruct (beams sid) as [bn|].
  - rewrite M. unfold back_velocity, beam_reflect, back_position, ParticleModel.mover. cbn [weight]. destruct (Rltb _ _ && _); reflexivity.
  - exact (advanced_weight _ _ _ _ M).
Qed.
Lemma advance_remembers h G y x i k d d' : advance_domain pusher beams impulse h G y x i k d d' -> each (fun _ => remembers) d d'.
Proof using Im.
  intros (d1 & d2 & K & S & F). apply Im in S.
  assert (A := each_comp _ (fun _ => struck) _ _ _ K S). assert (B := each_comp _ _ _ _ _ A F).
  eapply each_impl; [|exact B]. cbv beta. intros sid q q' (q2 & (q1 & (e & b & v & _ & _ & ->) & (v' & ->)) & Fl).
  destruct (flown_remembers _ _ _ _ _ Fl) as (W & O1 & O2). split; [exact W|]. split; [exact O1|exact O2].
Qed.
(** Any area, any fields: every particle of a species is there after the round, with the ones that its beams added, or has left the area. *)
Theorem C159_account : forall a ids dr dz dt hs m t c st st', good_area a -> ids_ok a ids st ->
  full_particles pusher beams extern impulse draw a dr dz dt hs m t c st st' ->
  ids_ok a ids st' /\ forall sid, In sid ids -> exists (new : Z * Z -> list pt) l0 l,
    (forall i k, 0 <= i < rd_ a -> 0 <= k < zd_ a -> entered beams a dr dz dt t c sid i k (new (i, k))) /\
    Permutation l0 (particles_of a sid st ++ flat_map new (pairs (rd_ a) (zd_ a))) /\
    Forall2 remembers l0 l /\ Permutation (particles_of a sid st') (filter (in_area a dr dz) l).
Proof using Im.
  intros a ids dr dz dt hs m t c st st' HA Io (p1 & [Ad _] & Ec).
  set (st0 := inject_beams beams draw a dr dz dt t c st) in *.
  assert (I0 : ids_ok a ids st0) by now apply inject_ids.
  assert (Ev : forall i k, 0 <= i < rd_ a -> 0 <= k < zd_ a -> each (fun _ => remembers) (st0 i k) (p1 i k)).
  { intros i k Hi Hk. exact (advance_remembers _ _ _ _ _ _ _ _ (Ad i k Hi Hk)). }
  assert (I1 : ids_ok a ids p1).
  { destruct I0 as [N I]. split; [exact N|]. intros i k Hi Hk. rewrite (each_ids _ _ _ (Ev i k Hi Hk)). now apply I. }
  assert (In32 : forall q, int_cells (pt_cr dr) (pt_cz dz) q).
  { intros q. exact (int_cells_part dr dz (now q)). }
  destruct (C08_collector_conserves pt pt_eq_dec (pt_cr dr) (pt_cz dz) a ids p1 HA In32 I1) as (st2 & Ec' & I' & P' & _).
  rewrite Ec in Ec'. injection Ec' as <-. split; [exact I'|]. intros sid Hs.
  exists (fun ik => newcomers beams draw a dr dz dt t c (fst ik) (snd ik) sid), (particles_of a sid st0), (particles_of a sid p1).
  split; [intros i k _ _; apply newcomers_enter|]. split.
  { assert (X := inject_species a dr dz dt beams draw t c ids st sid Io). destruct (in_dec _ _ _); [exact X|contradiction]. }
  split; [apply (stepped_species a (fun _ _ _ => remembers) (fun _ => remembers)); auto|]. exact (P' sid).
Qed.
End Area.

(** ** one domain, without collisions: the flight of every particle *)
(** the fields at a place: those of the solver and the external ones *)
Definition seen (g : YeeModel.geo) (y : yee) (x : option yee) (r z : R) (e b : v3) : Prop :=
  exists er ep ez br bp bz er' ep' ez' br' bp' bz', get_field_e g (y_e y) r z = Ok (er, ep, ez) /\ get_field_h g (y_h y) r z = Ok (br, bp, bz) /\
    match x with
    | Some x => get_field_e g (y_e x) r z = Ok (er', ep', ez') /\ get_field_h g (y_h x) r z = Ok (br', bp', bz')
    | None => er' = 0%R /\ ep' = 0%R /\ ez' = 0%R /\ br' = 0%R /\ bp' = 0%R /\ bz' = 0%R
    end /\ e = V3 (er + er') (ep + ep') (ez + ez') /\ b = V3 (br + br') (bp + bp') (bz + bz').
(** a particle of a beam: uniform motion, turn back to the plane, mirror at half a cell from the axis only *)
Definition beam_flight (g : YeeModel.geo) (p : part) : part :=
  let x := (pos_r p + vel_r p * g_dt g)%R in let y := (vel_phi p * g_dt g)%R in
  let r := sqrt (x * x + y * y) in let s := (y / r)%R in let c := sqrt (1 - s * s) in
  let near := Rlt_dec r (g_dr g / 2) in
  let v := (if near then - vel_r p else vel_r p)%R in
  {| pos_r := (if near then g_dr g - r else r)%R; pos_phi := 0; pos_z := (pos_z p + vel_z p * g_dt g)%R;
     vel_r := (c * v - s * vel_phi p)%R; vel_phi := (s * v + c * vel_phi p)%R; vel_z := vel_z p; p_sin := s; weight := weight p |}.
Definition flies (pusher : Z -> v3 -> v3 -> v3 -> outcome v3) (beams : Z -> option (beam * R)) (g : YeeModel.geo) (y : yee) (x : option yee) (sid : Z) (q q' : pt) : Prop :=
  exists e b v, seen g y x (pos_r (now q)) (pos_z (now q)) e b /\ pusher sid e b (V3 (vel_r (now q)) (vel_phi (now q)) (vel_z (now q))) = Ok v /\
    old_r q' = pos_r (now q) /\ old_z q' = pos_z (now q) /\
    match beams sid with
    | Some _ => pos_phi (now q) = 0%R -> now q' = beam_flight g (hurled q v)
    | None => gentle g (hurled q v) -> now q' = flight (g_nr g) (g_nz g) (g_dr g) (g_dz g) (g_dt g) (hurled q v) /\
        0 <= cell_number (pos_r (now q')) (g_dr g) < g_nr g /\ 0 <= cell_number (pos_z (now q')) (g_dz g) < g_nz g
    end.

Lemma fields_seen g y x r z e b : fields_at g y x r z e b -> seen g y x r z e b.
Proof.
  intros ([[er ep] ez] & [[br bp] bz] & Ee & Eb & H). destruct x as [x|].
  - destruct H as ([[er' ep'] ez'] & [[br' bp'] bz'] & Ee' & Eb' & -> & ->). exists er, ep, ez, br, bp, bz, er', ep', ez', br', bp', bz'. repeat split; auto.
  - destruct H as [-> ->]. exists er, ep, ez, br, bp, bz, 0%R, 0%R, 0%R, 0%R, 0%R, 0%R. cbn [vec]. rewrite !Rplus_0_r. repeat split; auto.
Qed.
Lemma beam_flies g a q v : g_bot a = 0 -> w_r0 a = true -> ParticleModel.g_dr a = g_dr g -> pos_phi (now q) = 0%R ->
  back_velocity (beam_reflect a (back_position (ParticleModel.mover (g_dt g) (hurled q v)))) = beam_flight g (hurled q v).
Proof.
  intros B W D P. unfold back_velocity, beam_reflect, back_position, ParticleModel.mover, beam_flight, hurled, half_dr. rewrite B, W, D.
  cbn [pos_r pos_phi pos_z vel_r vel_phi vel_z p_sin weight]. rewrite P, Rmult_0_l, Rminus_0_r, !Rplus_0_l, Bool.andb_true_r.
  set (r := sqrt _). unfold Rltb. destruct (Rlt_dec r (g_dr g / 2)); cbn [pos_r pos_phi pos_z vel_r vel_phi vel_z p_sin weight]; rewrite ?Rplus_0_r; reflexivity.
Qed.

Section One.
Variable pusher : Z -> v3 -> v3 -> v3 -> outcome v3.
Variable charge : Z -> R.
Variable mu : R.
Variable beams : Z -> option (beam * R).
Variable extern : option (doms yee).
Variable impulse : Z -> Z -> domain pt -> domain pt -> Prop.
Variable draw : nat -> Z -> Z -> Z -> nat -> R * R.
Variable g : YeeModel.geo.
Hypothesis Nr : 4 <= g_nr g < 2 ^ 31.
Hypothesis Nz : 4 <= g_nz g < 2 ^ 31.
Hypothesis D1 : g_d1 g = 0.
Hypothesis Hdr : (0 < g_dr g)%R.
Hypothesis Hdz : (0 < g_dz g)%R.
Variables Eps Sg : grid R.
Let a1 := {| nr := g_nr g; nz := g_nz g; rd_ := 1; zd_ := 1 |}.
Let dr := g_dr g.
Let dz := g_dz g.
Let dt := g_dt g.

Lemma flown_flies y x sid q q1 q' : kicked pusher g y x sid q q1 -> flown beams g (domain_geo a1 dr dz 0 0) sid q1 q' -> flies pusher beams g y x sid q q'.
Proof using Nr Nz Hdr Hdz.
  intros (e & b & v & Fa & Ev & ->) (M & O1 & O2). exists e, b, v. split; [now apply fields_seen|]. split; [exact Ev|].
  cbn [now set_vel pos_r pos_z] in O1, O2. split; [exact O1|]. split; [exact O2|]. destruct (beams sid) as [bn|].
  - intros P0. rewrite M. apply (beam_flies g (domain_geo a1 dr dz 0 0) q v); auto. cbn [domain_geo g_bot]. apply bound_one. cbn [nr a1]. lia.
  - intros Ge. destruct Fa as (e1 & b1 & Ee & Eb & _).
    assert (S : step_particle (fun _ _ _ _ => Ok v) g (domain_geo a1 dr dz 0 0) y sid q q') by (exists e1, b1, v; repeat split; auto).
    assert (Ge' : forall w, new_velocity (fun _ _ _ _ => Ok v) g y sid q w -> gentle g (hurled q w)) by (intros w (e2 & b2 & _ & _ & [= <-]); exact Ge).
    destruct (step_carried (fun _ _ _ _ => Ok v) g Nr Nz Hdr Hdz y sid q q' Ge' S) as ((w & (e2 & b2 & _ & _ & [= <-]) & E & _) & _ & _ & _ & C1 & C2). auto.
Qed.
(** The area of one domain, no collisions: where every particle flies, and that the particles of the plasma stay. *)
Theorem C159_flight : forall y t c ids st st', ids_ok a1 ids st ->
  full_particles pusher beams extern (fun _ _ d d' => d' = d) draw a1 dr dz dt (fun _ => g) (fun _ => y) t c st st' ->
  forall sid, In sid ids -> exists new l0 l, entered beams a1 dr dz dt t c sid 0 0 new /\
    Permutation l0 (particles_of a1 sid st ++ new) /\
    Forall2 (flies pusher beams g y (match extern with None => None | Some x => Some (x (0, 0)) end) sid) l0 l /\
    Permutation (particles_of a1 sid st') (filter (in_area a1 dr dz) l).
Proof using Nr Nz Hdr Hdz.
  intros y t c ids st st' Io (p1 & [Ad _] & Ec) sid Hs.
  assert (Vo : velocities_only (fun _ _ d d' => d' = d)).
  { intros _ _ d d' ->. induction d as [|s d IH]; constructor; [|exact IH]. split; [reflexivity|]. clear. induction (snd s) as [|q l IH]; constructor; [|exact IH].
    exists (V3 (vel_r (now q)) (vel_phi (now q)) (vel_z (now q))). destruct q as [[? ? ? ? ? ? ? ?] ? ?]. reflexivity. }
  set (st0 := inject_beams beams draw a1 dr dz dt t c st) in *.
  assert (I0 : ids_ok a1 ids st0) by now apply inject_ids.
  set (x := match extern with None => None | Some x => Some (x (0, 0)) end) in *.
  assert (A0 := Ad 0 0 ltac:(cbn; lia) ltac:(cbn; lia)). cbv beta in A0. fold x in A0.
  assert (Ev : each (flies pusher beams g y x) (st0 0 0) (p1 0 0)).
  { destruct A0 as (d1 & d2 & K & -> & F). eapply each_impl; [|exact (each_comp _ _ _ _ _ K F)]. cbv beta. intros s q q' (q1 & K1 & F1). exact (flown_flies _ _ _ _ _ _ K1 F1). }
  assert (I1 : ids_ok a1 ids p1).
  { destruct I0 as [N I]. split; [exact N|]. intros i k Hi Hk. cbn [rd_ zd_ a1] in Hi, Hk. replace i with 0 by lia. replace k with 0 by lia.
    rewrite (each_ids _ _ _ Ev). apply I; cbn; lia. }
  destruct (C08_collector_conserves pt pt_eq_dec (pt_cr dr) (pt_cz dz) a1 ids p1 (one_good g Nr Nz) (pt_int g) I1) as (st2 & Ec' & I' & P' & _).
  rewrite Ec in Ec'. injection Ec' as <-.
  exists (newcomers beams draw a1 dr dz dt t c 0 0 sid), (particles_of a1 sid st0), (particles_of a1 sid p1).
  split; [apply newcomers_enter|]. split.
  { assert (X := inject_species a1 dr dz dt beams draw t c ids st sid Io). destruct (in_dec _ _ _); [|contradiction].
    change (pairs (rd_ a1) (zd_ a1)) with [(0, 0)] in X. cbn [flat_map fst snd] in X. now rewrite app_nil_r in X. }
  split; [|exact (P' sid)]. apply (stepped_species a1 (fun _ _ => flies pusher beams g y x) (flies pusher beams g y x)); [auto|].
  intros i k Hi Hk. cbn [rd_ zd_ a1] in Hi, Hk. replace i with 0 by lia. replace k with 0 by lia. exact Ev.
Qed.
(** Which particles remain: those inside the area (as far as the numbers of cells fit [int]). *)
Theorem C159_remain : forall q, - 2 ^ 31 <= cell_number (pos_r (now q)) dr < 2 ^ 31 -> - 2 ^ 31 <= cell_number (pos_z (now q)) dz < 2 ^ 31 ->
  (in_area a1 dr dz q = true <-> (0 <= pos_r (now q) < IZR (g_nr g) * dr)%R /\ (0 <= pos_z (now q) < IZR (g_nz g) * dz)%R).
Proof using Hdr Hdz.
  intros q Ir Iz. unfold in_area. rewrite !s32_small by lia. cbn [nr nz a1].
  assert (X : forall v d N, (0 < d)%R -> 0 <= cell_number v d < N <-> (0 <= v < IZR N * d)%R).
  { clear. intros v d N Hd. split.
    - intros [L H]. pose proof (cell_number_bounds v d Hd) as [A B]. assert (0 <= IZR (cell_number v d))%R by (apply IZR_le; lia).
      assert (IZR (cell_number v d) + 1 <= IZR N)%R by (rewrite <- plus_IZR; apply IZR_le; lia). nra.
    - intros H. apply cell_number_range; [exact Hd|]. lra. }
  assert (A := X (pos_r (now q)) dr (g_nr g) Hdr). assert (B := X (pos_z (now q)) dz (g_nz g) Hdz). rewrite <- A, <- B. lia.
Qed.
End One.

(** ** runs of an area of R x C domains *)
(** how many particles the beam of species [sid] has brought in in the rounds j, j + 1, ..., j + n - 1 (see C22) *)
Definition brought (beams : Z -> option (beam * R)) (a : area) (dr dt : R) (sid : Z) (j n : nat) : nat :=
  match beams sid with
  | None => O
  | Some (b, _) => list_sum (map (fun m => list_sum (map (fun ik => injected b (beam_dom a dr (fst ik) (snd ik)) dt m) (pairs (rd_ a) (zd_ a)))) (seq j n))
  end.
(** the bunch numbers of the program after j rounds from the start *)
Definition on_schedule (beams : Z -> option (beam * R)) (a : area) (dr dt : R) (u : full) : Prop :=
  forall i k sid b n, beams sid = Some (b, n) -> u_c u i k sid = bunch_no b (beam_dom a dr i k) dt (u_t u).
Lemma length_flat {A B} (f : A -> list B) l : length (flat_map f l) = list_sum (map (fun x => length (f x)) l).
Proof. induction l as [|x l IH]; [reflexivity|]. cbn [flat_map map list_sum fold_right]. rewrite app_length, IH. reflexivity. Qed.
Lemma remembers_weights l m : Forall2 remembers l m -> map (fun q => weight (now q)) m = map (fun q => weight (now q)) l.
Proof. induction 1 as [|q q' l m (W & _) _ IH]; [reflexivity|]. cbn [map]. now rewrite W, IH. Qed.
Lemma split_filter {A} (f : A -> bool) l : Permutation l (filter f l ++ filter (fun x => negb (f x)) l).
Proof. induction l as [|x l IH]; [constructor|]. cbn [filter]. destruct (f x); cbn [negb app]; [now constructor|]. now apply Permutation_cons_app. Qed.
Section Run.
Variable pusher : Z -> v3 -> v3 -> v3 -> outcome v3.
Variable charge : Z -> R.
Variable dist : YeeModel.geo -> list CurrentModel.mover -> grid3 R -> outcome (grid3 R).
Variable mu : R.
Variable beams : Z -> option (beam * R).
Variable extern : option (doms yee).
Variable impulse : Z -> Z -> domain pt -> domain pt -> Prop.
Variable draw : nat -> Z -> Z -> Z -> nat -> R * R.
Hypothesis Im : velocities_only impulse.
Variable g : YeeModel.geo.
Variables R C s : Z.
Variables eps sg : doms (grid Rdefinitions.R).
Let a := {| nr := R * s; nz := C * s; rd_ := R; zd_ := C |}.
Hypothesis HA : good_area a.
Let round := full_round pusher charge dist mu beams extern impulse draw g R C s eps sg.
Let weights (l : list pt) := map (fun q => weight (now q)) l.

Lemma schedule_kept u u' : round u u' -> on_schedule beams a (g_dr g) (g_dt g) u -> on_schedule beams a (g_dr g) (g_dt g) u'.
Proof using.
  intros (_ & _ & _ & Et & Ec) O i k sid b n Hb. rewrite Et, Ec. unfold next_bunch. rewrite Hb, (O i k sid b n Hb). reflexivity.
Qed.
(** From the start on, in any number of rounds: the particles are the first ones and those brought in on schedule, less those that left. *)
Theorem C159_run : forall n u u' ids, rounds round n u u' -> ids_ok a ids (w_p (u_w u)) -> on_schedule beams a (g_dr g) (g_dt g) u ->
  ids_ok a ids (w_p (u_w u')) /\ u_t u' = (u_t u + n)%nat /\
  forall sid, In sid ids -> exists ins outs : list pt, length ins = brought beams a (g_dr g) (g_dt g) sid (u_t u) n /\
    Forall (fun q => exists b d i k, beams sid = Some (b, d) /\ enters b d (beam_dom a (g_dr g) i k) (g_dz g) (g_dt g) q) ins /\
    Forall (fun q => in_area a (g_dr g) (g_dz g) q = false) outs /\
    Permutation (weights (particles_of a sid (w_p (u_w u))) ++ weights ins) (weights (particles_of a sid (w_p (u_w u'))) ++ weights outs).
Proof using Im HA.
  induction n as [|n IH]; cbn [rounds]; intros u u' ids.
  - intros -> Io _. split; [exact Io|]. split; [lia|]. intros sid _. exists [], []. split; [unfold brought; destruct (beams sid) as [[b d]|]; reflexivity|]. split; [constructor|]. split; [constructor|reflexivity].
  - intros (v & Rd & Rn) Io Os. pose proof Rd as (_ & Fp & _ & Et & _). fold a in Fp.
    destruct (C159_account pusher beams extern impulse draw Im a ids _ _ _ _ _ _ _ _ _ HA Io Fp) as [Iv Ac].
    destruct (IH v u' ids Rn Iv (schedule_kept u v Rd Os)) as (I' & Et' & Run). split; [exact I'|]. split; [lia|]. intros sid Hs.
    destruct (Ac sid Hs) as (new & l0 & l & En & P0 & F & Pv). destruct (Run sid Hs) as (ins & outs & Len & Fi & Fo & Pm).
    exists (flat_map new (pairs (rd_ a) (zd_ a)) ++ ins), (filter (fun q => negb (in_area a (g_dr g) (g_dz g) q)) l ++ outs). split; [|split; [|split]].
    + rewrite app_length, Len, length_flat, Et. unfold brought.
      assert (A : forall ij, In ij (pairs (rd_ a) (zd_ a)) -> 0 <= fst ij < rd_ a /\ 0 <= snd ij < zd_ a) by (intros [i k] H; now apply In_pairs in H).
      destruct (beams sid) as [[b d]|] eqn:Eb.
      * cbn [seq map list_sum fold_right]. f_equal. f_equal. apply map_ext_in. intros [i k] Hik. destruct (A _ Hik) as [Hi Hk]. specialize (En i k Hi Hk).
        unfold entered in En. rewrite Eb in En. destruct En as [En _]. rewrite En. unfold injected. rewrite (Os i k sid b d Eb). reflexivity.
      * rewrite Nat.add_0_r. assert (X : forall L, (forall ij, In ij L -> 0 <= fst ij < rd_ a /\ 0 <= snd ij < zd_ a) -> list_sum (map (fun x => length (new x)) L) = 0%nat).
        { induction L as [|[i k] L IHL]; intros HL; [reflexivity|]. cbn [map list_sum fold_right]. destruct (HL (i, k) (or_introl eq_refl)) as [Hi Hk]. specialize (En i k Hi Hk).
          unfold entered in En. rewrite Eb in En. rewrite En. apply IHL. intros; apply HL; now right. }
        now apply X.
    + apply Forall_app. split; [|exact Fi]. apply Forall_forall. intros q Hq. apply in_flat_map in Hq as ([i k] & Hik & Hq). apply In_pairs in Hik as [Hi Hk].
      specialize (En i k Hi Hk). unfold entered in En. destruct (beams sid) as [[b d]|]; [|rewrite En in Hq; destruct Hq].
      exists b, d, i, k. split; [reflexivity|]. destruct En as [_ En]. rewrite Forall_forall in En. now apply En.
    + apply Forall_app. split; [|exact Fo]. apply Forall_forall. intros q Hq. apply filter_In in Hq as [_ Hq]. now destruct (in_area a (g_dr g) (g_dz g) q).
    + unfold weights in *. rewrite !map_app. rewrite !app_assoc, <- map_app, <- P0, <- (remembers_weights _ _ F).
      rewrite (Permutation_map _ (split_filter (in_area a (g_dr g) (g_dz g)) l)), map_app, <- (Permutation_map _ Pv).
      rewrite <- app_assoc, (Permutation_app_comm (map _ (filter _ l))), app_assoc, Pm, <- !app_assoc. apply Permutation_app_head. apply Permutation_app_comm.
Qed.
End Run.

Print Assumptions C159_account.
Print Assumptions C159_flight.
Print Assumptions C159_remain.
Print Assumptions C159_run.
