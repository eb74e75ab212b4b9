(** C158: what a whole round of the main loop does to the particles, and Gauss's law in a run of whole rounds. *)
From Coq Require Import ZifyBool Reals Lra Psatz Permutation.
From Verif Require Import Base RndUtil DecompModel DecompProofs CollectorModel CollectorProofs ListUtil PushModel ParticleModel ParticleProofs StepModel
  ThmParticle ThmInit ThmDecomp ThmStep ThmFlight GridModel GridProofs OverlayModel YeeModel YeeProofs ThmYee ExtModel ThmExt CurrentModel CurrentProofs ThmCurrent ThmCurrent2
  CavityProofs ThmEnergy ThmGauss YeeSmb ThmYeeSmb SmbCorner SmbCurrent ThmDivide ThmGaussSmb RoundModel RoundProofs ThmRound.
Open Scope Z_scope.

(** ** specification *)
(** the particle with the velocity [v] *)
Definition hurled (q : pt) (v : v3) : part :=
  {| pos_r := pos_r (now q); pos_phi := pos_phi (now q); pos_z := pos_z (now q); vel_r := vx v; vel_phi := vy v; vel_z := vz v;
     p_sin := p_sin (now q); weight := weight (now q) |}.
(** between the mirrors, moves by less than a cell and neither onto the axis nor onto the left border *)
Definition gentle (g : YeeModel.geo) (p : part) : Prop :=
  let dr := g_dr g in let dz := g_dz g in let dt := g_dt g in
  pos_phi p = 0%R /\ (dr / 2 <= pos_r p <= IZR (g_nr g) * dr - dr / 2)%R /\ (dz / 2 <= pos_z p <= IZR (g_nz g) * dz - dz / 2)%R /\
  (sqrt ((vel_r p * dt) ^ 2 + (vel_phi p * dt) ^ 2) < dr)%R /\ (Rabs (vel_z p * dt) < dz)%R /\
  (pos_r p + vel_r p * dt <> 0 \/ vel_phi p * dt <> 0)%R /\ (pos_z p + vel_z p * dt <> 0)%R.
(** in the fields [y] a particle of species [sid] gets the velocity of the pusher, flies with it for a time step and remembers
    where it was *)
Definition carried (pusher : Z -> v3 -> v3 -> v3 -> outcome v3) (g : YeeModel.geo) (y : yee) (sid : Z) (q q' : pt) : Prop :=
  exists v, new_velocity pusher g y sid q v /\ now q' = flight (g_nr g) (g_nz g) (g_dr g) (g_dz g) (g_dt g) (hurled q v) /\
    old_r q' = pos_r (now q) /\ old_z q' = pos_z (now q).
(** the particles of a species *)
Definition of_species (sid : Z) (w : world1) : list pt := flat_map (fun t => if fst t =? sid then snd t else []) (o_p w 0 0).
(** the charge that belongs to a node *)
Definition held (charge : Z -> R) (g : YeeModel.geo) (w : world1) (i k : Z) : R :=
  sum_over (fun t => sum_over (fun q => charge (fst t) * weight (now q) * (share_r g i (pos_r (now q)) * share_z g k (pos_z (now q))))%R (snd t)) (o_p w 0 0).
(** the way of a particle in the last round, with its charge *)
Definition way (charge : Z -> R) (g : YeeModel.geo) (sid : Z) (q : pt) : CurrentModel.mover :=
  mkMover (pos_r (now q)) (pos_z (now q)) (old_r q) (old_z q) (cell_number (pos_r (now q)) (g_dr g)) (cell_number (pos_z (now q)) (g_dz g))
    (vel_phi (now q)) (charge sid * weight (now q))%R.
(** a round in which all particles move gently and on ways for which the current of Villasenor and Buneman is right (see C120) *)
Definition gentle_moves pusher (g : YeeModel.geo) (w w' : world1) : Prop :=
  forall t q v, In t (o_p w 0 0) -> In q (snd t) -> new_velocity pusher g (o_f w') (fst t) q v -> gentle g (hurled q v).
Definition good_ways charge (g : YeeModel.geo) (w' : world1) : Prop :=
  forall t q, In t (o_p w' 0 0) -> In q (snd t) -> oblique_move g (way charge g (fst t) q) \/ radial_move g (way charge g (fst t) q).
(** a world of one domain *)
Definition sound (g : YeeModel.geo) (w : world1) : Prop :=
  yee_fits g (o_f w) /\ fits3 (g_nr g) (g_nz g) (o_j w) /\ NoDup (map fst (o_p w 0 0)).

Lemma gentle_calm g p : (0 < g_dr g)%R -> (0 < g_dz g)%R -> g_nr g < 2 ^ 31 -> g_nz g < 2 ^ 31 -> gentle g p -> calm g (2 ^ 40) p.
Proof.
  intros Hdr Hdz Nr Nz (A & B & C & D & E & F & G). unfold calm. cbv zeta. repeat (split; [assumption|]). intros n.
  set (r := sqrt _). assert (Rn : (0 <= r)%R) by apply sqrt_pos.
  assert (DR := radius_change2 (pos_r p) (vel_r p * g_dt g) (vel_phi p * g_dt g) (g_dr g) ltac:(lra) D). rewrite !Rplus_0_l in DR. fold r in DR.
  assert (DR' : (- g_dr g < r - pos_r p < g_dr g)%R) by (unfold Rabs in DR; destruct (Rcase_abs _) in DR; lra).
  assert (DZ' : (- g_dz g < vel_z p * g_dt g < g_dz g)%R) by (unfold Rabs in E; destruct (Rcase_abs _) in E; lra).
  assert (Cs : n <= -1 \/ n = 0 \/ 1 <= n) by lia. rewrite mult_IZR.
  assert (P : (IZR (2 ^ 40) = 1099511627776)%R) by (f_equal; reflexivity). rewrite P.
  assert (Nr' : (IZR (g_nr g) <= 2147483648)%R) by (apply IZR_le; lia). assert (Nz' : (IZR (g_nz g) <= 2147483648)%R) by (apply IZR_le; lia).
  assert (K1 : (IZR (g_nr g) * g_dr g <= 2147483648 * g_dr g)%R) by (apply Rmult_le_compat_r; lra).
  assert (K2 : (IZR (g_nz g) * g_dz g <= 2147483648 * g_dz g)%R) by (apply Rmult_le_compat_r; lra).
  destruct Cs as [Cs|[->|Cs]].
  - assert (X : (IZR n <= -1)%R) by (apply IZR_le; exact Cs).
    assert (Y1 : (IZR n * 1099511627776 * g_dr g <= -1 * 1099511627776 * g_dr g)%R) by (apply Rmult_le_compat_r; lra).
    assert (Y2 : (IZR n * 1099511627776 * g_dz g <= -1 * 1099511627776 * g_dz g)%R) by (apply Rmult_le_compat_r; lra). split; lra.
  - rewrite !Rmult_0_l. split; [|exact G]. intros X. unfold r in X. apply sqrt_eq_0 in X; [|apply Rplus_le_le_0_compat; apply Rle_0_sqr].
    assert (S1 := Rle_0_sqr (pos_r p + vel_r p * g_dt g)). assert (S2 := Rle_0_sqr (vel_phi p * g_dt g)). unfold Rsqr in S1, S2.
    destruct F as [F|F]; apply F; [apply (Rsqr_0_uniq (pos_r p + vel_r p * g_dt g))|apply (Rsqr_0_uniq (vel_phi p * g_dt g))]; unfold Rsqr; lra.
  - assert (X : (1 <= IZR n)%R) by (apply IZR_le; exact Cs).
    assert (Y1 : (1 * 1099511627776 * g_dr g <= IZR n * 1099511627776 * g_dr g)%R) by (apply Rmult_le_compat_r; lra).
    assert (Y2 : (1 * 1099511627776 * g_dz g <= IZR n * 1099511627776 * g_dz g)%R) by (apply Rmult_le_compat_r; lra). split; lra.
Qed.

Section One.
Variable pusher : Z -> v3 -> v3 -> v3 -> outcome v3.
Variable charge : Z -> R.
Variable mu : R.
Variable g : YeeModel.geo.
Hypothesis Nr : 4 <= g_nr g < 2 ^ 31.
Hypothesis Nz : 4 <= g_nz g < 2 ^ 31.
Hypothesis D0 : g_d0 g = 0.
Hypothesis D1 : g_d1 g = 0.
Hypothesis Hdr : (0 < g_dr g)%R.
Hypothesis Hdz : (0 < g_dz g)%R.
Variables Eps Sg : grid R.
Let a1 := {| nr := g_nr g; nz := g_nz g; rd_ := 1; zd_ := 1 |}.
Let dr := g_dr g.
Let dz := g_dz g.

Lemma one_good : good_area a1.
Proof using Nr Nz. unfold good_area, sane, a1. cbn [nr nz rd_ zd_]. repeat split; try lia; [exists (g_nr g)|exists (g_nz g)]; ring. Qed.
Lemma gentle_flies p : gentle g p -> advanced (domain_geo a1 dr dz 0 0) (g_dt g) p (flight (g_nr g) (g_nz g) dr dz (g_dt g) p).
Proof using Nr Nz Hdr Hdz.
  intros Ge. assert (Cm := gentle_calm g p Hdr Hdz (proj2 Nr) (proj2 Nz) Ge).
  destruct (bound_one (g_nr g) ltac:(lia)) as [B1 B2]. destruct (bound_one (g_nz g) ltac:(lia)) as [B3 B4]. destruct (calm_cells g _ Hdr Hdz p Cm) as [CR CZ].
  apply (calm_flies g (2 ^ 40) Hdr Hdz ltac:(lia) ltac:(lia) a1 0 0); auto; cbn [nr nz rd_ zd_ a1]; try lia.
  - apply one_good.
  - intros n Hn. exists 0. replace n with 0 by lia. rewrite B1. reflexivity.
  - intros n Hn. exists 0. replace n with 0 by lia. rewrite B3. reflexivity.
  - unfold home. cbn [nr nz rd_ zd_ a1]. rewrite B1, B3. change (0 + 1) with 1. rewrite B2, B4. unfold part_cr, part_cz.
    change (ParticleModel.cell_number (pos_r p) (g_dr g)) with (cell_number (pos_r p) (g_dr g)). change (ParticleModel.cell_number (pos_z p) (g_dz g)) with (cell_number (pos_z p) (g_dz g)).
    rewrite !s32_small by lia. lia.
Qed.
(** one particle *)
Lemma step_carried y sid q q' : (forall v, new_velocity pusher g y sid q v -> gentle g (hurled q v)) ->
  step_particle pusher g (domain_geo a1 dr dz 0 0) y sid q q' ->
  carried pusher g y sid q q' /\ weight (now q') = weight (now q) /\
  (0 < pos_r (now q'))%R /\ (0 < old_r q')%R /\ 0 <= cell_number (pos_r (now q')) dr < g_nr g /\ 0 <= cell_number (pos_z (now q')) dz < g_nz g.
Proof using Nr Nz Hdr Hdz.
  intros Ge (e & b & v & Ee & Eb & Ev & Adv & O1 & O2).
  assert (Nv : new_velocity pusher g y sid q v) by (exists e, b; auto). specialize (Ge v Nv).
  assert (E' : now q' = flight (g_nr g) (g_nz g) dr dz (g_dt g) (hurled q v)) by exact (advanced_unique _ _ _ _ _ Adv (gentle_flies _ Ge)).
  assert (Cm := gentle_calm g _ Hdr Hdz (proj2 Nr) (proj2 Nz) Ge).
  split; [exists v; auto|]. split; [rewrite E'; reflexivity|].
  assert (P := calm_positive g _ _ Hdr ltac:(lia) Cm). rewrite E', O1. split; [exact P|].
  destruct Ge as (G1 & G2 & G3 & G4 & G5 & G6 & G7). cbn [hurled pos_r pos_z vel_r vel_phi vel_z] in *. fold dr in G2, G4. fold dz in G3, G5. unfold dr, dz in *.
  split; [lra|]. clear P E' Adv.
  assert (Bn : forall lo hi x v, (lo <= hi)%R -> (2 * lo - hi <= x <= 2 * hi - lo)%R -> (lo <= fst (bounce lo hi x v) <= hi)%R).
  { clear. intros lo hi x v H X. unfold bounce. destruct (Rlt_dec hi x); [|destruct (Rlt_dec x lo)]; cbn [fst]; lra. }
  assert (N4 : (4 <= IZR (g_nr g))%R) by (apply IZR_le; lia). assert (Z4 : (4 <= IZR (g_nz g))%R) by (apply IZR_le; lia).
  assert (K1 : (4 * g_dr g <= IZR (g_nr g) * g_dr g)%R) by (apply Rmult_le_compat_r; lra).
  assert (K2 : (4 * g_dz g <= IZR (g_nz g) * g_dz g)%R) by (apply Rmult_le_compat_r; lra).
  split; cbn [flight pos_r pos_z hurled vel_r vel_phi vel_z]; apply cell_number_range; auto.
  - set (r := sqrt _). assert (DR := radius_change2 (pos_r (now q)) (vx v * g_dt g) (vy v * g_dt g) (g_dr g) ltac:(lra) G4). rewrite !Rplus_0_l in DR. fold r in DR.
    assert (DR' : (- g_dr g < r - pos_r (now q) < g_dr g)%R) by (unfold Rabs in DR; destruct (Rcase_abs _) in DR; lra).
    assert (X := Bn (g_dr g / 2)%R (IZR (g_nr g) * g_dr g - g_dr g / 2)%R r (vx v) ltac:(lra) ltac:(lra)). lra.
  - assert (DZ' : (- g_dz g < vz v * g_dt g < g_dz g)%R) by (unfold Rabs in G5; destruct (Rcase_abs _) in G5; lra).
    assert (X := Bn (g_dz g / 2)%R (IZR (g_nz g) * g_dz g - g_dz g / 2)%R (pos_z (now q) + vz v * g_dt g)%R (vz v) ltac:(lra) ltac:(lra)). lra.
Qed.


Lemma of_species_all w sid : particles_of a1 sid (o_p w) = of_species sid w.
Proof using. unfold particles_of, of_species. change (pairs (rd_ a1) (zd_ a1)) with [(0, 0)]. cbn [flat_map fst snd]. now rewrite app_nil_r. Qed.
Let after (y : yee) (sid : Z) (q q' : pt) : Prop := carried pusher g y sid q q' /\ weight (now q') = weight (now q) /\
  (0 < pos_r (now q'))%R /\ (0 < old_r q')%R /\ 0 <= cell_number (pos_r (now q')) dr < g_nr g /\ 0 <= cell_number (pos_z (now q')) dz < g_nz g.
Lemma forall2_with {A B} (Q Q' : A -> B -> Prop) l m : (forall x y, In x l -> Q x y -> Q' x y) -> Forall2 Q l m -> Forall2 Q' l m.
Proof using. intros H F. induction F as [|x y l m Hx F IH]; constructor; [apply H; [now left|exact Hx]|]. apply IH. intros; apply H; auto. now right. Qed.
Lemma round_species dist w w' : one_round pusher charge dist mu g Eps Sg w w' -> gentle_moves pusher g w w' -> NoDup (map fst (o_p w 0 0)) ->
  map fst (o_p w' 0 0) = map fst (o_p w 0 0) /\
  forall sid, exists l, Forall2 (after (o_f w') sid) (of_species sid w) l /\ Permutation (of_species sid w') l.
Proof using Nr Nz Hdr Hdz.
  intros (p1 & _ & [St _] & Ec & _) Ge N. fold a1 in St, Ec. fold dr in St, Ec. fold dz in St, Ec.
  assert (St0 := St 0 0 ltac:(cbn; lia) ltac:(cbn; lia)). cbv beta in St0. unfold step_domain in St0.
  assert (F0 : Forall2 (fun s s' => fst s = fst s' /\ Forall2 (after (o_f w') (fst s)) (snd s) (snd s')) (o_p w 0 0) (p1 0 0)).
  { refine (forall2_with _ _ _ _ _ St0). intros t t' Ht [E F]. split; [exact E|]. refine (forall2_with _ _ _ _ _ F). intros q q' Hq Sq.
    apply step_carried; [|exact Sq]. intros v. now apply (Ge t). }
  assert (Ids : map fst (p1 0 0) = map fst (o_p w 0 0)).
  { clear - F0. induction F0 as [|t t' l l' [E _] _ IH]; [reflexivity|]. cbn [map]. now rewrite E, IH. }
  assert (Io : ids_ok a1 (map fst (o_p w 0 0)) p1).
  { split; [exact N|]. intros i j Hi Hj. cbn [rd_ zd_ a1] in Hi, Hj. replace i with 0 by lia. now replace j with 0 by lia. }
  destruct (C08_collector_conserves pt pt_eq_dec (pt_cr dr) (pt_cz dz) a1 _ p1 one_good (pt_int g) Io) as (st' & Ec' & I' & P' & _).
  rewrite Ec in Ec'. injection Ec' as <-. split; [apply I'; cbn; lia|]. intros sid. exists (particles_of a1 sid p1).
  assert (F1 : Forall2 (after (o_f w') sid) (of_species sid w) (particles_of a1 sid p1)).
  { rewrite <- of_species_all. apply (stepped_species a1 (fun _ _ => after (o_f w')) (after (o_f w'))); [auto|].
    intros i k Hi Hk. cbn [rd_ zd_ a1] in Hi, Hk. replace i with 0 by lia. now replace k with 0 by lia. }
  split; [exact F1|]. rewrite <- of_species_all, (P' sid).
  assert (Al : forall q, In q (particles_of a1 sid p1) -> alive (pt_cr dr) (pt_cz dz) a1 q = true).
  { intros q Hq. destruct (forall2_in _ _ _ q F1 Hq) as (q0 & _ & _ & _ & _ & _ & C1 & C2).
    unfold alive, pt_cr, pt_cz, part_cr, part_cz. cbn [nr nz a1].
    change (ParticleModel.cell_number (pos_r (now q)) dr) with (cell_number (pos_r (now q)) dr). change (ParticleModel.cell_number (pos_z (now q)) dz) with (cell_number (pos_z (now q)) dz).
    rewrite !s32_small by lia. lia. }
  clear - Al. induction (particles_of a1 sid p1) as [|q l IH]; [reflexivity|]. cbn [filter]. rewrite Al by now left.
  constructor. apply IH. intros; apply Al; now right.
Qed.

(** The particles: none is lost or made, and each is carried by the fields. *)
Theorem C158_particles_partial : forall dist w w', one_round pusher charge dist mu g Eps Sg w w' -> gentle_moves pusher g w w' -> NoDup (map fst (o_p w 0 0)) ->
  map fst (o_p w' 0 0) = map fst (o_p w 0 0) /\
  forall sid, exists l, Forall2 (carried pusher g (o_f w') sid) (of_species sid w) l /\ Permutation (of_species sid w') l.
Proof using Nr Nz Hdr Hdz.
  intros dist w w' O Ge N. destruct (round_species dist w w' O Ge N) as [I S]. split; [exact I|]. intros sid. destruct (S sid) as (l & F & P).
  exists l. split; [|exact P]. refine (forall2_with _ _ _ _ _ F). intros x y _ H. apply H.
Qed.

(** ** the charge *)
Lemma sum_flat {A B} (f : B -> R) (h : A -> list B) l : sum_over f (flat_map h l) = sum_over (fun x => sum_over f (h x)) l.
Proof using.
  induction l as [|x l IH]; [reflexivity|]. cbn [flat_map sum_over]. rewrite <- IH. generalize (flat_map h l) as m. induction (h x) as [|b u IHu]; intros m; cbn [app sum_over]; [ring|].
  rewrite IHu. ring.
Qed.
Lemma sum_ext_in {A} (h k : A -> R) l : (forall x, In x l -> h x = k x) -> sum_over h l = sum_over k l.
Proof using. induction l as [|x l IH]; intros H; cbn [sum_over]; [reflexivity|]. rewrite (H x (or_introl eq_refl)). f_equal. apply IH. intros; apply H; now right. Qed.
Lemma sum_species (f : Z -> pt -> R) w : NoDup (map fst (o_p w 0 0)) ->
  sum_over (fun t => sum_over (f (fst t)) (snd t)) (o_p w 0 0) = sum_over (fun sid => sum_over (f sid) (of_species sid w)) (map fst (o_p w 0 0)).
Proof using Nr Nz.
  intros N. assert (I : ids_ok a1 (map fst (o_p w 0 0)) (o_p w)).
  { split; [exact N|]. intros i j Hi Hj. cbn [rd_ zd_ a1] in Hi, Hj. replace i with 0 by lia. now replace j with 0 by lia. }
  assert (Y := everyone_species f a1 _ (o_p w) I). cbn [rd_ zd_ a1] in Y.
  unfold everyone, zrange in Y. change (Z.to_nat (1 - 0)) with 1%nat in Y. cbn [zseq flat_map fst snd] in Y. rewrite !app_nil_r in Y.
  transitivity (sum_over (fun x => x) (flat_map (fun s => map (f (fst s)) (snd s)) (o_p w 0 0))).
  { rewrite sum_flat. apply sum_ext_in. intros t _. now rewrite sum_over_map. }
  rewrite (sum_over_perm _ _ _ Y), sum_flat. apply sum_ext_in. intros sid _. rewrite sum_over_map, of_species_all. reflexivity.
Qed.
Lemma sum_related {A B} (Q : A -> B -> Prop) (h : A -> R) (k : B -> R) l m : (forall x y, Q x y -> h x = k y) -> Forall2 Q l m -> sum_over h l = sum_over k m.
Proof using. intros H. induction 1 as [|x y l m Hx _ IH]; cbn [sum_over]; [reflexivity|]. now rewrite (H x y Hx), IH. Qed.

Hypothesis Cl : closed g.
Hypothesis Pt : (0 < g_dt g)%R.
Hypothesis F1 : fits2 (g_nr g) (g_nz g) Eps.
Hypothesis F2 : fits2 (g_nr g) (g_nz g) Sg.
Hypothesis Q : forall i k, 0 <= i < g_nr g -> 0 <= k < g_nz g -> (0 < lv Eps i k)%R /\ (0 <= lv Sg i k)%R.

Lemma round_charge w w' : one_round pusher charge vb_distribution mu g Eps Sg w w' -> gentle_moves pusher g w w' -> good_ways charge g w' -> sound g w ->
  sound g w' /\ forall i k, node g i k -> held charge g w' i k = (held charge g w i k - g_dt g * flux g (o_j w') i k)%R.
Proof using Nr Nz D1 Hdr Hdz Cl Pt F1 F2.
  intros O Ge Gw (Fy & Fj & N). destruct (round_species _ w w' O Ge N) as [Ids Sp].
  assert (N' : NoDup (map fst (o_p w' 0 0))) by now rewrite Ids.
  destruct O as (p1 & Ey & _ & _ & Ej).
  assert (S : sizes g) by (split; [exact Hdr|split; [exact Hdz|exact Pt]]).
  assert (Mv : forall t q, In t (o_p w' 0 0) -> In q (snd t) -> mover_of charge (g_dr g) (g_dz g) (fst t) q = way charge g (fst t) q /\ lands g (way charge g (fst t) q)).
  { intros t q Ht Hq. assert (X : In q (of_species (fst t) w')) by (apply in_flat_map; exists t; split; [exact Ht|]; now rewrite Z.eqb_refl).
    destruct (Sp (fst t)) as (l & F & P). apply (Permutation_in _ P) in X. destruct (forall2_in _ _ _ q F X) as (q0 & _ & _ & _ & P1 & P2 & C1 & C2).
    unfold dr, dz in C1, C2. split.
    - unfold mover_of, way, pt_cr, pt_cz, part_cr, part_cz.
      change (ParticleModel.cell_number (pos_r (now q)) (g_dr g)) with (cell_number (pos_r (now q)) (g_dr g)).
      change (ParticleModel.cell_number (pos_z (now q)) (g_dz g)) with (cell_number (pos_z (now q)) (g_dz g)). now rewrite !s32_small by lia.
    - unfold lands, ThmCurrent.bound, way. cbn [m_r m_z m_ro m_zo m_cr m_cz]. rewrite D1. pose proof Cl as (_ & _ & _ & _ & E0 & _). rewrite E0. repeat split; auto; lia. }
  set (ws := flat_map (fun t => map (way charge g (fst t)) (snd t)) (o_p w' 0 0)).
  assert (Em : movers charge (g_dr g) (g_dz g) (o_p w' 0 0) = ws).
  { unfold movers, ws. clear - Mv. induction (o_p w' 0 0) as [|t l IH]; [reflexivity|]. cbn [flat_map]. f_equal.
    - apply map_ext_in. intros q Hq. apply (Mv t q); auto. now left.
    - apply IH. intros; apply (Mv t0 q); auto. now right. }
  rewrite Em in Ej. clear Em.
  assert (Gm : Forall (good_move g) ws).
  { apply Forall_flat_map, Forall_forall. intros t Ht. apply Forall_forall. intros m Hm. apply in_map_iff in Hm as (q & <- & Hq).
    split; [now apply Mv|]. exact (Gw t q Ht Hq). }
  destruct (zero_vb g ws (o_j w) S Fj ltac:(eapply Forall_impl; [|exact Gm]; intros m Hm; apply Hm)) as (j' & Ej' & Fj' & _ & V').
  rewrite Ej in Ej'. injection Ej' as <-. specialize (V' (long_moves g ws Gm)).
  destruct (yee_step_ok mu g Eps Sg (o_j w) (o_f w) ltac:(split; lia) F1 F2 Fj Fy) as (y1 & Ey1 & Fy1). rewrite Ey in Ey1. injection Ey1 as <-.
  split; [split; [exact Fy1|]; split; [exact Fj'|exact N']|]. intros i k Nd.
  assert (D := deposits_leave g ws (o_j w') Cl D1 S Gm V' i k Nd).
  assert (A : charge_after g ws i k = held charge g w' i k).
  { unfold charge_after, ws, held. rewrite sum_flat. apply sum_ext_in. intros t _. now rewrite sum_over_map. }
  assert (B : charge_before g ws i k = held charge g w i k).
  { unfold charge_before, ws, held. rewrite sum_flat.
    rewrite (sum_ext_in _ (fun t => sum_over (fun q => charge (fst t) * weight (now q) * (share_r g i (old_r q) * share_z g k (old_z q)))%R (snd t))) by (intros t _; now rewrite sum_over_map).
    rewrite (sum_species (fun sid q => charge sid * weight (now q) * (share_r g i (old_r q) * share_z g k (old_z q)))%R w' N').
    rewrite (sum_species (fun sid q => charge sid * weight (now q) * (share_r g i (pos_r (now q)) * share_z g k (pos_z (now q))))%R w N).
    rewrite Ids. apply sum_ext_in. intros sid _. destruct (Sp sid) as (l & F & P). rewrite (sum_over_perm _ _ _ P). symmetry.
    refine (sum_related _ _ _ _ _ _ F). intros q q' ((v & _ & _ & O1 & O2) & Wt & _). now rewrite Wt, O1, O2. }
  rewrite <- A, <- B. exact D.
Qed.

(** Gauss's law keeps its error in a run of the main loop. *)
Definition gauss_error (ev : R) (w : world1) (i k : Z) : R := (ev * flux g (y_e (o_f w)) i k - g_dt g * flux g (o_j w) i k - held charge g w i k)%R.
Definition good_round (w w' : world1) : Prop :=
  one_round pusher charge vb_distribution mu g Eps Sg w w' /\ gentle_moves pusher g w w' /\ good_ways charge g w'.
Lemma next_field w w' ev i k : one_round pusher charge vb_distribution mu g Eps Sg w w' -> sound g w -> node g i k -> (i, k) <> (0, 1) -> vacuum g Eps Sg ev i k ->
  (ev * flux g (y_e (o_f w')) i k = ev * flux g (y_e (o_f w)) i k - g_dt g * flux g (o_j w) i k)%R.
Proof using Cl F1 F2 Q Pt.
  intros (p1 & Ey & _) ((Fe & Fh & Ft) & Fj & _) Nd Nc V. apply yee_step_e in Ey.
  assert (B := C119_flux_partial g (y_t (o_f w)) (o_j w) Eps Sg ev (y_e (o_f w)) (y_e (o_f w')) Cl Ft Fj F1 F2 Fe).
  specialize (B ltac:(intros a b Ha Hb; destruct (Q a b Ha Hb); assert (0 <= lv Sg a b * g_dt g)%R by (apply Rmult_le_pos; lra); lra) Ey i k Nd Nc V). lra.
Qed.
Theorem C158_gauss_partial : forall n w w' ev i k, rounds good_round n w w' -> sound g w -> node g i k -> (i, k) <> (0, 1) -> vacuum g Eps Sg ev i k ->
  sound g w' /\ gauss_error ev w' i k = gauss_error ev w i k /\
  forall w'', one_round pusher charge vb_distribution mu g Eps Sg w' w'' ->
    (ev * flux g (y_e (o_f w'')) i k - held charge g w' i k = gauss_error ev w i k)%R.
Proof using Nr Nz D1 Hdr Hdz Cl Pt F1 F2 Q.
  intros n w w' ev i k Rn Sd Nd Nc V. assert (X : sound g w' /\ gauss_error ev w' i k = gauss_error ev w i k).
  { revert w Rn Sd. induction n as [|n IH]; cbn [rounds]; intros w.
    - intros -> Sd. auto.
    - intros (u & (O & Ge & Gw) & Rn) Sd. destruct (round_charge w u O Ge Gw Sd) as [Su Hc]. destruct (IH u Rn Su) as [S' E']. split; [exact S'|].
      rewrite E'. unfold gauss_error. rewrite (Hc i k Nd), (next_field w u ev i k O Sd Nd Nc V). ring. }
  destruct X as [S' E']. split; [exact S'|]. split; [exact E'|]. intros w'' O. rewrite (next_field w' w'' ev i k O S' Nd Nc V), <- E'. unfold gauss_error. ring.
Qed.
End One.

(** ** the area divided into domains *)
Definition held_doms (charge : Z -> R) (g : YeeModel.geo) (R C : Z) (w : world) (i k : Z) : Rdefinitions.R :=
  sum_over (fun ab => sum_over (fun t => sum_over (fun q => charge (fst t) * weight (now q) * (share_r g i (pos_r (now q)) * share_z g k (pos_z (now q))))%R (snd t))
    (w_p w (fst ab) (snd ab))) (pairs R C).
Definition doms_error charge (g : YeeModel.geo) (R C s : Z) (ev : Rdefinitions.R) (w : world) (i k : Z) : Rdefinitions.R :=
  (ev * glued_flux g s (fun ab => y_e (w_f w ab)) i k - g_dt g * glued_flux g s (w_j w) i k - held_doms charge g R C w i k)%R.
Lemma glued_flux_inner g R C s j J i k : 1 <= s -> g_nr g = R * s -> g_nz g = C * s -> inner_agrees R C s j J -> node g i k -> glued_flux g s j i k = flux g J i k.
Proof.
  intros Hs Gr Gz A (Ni & Nk).
  assert (L : forall c x y, 0 <= x < R * s -> 0 <= y < C * s -> glued s j c x y = lv (getc c J) x y).
  { intros c x y Hx Hy. unfold glued. pose proof (Z.mod_pos_bound x s ltac:(lia)). pose proof (Z.mod_pos_bound y s ltac:(lia)).
    rewrite A; [|split; [apply Z.div_pos; lia|apply Z.div_lt_upper_bound; lia]|split; [apply Z.div_pos; lia|apply Z.div_lt_upper_bound; lia]|lia|lia].
    f_equal; rewrite Z.mul_comm, <- Z.div_mod; lia. }
  unfold glued_flux, flux. rewrite (L Cr i k), (L Cz i k), (L Cz i (k - 1)) by lia. destruct (i =? 0) eqn:I0; [reflexivity|]. rewrite (L Cr (i - 1) k) by lia. reflexivity.
Qed.
Lemma same_held charge g R C s w1 w i k : 1 <= g_nr g -> 1 <= g_nz g -> same_world g R C s w1 w -> held_doms charge g R C w i k = held charge g w1 i k.
Proof.
  intros Nr Nz (_ & _ & (ids & Ia & I1) & Pm & _).
  set (f := fun (sid : Z) (q : pt) => (charge sid * weight (now q) * (share_r g i (pos_r (now q)) * share_z g k (pos_z (now q))))%R).
  assert (X := everyone_species f _ ids (w_p w) Ia). assert (Y := everyone_species f _ ids (o_p w1) I1).
  rewrite everyone_pairs in X, Y. cbn [rd_ zd_] in X, Y. change (pairs 1 1) with [(0, 0)] in Y. cbn [flat_map fst snd] in Y. rewrite app_nil_r in Y.
  transitivity (sum_over (fun x => x) (flat_map (fun ab => flat_map (fun t => map (f (fst t)) (snd t)) (w_p w (fst ab) (snd ab))) (pairs R C))).
  { unfold held_doms. rewrite sum_flat. apply sum_ext_in. intros ab _. rewrite sum_flat. apply sum_ext_in. intros t _. now rewrite sum_over_map. }
  rewrite (sum_over_perm _ _ _ X). transitivity (sum_over (fun x => x) (flat_map (fun t => map (f (fst t)) (snd t)) (o_p w1 0 0))).
  { rewrite (sum_over_perm _ _ _ Y), !sum_flat. apply sum_ext_in. intros sid _. rewrite !sum_over_map. apply sum_over_perm. apply Pm. }
  rewrite sum_flat. apply sum_ext_in. intros t _. now rewrite sum_over_map.
Qed.
Lemma same_error charge g R C s ev w1 w i k : 1 <= R -> 1 <= C -> 1 <= s -> g_nr g = R * s -> g_nz g = C * s -> same_world g R C s w1 w -> node g i k ->
  doms_error charge g R C s ev w i k = gauss_error charge g ev w1 i k.
Proof.
  intros HR HC Hs Gr Gz S Nd. unfold doms_error, gauss_error. rewrite (same_held charge g R C s w1 w i k) by (auto; nia).
  destruct S as ((_ & _ & _ & _ & A & _) & (_ & _ & J) & _). rewrite (glued_flux_agrees g R C s _ (y_e (o_f w1)) i k) by auto.
  now rewrite (glued_flux_inner g R C s (w_j w) (o_j w1) i k).
Qed.
Lemma rounds_fun {A} (Q : A -> A -> Prop) : (forall x y z, Q x y -> Q x z -> y = z) -> forall n x y z, rounds Q n x y -> rounds Q n x z -> y = z.
Proof.
  intros H n. induction n as [|n IH]; cbn [rounds]; intros x y z; [congruence|]. intros (u & A1 & A2) (v & B1 & B2). rewrite (H x v u B1 A1) in B2. now apply (IH u).
Qed.
Lemma rounds_weaken {A} (Q Q' : A -> A -> Prop) : (forall x y, Q x y -> Q' x y) -> forall n x y, rounds Q n x y -> rounds Q' n x y.
Proof. intros H n. induction n as [|n IH]; cbn [rounds]; intros x y; [auto|]. intros (u & A1 & A2). exists u. auto. Qed.
(** The program with several domains keeps the error of Gauss's law too. *)
Theorem C158_divided_partial : forall pusher charge mu g R C s eps sg Eps Sg n w1 w1' w w' ev i k,
  1 <= R -> 1 <= C -> 4 <= s -> g_nr g = R * s -> g_nz g = C * s -> g_nr g < 2 ^ 31 -> g_nz g < 2 ^ 31 -> closed g -> g_d1 g = 0 -> (0 < g_dt g)%R ->
  inner2 R C s eps Eps -> inner2 R C s sg Sg -> (forall i k, 0 <= i < g_nr g -> 0 <= k < g_nz g -> (0 < lv Eps i k)%R /\ (0 <= lv Sg i k)%R) ->
  rounds (fun u v => good_round pusher charge mu g Eps Sg u v /\ calm_round_vb pusher charge g R C s u v) n w1 w1' -> same_world g R C s w1 w ->
  rounds (smb_round pusher charge vb_distribution mu g R C s eps sg) n w w' ->
  node g i k -> (i, k) <> (0, 1) -> vacuum g Eps Sg ev i k ->
  doms_error charge g R C s ev w' i k = doms_error charge g R C s ev w i k.
Proof.
  intros pusher charge mu g R C s eps sg Eps Sg n w1 w1' w w' ev i k HR HC Hs Gr Gz GrL GzL Cl D1 Pt Ie Is Q Rn S Rw Nd Nc V.
  pose proof Cl as (_ & _ & _ & _ & D0 & _ & _ & Hdr & Hdz).
  destruct (C125_vb_run_partial pusher charge mu g R C s HR HC Hs Gr Gz GrL GzL D0 D1 Hdr Hdz eps sg Eps Sg Ie Is n w1 w1' w) as (w2 & R2 & S2); auto.
  { eapply rounds_weaken; [|exact Rn]. intros u v ((O & _) & Cm). auto. }
  assert (w2 = w') by (eapply rounds_fun; [|exact R2|exact Rw]; intros; eapply C125_deterministic; eauto). subst w2.
  rewrite (same_error charge g R C s ev w1 w i k), (same_error charge g R C s ev w1' w' i k) by (auto; lia).
  assert (Rg : rounds (good_round pusher charge mu g Eps Sg) n w1 w1') by (eapply rounds_weaken; [|exact Rn]; intros u v (O & _); exact O).
  refine (proj1 (proj2 (C158_gauss_partial pusher charge mu g ltac:(nia) ltac:(nia) D1 Hdr Hdz Eps Sg Cl Pt _ _ Q n w1 w1' ev i k Rg _ Nd Nc V))).
  - rewrite Gr, Gz. apply Ie.
  - rewrite Gr, Gz. apply Is.
  - destruct S as ((Fy & _) & (Fj & _) & (ids & _ & [N I]) & _). split; [exact Fy|]. split; [rewrite Gr, Gz; exact Fj|]. rewrite (I 0 0); [exact N|cbn; lia|cbn; lia].
Qed.

(** ** an example: the particle of C125 goes to the next domain; the charge of the nodes changes *)
Lemma runner_legs v c : legs_of geo8 (mkMover (7 / 4) (17 / 4) (5 / 4) (15 / 4) 1 4 v c) = [(3/2, 4, 5/4, 15/4, 1%Z, 3%Z); (7/4, 17/4, 3/2, 4, 1%Z, 4%Z)]%R.
Proof.
  unfold legs_of, ThmCurrent.old_r, ThmCurrent.old_z. cbn [m_r m_ro m_z m_zo m_cr m_cz m_q g_dr g_dz geo8]. cells4.
  unfold legs. cbn [g_dr g_dz geo8].
  change (Z.abs (1 - 1) + Z.abs (4 - 3) =? 0) with false. change (Z.abs (1 - 1) + Z.abs (4 - 3) =? 1) with true.
  change (negb (1 =? 1) && (4 =? 3)) with false. change ((1 =? 1) && negb (4 =? 3)) with true. change (4 - 1) with 3. cbv iota zeta. rlts.
  replace (5 / 4 + (7 / 4 - 5 / 4) / (17 / 4 - 15 / 4) * (4 * 1 - 15 / 4))%R with (3 / 2)%R by lra.
  replace (4 * 1)%R with 4%R by lra. reflexivity.
Qed.
Example C158_ex : closed geo8 /\ sound geo8 start1 /\ node geo8 1 4 /\ vacuum geo8 (sz 8 1) (sz 8 0) 1 1 4 /\
  exists w', good_round coast (fun _ => 1%R) 1 geo8 (sz 8 1) (sz 8 0) start1 w' /\ calm_round_vb coast (fun _ => 1%R) geo8 2 2 4 start1 w' /\
    held (fun _ => 1%R) geo8 start1 1 4 <> held (fun _ => 1%R) geo8 w' 1 4.
Proof.
  destruct C125_vb_ex as (Ie & Is & Sw & w' & O & Cm & _). assert (M := mnzl_small).
  split; [unfold closed, geo8; cbn; repeat split; lia || lra|].
  assert (N7 : NoDup (map fst (o_p start1 0 0))) by (cbn; repeat constructor; intros []).
  split. { destruct Sw as ((Fy & _) & (Fj & _) & _). split; [exact Fy|]. split; [exact Fj|exact N7]. }
  split; [unfold node; cbn; lia|]. split. { intros a b Ha Hb Hp. rewrite !lv_sz by lia. auto. }
  assert (Ge : gentle_moves coast geo8 start1 w').
  { intros t q v [<-|[]] [<-|[]] (e & b & _ & _ & Ev). injection Ev as <-. destruct runner_calm as (A & B & C & D & E & F).
    unfold gentle. cbv zeta. cbn [hurled pos_r pos_phi pos_z vel_r vel_phi vel_z vx vy vz runner0 now runner] in *. repeat (split; [assumption|]). split; [left|]; cbn; lra. }
  destruct (C158_particles_partial coast (fun _ => 1%R) 1 geo8 ltac:(cbn; lia) ltac:(cbn; lia) ltac:(cbn; lra) ltac:(cbn; lra) _ _ _ start1 w' O Ge N7) as [Ids Sp].
  destruct (Sp 7) as (l & F & P). change (of_species 7 start1) with [runner0] in F. inversion F as [|x q1 y l' Cq F' E1 E2]; subst. inversion F'; subst. clear F F'.
  assert (Q1 : pos_r (now q1) = (7 / 4)%R /\ pos_z (now q1) = (17 / 4)%R /\ old_r q1 = (5 / 4)%R /\ old_z q1 = (15 / 4)%R /\ weight (now q1) = 1%R).
  { destruct Cq as (v & (e & b & _ & _ & Ev) & E & O1 & O2). injection Ev as <-. rewrite E, O1, O2. destruct landed_at as [L1 L2].
    split; [exact L1|]. split; [exact L2|]. repeat split. }
  destruct Q1 as (R1 & R2 & R3 & R4 & R5).
  assert (Only : exists d, o_p w' 0 0 = [(7, d)] /\ d = [q1]).
  { destruct (o_p w' 0 0) as [|[sid d] [|? ?]] eqn:E; try discriminate Ids. injection Ids as ->. exists d. split; [reflexivity|].
    unfold of_species in P. rewrite E in P. cbn [flat_map fst snd] in P. rewrite Z.eqb_refl, app_nil_r in P. apply Permutation_sym, Permutation_length_1_inv in P. exact P. }
  destruct Only as (d & Ed & ->).
  assert (Cr1 : cell_number (7 / 4) 1 = 1) by (apply cell_is; lra). assert (Cz1 : cell_number (17 / 4) 1 = 4) by (apply cell_is; lra).
  assert (Cr0 : cell_number (5 / 4) 1 = 1) by (apply cell_is; lra). assert (Cz0 : cell_number (15 / 4) 1 = 3) by (apply cell_is; lra).
  exists w'. split; [split; [exact O|split; [exact Ge|]]|split; [exact Cm|]].
  - intros t q Ht Hq. rewrite Ed in Ht. destruct Ht as [<-|[]]. destruct Hq as [<-|[]]. left. unfold way. cbn [fst g_dr g_dz geo8]. rewrite R1, R2, R3, R4, R5, Cr1, Cz1.
    split. { unfold step_at_most_one, ThmCurrent.old_r, ThmCurrent.old_z. cbn [m_ro m_zo m_cr m_cz g_dr g_dz geo8]. rewrite Cr0, Cz0. lia. }
    split; [unfold oblique; cbn [m_r m_ro m_z m_zo]; split; eapply Rle_trans; try exact M; absolve|].
    unfold ThmCurrent.old_r, ThmCurrent.old_z. cbn [m_ro m_zo m_cr m_cz g_dr g_dz geo8]. rewrite Cr0. split; [lia|]. split; [lia|].
    rewrite runner_legs. repeat apply Forall_cons; try apply Forall_nil; cbn [leg_long]; right; split; eapply Rle_trans; try exact M; absolve.
  - unfold held. rewrite Ed. cbn [start1 o_p sum_over fst snd runner0 now runner pos_r pos_z weight]. rewrite R1, R2, R5.
    rewrite (share_r_in geo8 ltac:(cbn; lra) 1 1 (7/4)), (share_r_in geo8 ltac:(cbn; lra) 1 1 (5/4)) by (cbn; lra).
    rewrite (share_z_in geo8 ltac:(cbn; lra) 4 4 (17/4)), (share_z_in geo8 ltac:(cbn; lra) 3 4 (15/4)) by (cbn; lra).
    bools. cbn [geo8 g_dr g_dz]. lra.
Qed.

Print Assumptions C158_particles_partial.
Print Assumptions C158_gauss_partial.
Print Assumptions C158_divided_partial.
