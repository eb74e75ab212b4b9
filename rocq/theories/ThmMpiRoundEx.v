(** C150: examples, and what happens beyond the conditions: at the border between two ranks. *)
From Coq Require Import ZifyBool Reals Lra Psatz Permutation.
From Verif Require Import Base RndUtil DecompModel DecompProofs CollectorModel CollectorProofs ListUtil PushModel ParticleModel ParticleProofs StepModel
  ThmParticle ThmInit ThmDecomp ThmStep ThmFlight GridModel GridProofs OverlayModel YeeModel YeeProofs ThmYee ExtModel ThmExt CurrentModel CurrentProofs ThmCurrent ThmCurrent2
  YeeSmb ThmYeeSmb SmbCorner SumUtil SmbCurrent ThmDivide RoundModel RoundProofs ThmRound ThmRoundRef DensModel MpiModel MigrModel MigrProofs ThmMigr FieldMpiModel FieldMpi MpiExchange ThmFieldMpi MpiCurrent
  MpiRoundModel MpiRoundProofs ThmMpiRound.
Open Scope Z_scope.

(** ** a round of the undivided area with one particle *)
Section Single.
Variable pusher : Z -> v3 -> v3 -> v3 -> outcome v3.
Variable charge : Z -> R.
Variable mu : R.
Variable g : YeeModel.geo.
Variables R C s : Z.
Hypothesis HR : 1 <= R.
Hypothesis HC : 1 <= C.
Hypothesis Hs : 4 <= s.
Hypothesis Gr : g_nr g = R * s.
Hypothesis Gz : g_nz g = C * s.
Hypothesis GrL : g_nr g < 2 ^ 31.
Hypothesis GzL : g_nz g < 2 ^ 31.
Hypothesis D0 : g_d0 g = 0.
Hypothesis D1 : g_d1 g = 0.
Hypothesis Hdr : (0 < g_dr g)%R.
Hypothesis Hdz : (0 < g_dz g)%R.
Variables Eps Sg : grid Rdefinitions.R.
Variables (f y' : yee) (J : grid3 Rdefinitions.R) (q0 : pt) (v : v3).
Hypothesis Ey : yee_step mu g Eps Sg J f = Ok y'.
Hypothesis Nv : new_velocity pusher g y' 7 q0 v.
Hypothesis Cv : calm g s (set_vel (now q0) v).
Hypothesis FJ : fits3 (g_nr g) (g_nz g) J.
Let dr := g_dr g.
Let dz := g_dz g.
Let a1 := {| nr := g_nr g; nz := g_nz g; rd_ := 1; zd_ := 1 |}.
Let q1 := mkPt (flight (g_nr g) (g_nz g) dr dz (g_dt g) (set_vel (now q0) v)) (pos_r (now q0)) (pos_z (now q0)).
Lemma single_cells : 0 <= cell_number (pos_r (now q1)) dr < g_nr g /\ 0 <= cell_number (pos_z (now q1)) dz < g_nz g /\
  0 <= cell_number (pos_r (now q0)) dr < g_nr g /\ 0 <= cell_number (pos_z (now q0)) dz < g_nz g /\
  (cell_number (pos_r (now q1)) dr - 1 <= cell_number (pos_r (now q0)) dr <= cell_number (pos_r (now q1)) dr + 1 /\
   cell_number (pos_z (now q1)) dz - 1 <= cell_number (pos_z (now q0)) dz <= cell_number (pos_z (now q1)) dz + 1).
Proof using HR HC Hs Gr Gz Hdr Hdz Cv.
  destruct (calm_stays g 1 R C s ltac:(lia) HR HC Hs Gr ltac:(lia) Hdr Hdz _ Cv) as [K1 K2]. destruct (calm_cells g s Hdr Hdz _ Cv) as [K3 K4].
  destruct (calm_near g s Hdr Hdz _ Cv) as [N1 N2]. repeat split; assumption || apply K1 || apply K2 || apply K3 || apply K4 || apply N1 || apply N2.
Qed.
Lemma single_round : exists w1', one_round pusher charge zigzag_distribution mu g Eps Sg (mkWorld1 f J (fun _ _ => [(7, [q0])])) w1' /\ o_f w1' = y' /\ o_p w1' 0 0 = [(7, [q1])].
Proof using HR HC Hs Gr Gz GrL GzL D0 D1 Hdr Hdz Ey Nv Cv FJ.
  set (st0 := fun _ _ : Z => [(7, [q0])] : domain pt). set (p1 := upd_dom pt st0 0 0 [(7, [q1])]).
  assert (Ga1 : good_area a1) by exact (area1_good g R C s HR HC Hs Gr Gz GrL GzL).
  destruct Nv as (e & b & Ee & Eb & Ev).
  assert (St : step_all pusher a1 (fun _ => g) (domain_geo a1 dr dz) (fun _ => y') st0 p1).
  { split.
    - intros i k Hi Hk. cbn [a1 rd_ zd_] in Hi, Hk. replace i with 0 by lia. replace k with 0 by lia. unfold step_domain, p1. rewrite upd_dom_eq. unfold st0.
      constructor; [|constructor]. split; [reflexivity|]. cbn [snd fst]. constructor; [|constructor].
      exists e, b, v. split; [exact Ee|]. split; [exact Eb|]. split; [exact Ev|]. split; [|split; reflexivity].
      exact (flies_one g R C s HR HC Hs Gr Gz GrL GzL Hdr Hdz _ Cv).
    - intros i k N. unfold p1. apply upd_dom_ne. intros [= -> ->]. apply N. cbn. lia. }
  assert (Ip : ids_ok a1 [7] p1).
  { split; [repeat constructor; intros []|]. intros i k Hi Hk. cbn [a1 rd_ zd_] in Hi, Hk. replace i with 0 by lia. replace k with 0 by lia. reflexivity. }
  destruct (C08_collector_conserves pt pt_eq_dec (pt_cr dr) (pt_cz dz) a1 [7] p1 Ga1 (pt_int g) Ip) as (st' & Ec & Is' & P' & _).
  destruct single_cells as (K1 & K2 & K3 & K4 & K5).
  assert (Al : alive (pt_cr dr) (pt_cz dz) a1 q1 = true).
  { unfold alive, pt_cr, pt_cz, part_cr, part_cz. cbn [nr nz a1].
    change (ParticleModel.cell_number (pos_r (now q1)) dr) with (cell_number (pos_r (now q1)) dr). change (ParticleModel.cell_number (pos_z (now q1)) dz) with (cell_number (pos_z (now q1)) dz).
    rewrite !s32_small by lia. lia. }
  assert (Ps : forall st : smb pt, particles_of a1 7 st = flat_map (fun s0 => if fst s0 =? 7 then snd s0 else []) (st 0 0)).
  { intros st. unfold particles_of. cbn [a1 rd_ zd_]. rewrite <- everyone_pairs. unfold everyone, zrange. change (Z.to_nat (1 - 0)) with 1%nat. cbn [zseq flat_map fst snd]. now rewrite !app_nil_r. }
  assert (E1 : st' 0 0 = [(7, [q1])]).
  { apply one_species; [apply Is'; cbn; lia|]. rewrite <- Ps, P', Ps. unfold p1. rewrite upd_dom_eq. cbn [flat_map fst snd filter app]. change (7 =? 7) with true. cbn [filter app]. now rewrite Al. }
  assert (LN : Forall (lands_from_near g) (movers charge dr dz (st' 0 0))).
  { rewrite E1. unfold movers. cbn [flat_map map fst snd app]. apply Forall_cons; [|apply Forall_nil].
    clear - K1 K2 K5 D0 D1. unfold lands_from_near. cbn [mover_of m_r m_z m_ro m_zo]. change (old_r q1) with (pos_r (now q0)). change (old_z q1) with (pos_z (now q0)).
    fold dr dz. rewrite D0, D1. clearbody q1. lia. }
  destruct (zero_zigzag g _ J FJ LN) as (j' & Ej & _).
  exists (mkWorld1 y' j' st'). split; [|split; [reflexivity|exact E1]]. exists p1. split; [exact Ey|]. split; [exact St|]. split; [exact Ec|exact Ej].
Qed.
End Single.

(** ** an example: two ranks with two domains each; one particle goes from the second rank to the first while the fields change *)
Definition walker : ParticleModel.part := {| pos_r := 5 / 4; pos_phi := 0; pos_z := 19 / 4; vel_r := / 2; vel_phi := 0; vel_z := - (7 / 8); p_sin := 0; weight := 1 |}.
Definition walker0 : pt := mkPt walker (5 / 4) (19 / 4).
Definition one_start : world1 := mkWorld1 (mkYee (sz3 8 0) (sz3 8 0) (sz3 8 0)) (sz3 8 1) (fun _ _ => [(7, [walker0])]).
Definition two_start : mworld := mkMworld (fun _ _ => mkYee (sz3 4 0) (sz3 4 0) (sz3 4 0)) (fun _ _ => sz3 4 1)
  (fun p i k => [(7, if (p =? 1) && (i =? 0) then [(7, walker0)] else [])]).
Lemma walker_calm : calm geo8 4 walker.
Proof.
  unfold calm. cbv zeta. cbn [g_dr g_dz g_dt g_nr g_nz geo8 walker pos_r pos_phi pos_z vel_r vel_phi vel_z].
  split; [reflexivity|]. split; [lra|]. split; [lra|]. split.
  { replace ((/ 2 * 1) ^ 2 + (0 * 1) ^ 2)%R with (/ 2 * / 2)%R by field. rewrite sqrt_square by lra. lra. }
  split; [rewrite Rabs_left; lra|]. intros n. rewrite runner_radius, !Rmult_1_r. split; [apply (half_not_int 1)|apply (half_not_int 3)]; lra.
Qed.
Lemma walker_at : pos_r (flight 8 8 1 1 1 walker) = (7 / 4)%R /\ pos_z (flight 8 8 1 1 1 walker) = (31 / 8)%R.
Proof.
  cbn [flight pos_r pos_z vel_r vel_phi vel_z walker]. rewrite runner_radius. unfold bounce. repeat (destruct (Rlt_dec _ _); cbn [fst]; try lra).
Qed.
Lemma C150_setting : rank_inner2 2 2 1 4 (fun _ _ => sz 4 1) (sz 8 1) /\ rank_inner2 2 2 1 4 (fun _ _ => sz 4 0) (sz 8 0) /\
  rank_fields geo8 2 2 1 4 (r_f two_start) (o_f one_start) /\ rank_current 2 2 1 4 (r_j two_start) (o_j one_start).
Proof.
  assert (F8 : forall v, fits3 8 8 (sz3 8 v)) by (intros v []; apply sz_fits; lia).
  assert (F4 : forall v, rank_fit 2 2 1 4 (fun _ _ => sz3 4 v)) by (intros v p _ i j _ _ []; apply sz_fits; lia).
  split; [split; [apply sz_fits; lia|]; intros; split; [apply sz_fits; lia|reflexivity]|].
  split; [split; [apply sz_fits; lia|]; intros; split; [apply sz_fits; lia|reflexivity]|].
  split.
  - assert (A : rank_agrees 2 2 1 4 (fun _ _ => sz3 4 0) (sz3 8 0)) by (intros p i j [] x y _ _ _ _; reflexivity).
    assert (A' : rank_agrees_inside 2 2 1 4 (fun _ _ => sz3 4 0) (sz3 8 0)) by (intros p i j [] x y _ _ _ _; split; intros _; reflexivity).
    exact (conj (conj (F8 0%R) (conj (F8 0%R) (F8 0%R))) (conj (F4 0%R) (conj (F4 0%R) (conj (F4 0%R) (conj A (conj A' A)))))).
  - refine (conj (F8 1%R) (conj (F4 1%R) _)). intros p i j [] x y _ _ _ _ _; reflexivity.
Qed.
Lemma same_start : same_ranks geo8 2 2 1 4 one_start two_start.
Proof.
  destruct C150_setting as (_ & _ & SF & SJ).
  assert (Cr0 : cell_number (5 / 4) 1 = 1) by (apply cell_is; lra). assert (Cz0 : cell_number (19 / 4) 1 = 4) by (apply cell_is; lra).
  split; [exact SF|]. split; [exact SJ|]. split; [|split].
  - exists [7]. split; [intros p _|]; (split; [repeat constructor; intros []|]); reflexivity.
  - intros sid. cbn [two_start one_start r_p o_p]. unfold everybody, particles_of. cbn [rd_ zd_ g_nr g_nz geo8]. vm_compute pairs. vm_compute ranks. cbn [flat_map fst snd].
    change (0 =? 1) with false. change (1 =? 1) with true. change (0 =? 0) with true. change (1 =? 0) with false. cbn [andb]. destruct (7 =? sid); reflexivity.
  - intros p i k t q Hp Hi Hk Ht Hq. cbn [two_start r_p] in Ht. destruct ((p =? 1) && (i =? 0)) eqn:E; destruct Ht as [<-|[]]; cbn [snd] in Hq; [|destruct Hq].
    destruct Hq as [<-|[]]. split; [reflexivity|]. assert (p = 1 /\ i = 0 /\ k = 0) as (-> & -> & ->) by lia.
    unfold home, pt_cr, pt_cz, part_cr, part_cz. cbn [walker0 snd now walker pos_r pos_z g_dr g_dz geo8 nr nz rd_ zd_].
    change (ParticleModel.cell_number (5 / 4) 1) with (cell_number (5 / 4) 1). change (ParticleModel.cell_number (19 / 4) 1) with (cell_number (19 / 4) 1).
    rewrite Cr0, Cz0. vm_compute. intuition congruence.
Qed.
Example C150_ex : rank_inner2 2 2 1 4 (fun _ _ => sz 4 1) (sz 8 1) /\ rank_inner2 2 2 1 4 (fun _ _ => sz 4 0) (sz 8 0) /\ same_ranks geo8 2 2 1 4 one_start two_start /\
  exists w1', one_round coast (fun _ => 1%R) zigzag_distribution 1 geo8 (sz 8 1) (sz 8 0) one_start w1' /\ calm_ranks coast (fun _ => 1%R) geo8 2 2 1 4 one_start w1' /\
  exists w', mpi_round coast (fun _ => 1%R) zigzag_distribution 1 geo8 2 2 1 4 (fun _ _ => sz 4 1) (fun _ _ => sz 4 0) 2 two_start w' /\ same_ranks geo8 2 2 1 4 w1' w' /\
    exists t q, In t (r_p w' 0 0 0) /\ In q (snd t) /\ fst q = 7 /\ pos_r (now (snd q)) = (7 / 4)%R /\ pos_z (now (snd q)) = (31 / 8)%R /\ old_z (snd q) = (19 / 4)%R.
Proof.
  destruct C150_setting as (Ie & Is & SF & SJ). split; [exact Ie|]. split; [exact Is|]. split; [exact same_start|].
  assert (Cr0 : cell_number (5 / 4) 1 = 1) by (apply cell_is; lra). assert (Cz0 : cell_number (19 / 4) 1 = 4) by (apply cell_is; lra).
  assert (Cr1 : cell_number (7 / 4) 1 = 1) by (apply cell_is; lra). assert (Cz1 : cell_number (31 / 8) 1 = 3) by (apply cell_is; lra).
  destruct (mpi_step_exists 1 geo8 2 2 1 4 ltac:(lia) ltac:(lia) ltac:(lia) ltac:(lia) ltac:(lia) eq_refl eq_refl ltac:(cbn; lia) ltac:(cbn; lia) eq_refl _ _ _ _ Ie Is 2%nat _ _ _ _ ltac:(cbn; lia) SF SJ) as (f & St).
  destruct (mpi_step_full 1 geo8 2 2 1 4 ltac:(lia) ltac:(lia) ltac:(lia) ltac:(lia) ltac:(lia) eq_refl eq_refl ltac:(cbn; lia) ltac:(cbn; lia) eq_refl _ _ _ _ Ie Is 2%nat _ _ _ _ _ SF SJ St) as (y' & Ey & SF' & _).
  destruct SF' as ((Fe & Fh & _) & _).
  assert (Ins : ThmExt.inside geo8 (5 / 4) (19 / 4)) by (unfold ThmExt.inside; cbn; repeat split; (lia || lra)).
  destruct (C41_defined geo8 (y_e y') _ _ Fe Ins) as (e & _ & Ee & _). destruct (C41_defined geo8 (y_h y') _ _ Fh Ins) as (_ & b & _ & Eb).
  destruct (single_round coast (fun _ => 1%R) 1 geo8 2 2 4 ltac:(lia) ltac:(lia) ltac:(lia) eq_refl eq_refl ltac:(cbn; lia) ltac:(cbn; lia) eq_refl eq_refl ltac:(cbn; lra) ltac:(cbn; lra)
     (sz 8 1) (sz 8 0) (o_f one_start) y' (o_j one_start) walker0 (V3 (/ 2) 0 (- (7 / 8))) Ey) as (w1' & O1 & Ef & Ep).
  { exists e, b. split; [exact Ee|]. split; [exact Eb|reflexivity]. } { exact walker_calm. } { apply SJ. }
  set (q1 := mkPt _ _ _) in Ep. destruct walker_at as [L1 L2].
  assert (L1' : pos_r (now q1) = (7 / 4)%R) by exact L1. assert (L2' : pos_z (now q1) = (31 / 8)%R) by exact L2.
  assert (Cm : calm_ranks coast (fun _ => 1%R) geo8 2 2 1 4 one_start w1').
  { split; [|split; [right; now left|split; [right|split; [right; right|reflexivity]]]].
    - intros t q v [<-|[]] [<-|[]] (e0 & b0 & _ & _ & Ev). injection Ev as <-. exact walker_calm.
    - intros t q [<-|[]] [<-|[]] (p & Hp & H). cbn [walker0 now walker pos_z g_dz geo8] in H. replace p with 1 in H by lia. cbn in H. lra.
    - intros t q Ht Hq. rewrite Ep in Ht. destruct Ht as [<-|[]]. destruct Hq as [<-|[]]. unfold off_corners, off_corner, from_r, from_z, domain_of, dom_geo.
      cbn [mover_of m_r m_z m_ro m_zo g_dr g_dz g_d0 g_d1 g_nr g_nz geo8 fst snd]. rewrite L1', L2'. change (old_r q1) with (5 / 4)%R. change (old_z q1) with (19 / 4)%R.
      rewrite Cr0, Cr1, Cz0, Cz1. change (1 / 4) with 0. change (3 / 4) with 0. lia. }
  exists w1'. split; [exact O1|]. split; [exact Cm|].
  destruct (C150_takes_place coast (fun _ => 1%R) 1 geo8 2 2 1 4 ltac:(lia) ltac:(lia) ltac:(lia) ltac:(lia) eq_refl eq_refl ltac:(cbn; lia) ltac:(cbn; lia) eq_refl eq_refl
     ltac:(cbn; lra) ltac:(cbn; lra) _ _ _ _ Ie Is one_start w1' two_start O1 Cm same_start 2%nat ltac:(cbn; lia) ltac:(cbn; lia)) as (w' & Rw).
  assert (S' := C150_round_partial coast (fun _ => 1%R) 1 geo8 2 2 1 4 ltac:(lia) ltac:(lia) ltac:(lia) ltac:(lia) eq_refl eq_refl ltac:(cbn; lia) ltac:(cbn; lia) eq_refl eq_refl
     ltac:(cbn; lra) ltac:(cbn; lra) _ _ _ _ Ie Is one_start w1' two_start O1 Cm same_start 2%nat w' Rw).
  exists w'. split; [exact Rw|]. split; [exact S'|]. destruct S' as (_ & _ & _ & Pm & Hm).
  assert (Q : In q1 (map snd (everybody 2 {| nr := 2 * 4; nz := 1 * 4; rd_ := 2; zd_ := 1 |} 7 (r_p w')))).
  { apply (Permutation_in (l := particles_of {| nr := g_nr geo8; nz := g_nz geo8; rd_ := 1; zd_ := 1 |} 7 (o_p w1'))); [symmetry; apply Pm|]. apply In_particles. exists 0, 0, (7, [q1]).
    cbn [rd_ zd_]. rewrite Ep. repeat split; try lia; now left. }
  apply in_map_iff in Q as ([sid q2] & E2 & Q). cbn [snd] in E2. subst q2. unfold everybody in Q. apply in_flat_map in Q as (p & Hp & Q). rewrite ranks_zrange in Hp. apply In_zrange' in Hp.
  apply In_particles in Q as (i & k & t & Hi & Hk & Ht & Et & Hq). cbn [rd_ zd_] in Hi, Hk.
  destruct (Hm p i k t _ Hp Hi Hk Ht Hq) as [Tg Hh]. cbn [fst snd] in Tg, Hh.
  destruct (home_cells geo8 2 2 4 ltac:(lia) ltac:(lia) ltac:(lia) eq_refl eq_refl ltac:(cbn; lia) ltac:(cbn; lia) i (p * 1 + k) q1 Hi ltac:(lia)) as [H1 H2];
    try (cbn [g_dr g_dz g_nr g_nz geo8]; rewrite ?L1', ?L2', ?Cr1, ?Cz1; lia); [exact Hh|].
  cbn [g_dr g_dz geo8] in H1, H2. rewrite L1', Cr1 in H1. rewrite L2', Cz1 in H2.
  exists t, (sid, q1). assert (p = 0 /\ i = 0 /\ k = 0) as (-> & -> & ->) by lia. split; [exact Ht|]. split; [exact Hq|]. cbn [fst snd]. split; [congruence|]. split; [exact L1'|]. split; [exact L2'|reflexivity].
Qed.

(** ** beyond the conditions: a particle next to the border between two ranks *)
(** a pusher that follows the magnetic field *)
Definition drift : Z -> v3 -> v3 -> v3 -> outcome v3 := fun _ _ b _ => Ok (V3 (/ 4) 0 (atan (vy b) / 8)).
Definition idler : ParticleModel.part := {| pos_r := 2; pos_phi := 0; pos_z := 17 / 4; vel_r := 0; vel_phi := 0; vel_z := 0; p_sin := 0; weight := 1 |}.
Definition idler0 : pt := mkPt idler 2 (17 / 4).
Definition slab_start1 : world1 := mkWorld1 (mkYee (ThmCorner.slab3 0) (ThmCorner.slab3 0) (ThmCorner.slab3 0)) (ThmCorner.slab3 1) (fun _ _ => [(7, [idler0])]).
Definition slab_start : mworld := mkMworld empty_rank (fun _ _ => sz3 4 1) (fun p i k => [(7, if p =? 1 then [(7, idler0)] else [])]).
Definition drifted (x : R) : pt := mkPt (flight 4 8 1 1 1 (set_vel idler (V3 (/ 4) 0 (atan x / 8)))) 2 (17 / 4).
Lemma atan_small x : (- (/ 4) < atan x / 8 < / 4)%R.
Proof. destruct (atan_bound x) as [A B]. assert (P := PI_4). lra. Qed.
Lemma drift_calm x : calm ThmCorner.geo48 4 (set_vel idler (V3 (/ 4) 0 (atan x / 8))).
Proof.
  assert (S := atan_small x). unfold calm. cbv zeta. cbn [g_dr g_dz g_dt g_nr g_nz ThmCorner.geo48 set_vel idler pos_r pos_phi pos_z vel_r vel_phi vel_z vx vy vz].
  assert (Q : sqrt ((2 + / 4 * 1) * (2 + / 4 * 1) + 0 * 1 * (0 * 1)) = (9 / 4)%R) by (replace ((2 + / 4 * 1) * (2 + / 4 * 1) + 0 * 1 * (0 * 1))%R with (9 / 4 * (9 / 4))%R by field; apply sqrt_square; lra).
  split; [reflexivity|]. split; [lra|]. split; [lra|]. split.
  { replace ((/ 4 * 1) ^ 2 + (0 * 1) ^ 2)%R with (/ 4 * / 4)%R by field. rewrite sqrt_square by lra. lra. }
  split; [unfold Rabs; destruct (Rcase_abs _); lra|]. intros n. rewrite Q, !Rmult_1_r. split.
  - apply (half_not_int 2). lra.
  - apply (half_not_int 4). lra.
Qed.
Lemma drifted_at x : pos_r (now (drifted x)) = (9 / 4)%R /\ pos_z (now (drifted x)) = (17 / 4 + atan x / 8)%R.
Proof.
  assert (S := atan_small x). cbn [drifted now flight set_vel idler pos_r pos_z vel_r vel_phi vel_z vx vy vz].
  assert (Q : sqrt ((2 + / 4 * 1) * (2 + / 4 * 1) + 0 * 1 * (0 * 1)) = (9 / 4)%R) by (replace ((2 + / 4 * 1) * (2 + / 4 * 1) + 0 * 1 * (0 * 1))%R with (9 / 4 * (9 / 4))%R by field; apply sqrt_square; lra).
  rewrite Q. unfold bounce. repeat (destruct (Rlt_dec _ _); cbn [fst]; try lra).
Qed.
Lemma slab_same : same_ranks ThmCorner.geo48 2 1 1 4 slab_start1 slab_start.
Proof.
  destruct C135_setting as (_ & _ & SF & SJ).
  assert (Cr0 : cell_number 2 1 = 2) by (apply cell_is; lra). assert (Cz0 : cell_number (17 / 4) 1 = 4) by (apply cell_is; lra).
  split; [exact SF|]. split; [exact SJ|]. split; [|split].
  - exists [7]. split; [intros p _|]; (split; [repeat constructor; intros []|]); reflexivity.
  - intros sid. cbn [slab_start slab_start1 r_p o_p]. unfold everybody, particles_of. cbn [rd_ zd_ g_nr g_nz ThmCorner.geo48]. vm_compute pairs. vm_compute ranks. cbn [flat_map fst snd].
    change (0 =? 1) with false. change (1 =? 1) with true. destruct (7 =? sid); reflexivity.
  - intros p i k t q Hp Hi Hk Ht Hq. cbn [slab_start r_p] in Ht. destruct (p =? 1) eqn:E; destruct Ht as [<-|[]]; cbn [snd] in Hq; [|destruct Hq].
    destruct Hq as [<-|[]]. split; [reflexivity|]. assert (p = 1 /\ i = 0 /\ k = 0) as (-> & -> & ->) by lia.
    unfold home, pt_cr, pt_cz, part_cr, part_cz. cbn [idler0 snd now idler pos_r pos_z g_dr g_dz ThmCorner.geo48 nr nz rd_ zd_].
    change (ParticleModel.cell_number 2 1) with (cell_number 2 1). change (ParticleModel.cell_number (17 / 4) 1) with (cell_number (17 / 4) 1).
    rewrite Cr0, Cz0. vm_compute. intuition congruence.
Qed.

Definition slab_whole := {| nr := 1 * 4; nz := 2 * 1 * 4; rd_ := 1; zd_ := 2 * 1 |}.
Definition slab_part := {| nr := 1 * 4; nz := 1 * 4; rd_ := 1; zd_ := 1 |}.
Lemma idler_home : home (pt_cr 1) (pt_cz 1) slab_whole 0 (1 * 1 + 0) idler0.
Proof. destruct slab_same as (_ & _ & _ & _ & H). apply (H 1 0 0 (7, [(7, idler0)]) (7, idler0)); try lia; now left. Qed.
(** the step of the particle on its rank *)
Lemma drift_step y x G : fits3 4 4 (y_e y) -> get_field_h right_geo (y_h y) 2 (17 / 4) = Ok x -> G = rank_domain_geo slab_whole 1 1 2 1 0 0 ->
  forall q', step_particle drift (dom_geo right_geo 1 1 4 (0, 0)) G y 7 idler0 q' <-> q' = drifted (vcomp Cphi x).
Proof.
  intros Fe Ex -> q'. unfold slab_whole. assert (RG := rank_geo_whole ThmCorner.geo48 2 1 1 4 ltac:(lia) ltac:(lia) ltac:(lia) eq_refl ltac:(cbn; lia) 1 0 0 ltac:(lia) ltac:(lia)).
  cbn [g_dr g_dz ThmCorner.geo48] in RG. rewrite RG. clear RG.
  change (dom_geo right_geo 1 1 4 (0, 0)) with right_geo.
  assert (A := flies_dom ThmCorner.geo48 1 (2 * 1) 4 ltac:(lia) ltac:(lia) ltac:(lia) eq_refl eq_refl ltac:(cbn; lia) ltac:(cbn; lia) ltac:(cbn; lra) ltac:(cbn; lra) 0 (1 * 1 + 0) idler0 (V3 (/ 4) 0 (atan (vcomp Cphi x) / 8))
     ltac:(lia) ltac:(lia) idler_home (drift_calm _)).
  assert (Ins : ThmExt.inside right_geo 2 (17 / 4)) by (unfold ThmExt.inside; cbn; repeat split; (lia || lra)).
  destruct (C41_defined right_geo (y_e y) _ _ Fe Ins) as (e & _ & Ee & _).
  assert (Vx : vy (vec x) = vcomp Cphi x) by (destruct x as [[? ?] ?]; reflexivity).
  split.
  - intros (e' & b & v & _ & Eb & Ev & Ad & O1 & O2). cbn [idler0 now idler pos_r pos_z] in Eb. rewrite Ex in Eb. injection Eb as <-. unfold drift in Ev. rewrite Vx in Ev. injection Ev as <-.
    assert (E : now q' = now (drifted (vcomp Cphi x))) by exact (advanced_unique _ _ _ _ _ Ad A). destruct q' as [n o1 o2]. cbn [now old_r old_z] in *. subst. reflexivity.
  - intros ->. exists e, x, (V3 (/ 4) 0 (atan (vcomp Cphi x) / 8)). split; [exact Ee|]. split; [exact Ex|]. split; [unfold drift; now rewrite Vx|]. split; [exact A|split; reflexivity].
Qed.
Lemma slab_ready (x : R) (st1 : Z -> smb tpt) : (forall p, 0 <= p < 2 -> st1 p 0 0 = [(7, if p =? 1 then [(7, drifted x)] else [])]) ->
  state_ok (fun q => pt_cr 1 (snd q)) (fun q => pt_cz 1 (snd q)) fst 2 slab_part [7] st1 /\ state_tame (fun q => pt_cr 1 (snd q)) (fun q => pt_cz 1 (snd q)) 2 slab_part st1 /\
  forall p, 0 <= p < 2 -> population slab_part [7] (st1 p) < Z.of_nat 2.
Proof.
  intros E. assert (Po : forall p, 0 <= p < 2 -> population slab_part [7] (st1 p) < 2).
  { intros p Hp. unfold population, particles_of. cbn [sumZ map fold_right]. vm_compute pairs. cbn [flat_map fst snd]. rewrite (E p Hp). cbn [flat_map fst snd]. change (7 =? 7) with true. destruct (p =? 1); cbn; lia. }
  destruct (drifted_at x) as [Q1 Q2]. assert (B := atan_small x).
  assert (Cr1 : cell_number (9 / 4) 1 = 2) by (apply cell_is; lra). assert (Cz1 : cell_number (17 / 4 + atan x / 8) 1 = 4) by (apply cell_is; lra).
  split; [|split; [|exact Po]].
  - intros p Hp. split; [|split].
    + split; [repeat constructor; intros []|]. intros i k Hi Hk. cbn [slab_part rd_ zd_] in Hi, Hk. replace i with 0 by lia. replace k with 0 by lia. rewrite (E p Hp). reflexivity.
    + apply (Z.lt_trans _ 2); [exact (Po p Hp)|reflexivity].
    + intros i j s l q Hi Hj Hl Hq. cbn [slab_part rd_ zd_] in Hi, Hj. replace i with 0 in Hl by lia. replace j with 0 in Hl by lia. rewrite (E p Hp) in Hl.
      split; [|exact (pt_int ThmCorner.geo48 (snd q))]. destruct (p =? 1); destruct Hl as [[= <- <-]|[]]; [destruct Hq as [<-|[]]; reflexivity|destruct Hq].
  - intros p i j s l q Hp Hi Hj Hl Hq. cbn [slab_part rd_ zd_] in Hi, Hj. replace i with 0 in Hl by lia. replace j with 0 in Hl by lia. rewrite (E p Hp) in Hl.
    destruct (p =? 1) eqn:P1; destruct Hl as [[= <- <-]|[]]; [|destruct Hq]. destruct Hq as [<-|[]]. right. right. left. cbn [snd]. unfold pt_cz, part_cz. rewrite Q2.
    change (ParticleModel.cell_number (17 / 4 + atan x / 8) 1) with (cell_number (17 / 4 + atan x / 8) 1). rewrite Cz1. replace p with 1 by lia. cbn. lia.
Qed.

(** particles do not end up where the undivided area has them, if their magnetic field is read next to a border between ranks *)
Theorem C150_border_refuted : exists pusher charge g W R C s eps sg Eps Sg K w1 w1' w,
  W = 2 /\ R = 1 /\ C = 1 /\ 4 <= s /\ g_nr g = R * s /\ g_nz g = W * C * s /\ g_d0 g = 0 /\ g_d1 g = 0 /\ g_dr g = 1%R /\ g_dz g = 1%R /\
  rank_inner2 W R C s eps Eps /\ rank_inner2 W R C s sg Sg /\ same_ranks g W R C s w1 w /\
  one_round pusher charge zigzag_distribution 1 g Eps Sg w1 w1' /\
  (forall t q v, In t (o_p w1 0 0) -> In q (snd t) -> new_velocity pusher g (o_f w1') (fst t) q v -> calm g s (set_vel (now q) v)) /\
  (exists t q, o_p w1 0 0 = [t] /\ snd t = [q] /\ near_rank_border g W (C * s) (pos_z (now q))) /\
  (exists w', mpi_round pusher charge zigzag_distribution 1 g W R C s eps sg K w w') /\
  forall K' w', mpi_round pusher charge zigzag_distribution 1 g W R C s eps sg K' w w' ->
    ~ forall sid, Permutation (map snd (everybody W {| nr := R * s; nz := C * s; rd_ := R; zd_ := C |} sid (r_p w'))) (particles_of {| nr := g_nr g; nz := g_nz g; rd_ := 1; zd_ := 1 |} sid (o_p w1')).
Proof.
  destruct C135_setting as (I1 & I2 & SF & SJ).
  destruct (mpi_step_exists 1 ThmCorner.geo48 2 1 1 4 ltac:(lia) ltac:(lia) ltac:(lia) ltac:(lia) ltac:(lia) eq_refl eq_refl ltac:(cbn; lia) ltac:(cbn; lia) eq_refl _ _ _ _ I1 I2 2%nat _ _ _ _ ltac:(cbn; lia) SF SJ) as (f & St).
  destruct (mpi_step_sound 1 ThmCorner.geo48 2 1 1 4 ltac:(lia) ltac:(lia) ltac:(lia) ltac:(lia) ltac:(lia) eq_refl eq_refl ltac:(cbn; lia) ltac:(cbn; lia) eq_refl _ _ _ _ I1 I2 2%nat _ _ _ _ _ SF SJ St) as (y' & Ey & SF').
  assert (SF0 := SF'). destruct SF0 as ((Fe & Fh & _) & Le & Lh & _).
  assert (Ins : ThmExt.inside ThmCorner.geo48 2 (17 / 4)) by (unfold ThmExt.inside; cbn; repeat split; (lia || lra)).
  destruct (C41_defined ThmCorner.geo48 (y_e y') _ _ Fe Ins) as (e & _ & Ee & _).
  destruct (border_field 2%nat f y' St Ey) as (_ & _ & a & b & Ea & Eb & _).
  assert (Vb : vy (vec b) = vcomp Cphi b) by (destruct b as [[? ?] ?]; reflexivity).
  destruct (single_round drift (fun _ => 1%R) 1 ThmCorner.geo48 1 2 4 ltac:(lia) ltac:(lia) ltac:(lia) eq_refl eq_refl ltac:(cbn; lia) ltac:(cbn; lia) eq_refl eq_refl ltac:(cbn; lra) ltac:(cbn; lra)
     (ThmCorner.slab 1) (ThmCorner.slab 0) (o_f slab_start1) y' (o_j slab_start1) idler0 (V3 (/ 4) 0 (atan (vcomp Cphi b) / 8)) Ey) as (w1' & O1 & Ef & Ep).
  { exists e, b. split; [exact Ee|]. split; [exact Eb|]. unfold drift. now rewrite Vb. } { apply drift_calm. } { apply SJ. }
  change (mkPt _ _ _) with (drifted (vcomp Cphi b)) in Ep.
  exists drift, (fun _ => 1%R), ThmCorner.geo48, 2, 1, 1, 4, (fun _ _ => sz 4 1), (fun _ _ => sz 4 0), (ThmCorner.slab 1), (ThmCorner.slab 0), 2%nat, slab_start1, w1', slab_start.
  repeat (split; [reflexivity || lia|]). split; [exact I1|]. split; [exact I2|]. split; [exact slab_same|]. split; [exact O1|].
  split; [|split; [|split]].
  - intros t q v [<-|[]] [<-|[]] (e0 & b0 & _ & _ & Ev). unfold drift in Ev. injection Ev as <-. apply drift_calm.
  - exists (7, [idler0]), idler0. split; [reflexivity|]. split; [reflexivity|]. exists 1. cbn [g_dz ThmCorner.geo48 idler0 now idler pos_z]. split; [lia|]. cbn. lra.
  - set (st1 := fun p i k : Z => [(7, if p =? 1 then [(7, if (i =? 0) && (k =? 0) then drifted (vcomp Cphi a) else idler0)] else [])] : domain tpt).
    destruct (slab_ready (vcomp Cphi a) st1) as (Ok1 & Tm1 & Po1); [reflexivity|].
    destruct (C101_takes_place (fun q : tpt => pt_cr 1 (snd q)) (fun q => pt_cz 1 (snd q)) fst tpt_eq_dec 2 2 slab_part [7] st1
      (good_ranks ThmCorner.geo48 2 1 1 4 ltac:(lia) ltac:(lia) ltac:(lia) ltac:(lia) eq_refl eq_refl ltac:(cbn; lia) ltac:(cbn; lia)) Ok1 Tm1 Po1) as (st' & Mg).
    destruct (C101_conserves_partial _ _ _ tpt_eq_dec 2 2 slab_part [7] st1 st' (good_ranks ThmCorner.geo48 2 1 1 4 ltac:(lia) ltac:(lia) ltac:(lia) ltac:(lia) eq_refl eq_refl ltac:(cbn; lia) ltac:(cbn; lia)) Ok1 Tm1 Mg) as (P' & I' & H').
    destruct (mpi_zigzag_exists ThmCorner.geo48 2 1 1 4 ltac:(lia) ltac:(lia) ltac:(lia) ltac:(lia) ltac:(lia) eq_refl eq_refl ltac:(cbn; lia) eq_refl
       (fun p ik => movers (fun _ => 1%R) 1 1 (untag (st' p (fst ik) (snd ik)))) 2 (r_j slab_start) ltac:(cbn; lia)) as (j' & Ej); [apply SJ| |].
    + intros p i k Hp Hi Hk. replace i with 0 by lia. replace k with 0 by lia. apply Forall_forall. intros m Hm. unfold movers, untag in Hm. cbn [fst snd] in Hm.
      apply in_flat_map in Hm as (t & Ht & Hm). apply in_map_iff in Ht as (t0 & <- & Ht0). cbn [fst snd] in Hm. rewrite map_map in Hm. apply in_map_iff in Hm as (q & <- & Hq).
      assert (Q : In q (everybody 2 slab_part (fst t0) st')).
      { unfold everybody. apply in_flat_map. exists p. split; [rewrite ranks_zrange; apply In_zrange'; lia|]. apply In_particles. exists 0, 0, t0. cbn [rd_ zd_ slab_part]. repeat split; auto; lia. }
      apply (Permutation_in _ (P' (fst t0))), filter_In in Q as [Q _]. unfold everybody in Q. apply in_flat_map in Q as (p0 & Hp0 & Q). rewrite ranks_zrange in Hp0. apply In_zrange' in Hp0.
      apply In_particles in Q as (i0 & k0 & t1 & Hi0 & Hk0 & Ht1 & _ & Hq1). cbn [slab_part rd_ zd_] in Hi0, Hk0. replace i0 with 0 in Ht1 by lia. replace k0 with 0 in Ht1 by lia.
      assert (Eq : q = (7, drifted (vcomp Cphi a))).
      { unfold st1 in Ht1. destruct (p0 =? 1); destruct Ht1 as [<-|[]]; [|destruct Hq1]. destruct Hq1 as [<-|[]]. reflexivity. }
      destruct t0 as [sid l]. cbn [fst snd] in *. destruct (H' p 0 0 sid l q Hp ltac:(cbn; lia) ltac:(cbn; lia) Ht0 Hq) as [_ [_ Hz]]. subst q. cbn [snd] in Hz |- *.
      destruct (drifted_at (vcomp Cphi a)) as [Q1 Q2]. assert (B := atan_small (vcomp Cphi a)).
      assert (Cr1 : cell_number (9 / 4) 1 = 2) by (apply cell_is; lra). assert (Cz1 : cell_number (17 / 4 + atan (vcomp Cphi a) / 8) 1 = 4) by (apply cell_is; lra).
      assert (Cr0 : cell_number 2 1 = 2) by (apply cell_is; lra). assert (Cz0 : cell_number (17 / 4) 1 = 4) by (apply cell_is; lra).
      unfold pt_cz, part_cz in Hz. rewrite Q2 in Hz. change (ParticleModel.cell_number (17 / 4 + atan (vcomp Cphi a) / 8) 1) with (cell_number (17 / 4 + atan (vcomp Cphi a) / 8) 1) in Hz. rewrite Cz1 in Hz.
      assert (p = 0 \/ p = 1) as [->| ->] by lia; [exfalso; vm_compute in Hz; destruct Hz; congruence|].
      unfold lands_from_near, dom_geo. cbn [fst snd g_d0 g_d1 g_nr g_nz g_dr g_dz mover_of m_r m_z m_ro m_zo ThmCorner.geo48]. rewrite Q1, Q2.
      change (old_r (drifted (vcomp Cphi a))) with 2%R. change (old_z (drifted (vcomp Cphi a))) with (17 / 4)%R. rewrite Cr0, Cr1, Cz0, Cz1. lia.
    + exists (mkMworld f j' st'), st1. cbn [r_f r_j r_p]. split; [exact St|]. split; [|split; [exact Mg|exact Ej]].
      intros p Hp. assert (p = 0 \/ p = 1) as [->| ->] by (unfold rank_range in Hp; lia).
      * destruct (rank_geo_eq ThmCorner.geo48 2 1 1 4 ltac:(lia) ltac:(lia) ltac:(lia) eq_refl ltac:(cbn; lia) eq_refl 0 ltac:(lia)) as (gr & Eg & _). exists gr, 1. split; [exact Eg|]. split.
        -- intros i k Hi Hk. constructor; [|constructor]. split; [reflexivity|]. constructor.
        -- reflexivity.
      * exists right_geo, 1. split; [reflexivity|]. split.
        -- intros i k Hi Hk. replace i with 0 by lia. replace k with 0 by lia. constructor; [|constructor]. split; [reflexivity|]. constructor; [|constructor]. split; [reflexivity|]. cbn [fst snd].
           apply (drift_step (f 1 (0, 0)) a); auto. apply (Le 1 ltac:(lia) 0 0); lia.
        -- intros i k N. unfold st1. change (1 =? 1) with true. destruct ((i =? 0) && (k =? 0)) eqn:E; [exfalso; apply N; lia|reflexivity].
  - intros K' w' (p1 & St' & Sp & Mg & _) Pm.
    destruct (border_field K' (r_f w') y' St' Ey) as (_ & _ & a' & b' & Ea' & Eb' & Lt). rewrite Eb in Eb'. injection Eb' as <-.
    destruct (mpi_step_sound 1 ThmCorner.geo48 2 1 1 4 ltac:(lia) ltac:(lia) ltac:(lia) ltac:(lia) ltac:(lia) eq_refl eq_refl ltac:(cbn; lia) ltac:(cbn; lia) eq_refl _ _ _ _ I1 I2 K' _ _ _ _ _ SF SJ St') as (y2 & _ & (_ & Le' & _)).
    assert (E1 : forall p, 0 <= p < 2 -> p1 p 0 0 = [(7, if p =? 1 then [(7, drifted (vcomp Cphi a'))] else [])]).
    { intros p Hp. destruct (Sp p Hp) as (gr & C' & Eg & Pd & _). assert (p = 0 \/ p = 1) as [->| ->] by lia.
      - assert (C' = 1) as -> by (vm_compute in Eg; now injection Eg as <-). specialize (Pd 0 0 ltac:(lia) ltac:(lia)). unfold step_tagged in Pd. cbn [slab_start r_p] in Pd.
        inversion Pd as [|? t' ? ? [Et Ft] Rt]; subst. inversion Rt; subst. destruct t' as [x l']. cbn [fst snd] in *. inversion Ft; subst. reflexivity.
      - assert (X : rank_geo ThmCorner.geo48 2 (2 * 1) 1 = Ok (right_geo, 1)) by reflexivity. rewrite X in Eg. injection Eg as <- <-. specialize (Pd 0 0 ltac:(lia) ltac:(lia)).
        unfold step_tagged in Pd. cbn [slab_start r_p] in Pd. change (1 =? 1) with true in Pd |- *. cbv iota in Pd |- *.
        inversion Pd as [|? t' ? ? [Et Ft] Rt]; subst. inversion Rt; subst. destruct t' as [x l']. cbn [fst snd] in *. inversion Ft as [|? q' ? ? [Eq Sq] Rq]; subst. inversion Rq; subst.
        apply (drift_step (r_f w' 1 (0, 0)) a') in Sq; auto; [|apply (Le' 1 ltac:(lia) 0 0); lia]. destruct q' as [u v]. cbn [fst snd] in *. subst. reflexivity. }
    destruct (slab_ready (vcomp Cphi a') p1 E1) as (Ok1 & Tm1 & _).
    destruct (C101_conserves_partial _ _ _ tpt_eq_dec K' 2 slab_part [7] p1 (r_p w') (good_ranks ThmCorner.geo48 2 1 1 4 ltac:(lia) ltac:(lia) ltac:(lia) ltac:(lia) eq_refl eq_refl ltac:(cbn; lia) ltac:(cbn; lia)) Ok1 Tm1 Mg) as (P' & _ & _).
    assert (Q : In (drifted (vcomp Cphi b)) (map snd (everybody 2 {| nr := 1 * 4; nz := 1 * 4; rd_ := 1; zd_ := 1 |} 7 (r_p w')))).
    { apply (Permutation_in _ (Permutation_sym (Pm 7))), In_particles. exists 0, 0, (7, [drifted (vcomp Cphi b)]). cbn [rd_ zd_]. rewrite Ep. repeat split; try lia; now left. }
    apply in_map_iff in Q as (q & Eq & Q). fold slab_part in Q. apply (Permutation_in _ (P' 7)), filter_In in Q as [Q _]. unfold everybody in Q. apply in_flat_map in Q as (p & Hp & Q). rewrite ranks_zrange in Hp. apply In_zrange' in Hp.
    apply In_particles in Q as (i & k & t & Hi & Hk & Ht & _ & Hq). cbn [slab_part rd_ zd_] in Hi, Hk. replace i with 0 in Ht by lia. replace k with 0 in Ht by lia. rewrite (E1 p Hp) in Ht.
    destruct (p =? 1); destruct Ht as [<-|[]]; [|destruct Hq]. destruct Hq as [<-|[]]. cbn [snd] in Eq.
    destruct (drifted_at (vcomp Cphi a')) as [_ Z1]. destruct (drifted_at (vcomp Cphi b)) as [_ Z2]. rewrite Eq, Z2 in Z1. assert (X := atan_increasing _ _ Lt). lra.
Qed.

(** ** beyond the conditions: deposits at a corner between ranks *)
(** what the ranks hold in a cell is exactly the sum of the deposits of all domains into it, without those that get [lost] *)
Theorem C150_current_sum : forall g W R C s ps K j j', 1 <= W -> 1 <= R -> 1 <= C -> 4 <= s -> s + 4 < 2 ^ 32 -> g_nr g = R * s -> g_nz g = W * C * s -> g_nz g < 2 ^ 32 -> g_d1 g = 0 ->
  rank_fit W R C s j ->
  (forall p i k, 0 <= p < W -> 0 <= i < R -> 0 <= k < C -> Forall (lands_from_near (dom_geo g R (W * C) s (i, p * C + k))) (ps p (i, k))) ->
  mpi_current zigzag_distribution g W (W * C) R s K ps j j' ->
  forall p i k c x y, 0 <= p < W -> 0 <= i < R -> 0 <= k < C -> 0 <= x < s -> 0 <= y < s -> let X := i * s + x in let Y := (p * C + k) * s + y in
  lv (getc c (j' p (i, k))) x y = sum2 R (W * C) (fun a b => if lost s (X - a * s) (Y - b * s) (b / C =? p) then 0%R else amount c X Y (flat_map (zigzag g) (ps (b / C) (a, b mod C)))).
Proof.
  intros g W R C s ps K j j' HW HR HC Hs HsL Gr Gz GzL G0 Fj L (jp & Dp & E).
  assert (DW : W * C / W = C) by (rewrite (Z.mul_comm W C); now rewrite Z.div_mul by lia). rewrite DW in E.
  assert (Ex : forall p, 0 <= p < W -> exists m, pass3 Rplus R C m = Ok (jp p) /\ all_fit R C s m /\
    forall i k c x y, 0 <= i < R -> 0 <= k < C -> inw s s x y -> lv (getc c (m (i, k))) x y = amount c x y (flat_map (zigzag (dom_geo g R (W * C) s (i, p * C + k))) (ps p (i, k)))).
  { intros p Hp. destruct (rank_zigzag g W R C s HW HR HC Hs HsL Gz GzL G0 p (ps p) (j p) Hp (Fj p Hp) (fun i k => L p i k Hp)) as (m & m1 & E1 & E2 & F1 & F2 & V).
    rewrite (Dp p Hp) in E2. injection E2 as ->. exists m. auto. }
  destruct (choose_fun W _ HW Ex) as (m & Pm).
  assert (Fm : rank_fit W R C s m) by (intros p Hp; now apply Pm).
  destruct (rank_stitch_sum W R C s HW HR HC Hs HsL K m jp j' Fm (fun p Hp => proj1 (Pm p Hp)) E) as [_ S].
  intros p i k c x y Hp Hi Hk Hx Hy.
  assert (Am : forall a b X Y l, amount c X Y (flat_map (zigzag g) l) = amount c (X - a * s) (Y - b * s) (flat_map (zigzag (dom_geo g R (W * C) s (a, b))) l)).
  { intros a b X Y l. rewrite (flat_map_shift (zigzag g) (zigzag (dom_geo g R (W * C) s (a, b))) (a * s) (b * s)) by (intros; apply zigzag_shift). rewrite amount_shift. f_equal; lia. }
  assert (Bk : forall q t, 0 <= t < C -> (q * C + t) / C = q /\ (q * C + t) mod C = t).
  { intros q t Ht. split; symmetry; [apply (Z.div_unique _ _ _ t)|apply (Z.mod_unique _ _ q)]; lia. }
  assert (S' := S c (fun q X Y => amount c X Y (flat_map (zigzag g) (ps (snd q / C) (fst q, snd q mod C))))). cbv zeta in S'. cbn [fst snd] in S'. apply S'; auto; clear S S'.
  - intros q a b u w Hq Ha Hb Iw. destruct (Bk q b Hb) as [-> ->]. rewrite (proj2 (proj2 (Pm q Hq)) a b c u w Ha Hb Iw), (Am a (q * C + b)). f_equal; lia.
  - intros a b u w Ha Hb N. rewrite (Am a b). replace (a * s + u - a * s) with u by lia. replace (b * s + w - b * s) with w by lia.
    assert (Q := Z.div_mod b C ltac:(lia)). assert (Qm := Z.mod_pos_bound b C ltac:(lia)). assert (Hq : 0 <= b / C < W) by (split; [apply Z.div_pos; lia|apply Z.div_lt_upper_bound; lia]).
    apply (amount_none (inw s s)); [|exact N]. apply Forall_fm. intros q Hq'. specialize (L (b / C) a (b mod C) Hq Ha Qm). rewrite Forall_forall in L. specialize (L q Hq').
    replace (b / C * C + b mod C) with b in L by lia. assert (Z := zigzag_win (dom_geo g R (W * C) s (a, b)) q L). eapply Forall_impl; [|exact Z]. intros []; auto.
Qed.
(** a particle with an azimuthal velocity in the last cell of a domain in both directions *)
Definition whirl : mover := mkMover (7 / 2) (7 / 2) (7 / 2) (7 / 2) 3 3 1 1.
Definition at_corner : Z -> doms (list mover) := fun p ik => if (p =? 0) && (fst ik =? 0) && (snd ik =? 0) then [whirl] else [].
Lemma whirl_deposit : amount Cphi 4 4 (zigzag geo8 whirl) <> 0%R.
Proof.
  assert (C3 : cell_number (7 / 2) 1 = 3) by (apply cell_is; lra).
  unfold zigzag, whirl. cbv zeta. cbn [m_r m_z m_ro m_zo m_q m_vphi g_dr g_dz g_dt g_d0 g_d1 geo8]. rewrite C3. replace ((7 / 2 + 7 / 2) / 2)%R with (7 / 2)%R by field. rewrite C3, relay2.
  cbn [amount ceqb andb]. change (3 - 0) with 3. change (3 + 1) with 4. change (4 =? 3) with false. change (4 =? 4) with true. cbn [andb]. unfold cell_volume, cyl_rng_vol.
  assert (P := PI_RGT_0). match goal with |- ?x <> _ => replace x with (1 / (PI * 7) * / 4)%R by (cbn; field; lra) end.
  intros X. assert (0 < 1 / (PI * 7))%R by (apply Rdiv_lt_0_compat; lra). lra.
Qed.
Theorem C150_corner_refuted : exists g W R C s ps all K j J J', W = 2 /\ R = 2 /\ C = 1 /\ 4 <= s /\ g_nr g = R * s /\ g_nz g = W * C * s /\ g_d0 g = 0 /\ g_d1 g = 0 /\
  rank_fit W R C s j /\ fits3 (R * s) (W * C * s) J /\ Permutation all (everyone R (W * C) (joined C ps)) /\
  (forall p i k, 0 <= p < W -> 0 <= i < R -> 0 <= k < C -> Forall (lands_from_near (dom_geo g R (W * C) s (i, p * C + k))) (ps p (i, k))) /\
  (exists j', mpi_current zigzag_distribution g W (W * C) R s K ps j j') /\ one_current zigzag_distribution g all J = Ok J' /\
  forall K' j', mpi_current zigzag_distribution g W (W * C) R s K' ps j j' -> lv (c_phi (j' 1 (1, 0))) 0 0 = 0%R /\ lv (c_phi J') 4 4 <> 0%R.
Proof.
  assert (C3 : cell_number (7 / 2) 1 = 3) by (apply cell_is; lra).
  assert (F8 : fits3 8 8 (sz3 8 1)) by (intros []; apply sz_fits; lia).
  assert (F4 : rank_fit 2 2 1 4 (fun _ _ => sz3 4 1)) by (intros p _ i j _ _ []; apply sz_fits; lia).
  assert (L : forall p i k, 0 <= p < 2 -> 0 <= i < 2 -> 0 <= k < 1 -> Forall (lands_from_near (dom_geo geo8 2 (2 * 1) 4 (i, p * 1 + k))) (at_corner p (i, k))).
  { intros p i k Hp Hi Hk. unfold at_corner. cbn [fst snd]. destruct ((p =? 0) && (i =? 0) && (k =? 0)) eqn:E; [|constructor]. assert (p = 0 /\ i = 0 /\ k = 0) as (-> & -> & ->) by lia.
    constructor; [|constructor]. unfold lands_from_near, dom_geo. cbn [fst snd g_d0 g_d1 g_nr g_nz g_dr g_dz whirl m_r m_z m_ro m_zo geo8]. rewrite C3. lia. }
  assert (Lg : Forall (lands_from_near geo8) [whirl]).
  { constructor; [|constructor]. unfold lands_from_near. cbn [g_d0 g_d1 g_nr g_nz g_dr g_dz whirl m_r m_z m_ro m_zo geo8]. rewrite C3. lia. }
  destruct (zero_zigzag geo8 [whirl] (sz3 8 1) F8 Lg) as (J' & EJ & FJ & VJ).
  exists geo8, 2, 2, 1, 4, at_corner, [whirl], 2%nat, (fun _ _ => sz3 4 1), (sz3 8 1), J'.
  do 8 (split; [reflexivity || lia|]). split; [exact F4|]. split; [exact F8|]. split; [reflexivity|]. split; [exact L|]. split; [|split; [exact EJ|]].
  - apply (mpi_zigzag_exists geo8 2 2 1 4); auto; cbn; lia.
  - intros K' j' Mc. split.
    + assert (S := C150_current_sum geo8 2 2 1 4 at_corner K' _ j' ltac:(lia) ltac:(lia) ltac:(lia) ltac:(lia) ltac:(lia) eq_refl eq_refl ltac:(cbn; lia) eq_refl F4 L Mc 1 1 0 Cphi 0 0
        ltac:(lia) ltac:(lia) ltac:(lia) ltac:(lia) ltac:(lia)). cbv zeta in S. cbn [getc] in S. rewrite S.
      rewrite (sum2_ext _ _ _ (fun _ _ => 0 * 0)%R); [rewrite sum2_scal; ring|]. intros a b Ha Hb. rewrite Rmult_0_l.
      assert (a = 0 /\ b = 0 \/ at_corner (b / 1) (a, b mod 1) = []) as [[-> ->]|N].
      { unfold at_corner. cbn [fst snd]. rewrite Z.div_1_r, Z.mod_1_r. destruct ((b =? 0) && (a =? 0) && (0 =? 0)) eqn:E; [left; lia|now right]. }
      * reflexivity.
      * rewrite N. cbn [flat_map amount]. now destruct (lost _ _ _ _).
    + change (c_phi J') with (getc Cphi J'). rewrite VJ by (unfold inw; cbn; lia). cbn [flat_map]. rewrite app_nil_r. exact whirl_deposit.
Qed.

Print Assumptions C150_ex.
Print Assumptions C150_border_refuted.
Print Assumptions C150_current_sum.
Print Assumptions C150_corner_refuted.
