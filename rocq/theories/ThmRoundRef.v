(** C125 beyond its conditions: a particle that crosses the border between two rows of domains next to a corner of four domains
    leaves another current in the divided area. *)
From Coq Require Import ZifyBool Reals Lra Psatz Permutation.
From Verif Require Import Base RndUtil DecompModel DecompProofs CollectorModel CollectorProofs ListUtil PushModel ParticleModel ParticleProofs StepModel
  ThmParticle ThmInit ThmDecomp ThmStep ThmFlight GridModel GridProofs OverlayModel OverlayConc OverlaySum YeeModel YeeProofs ThmYee ExtModel ThmExt CurrentModel CurrentProofs ThmCurrent ThmCurrent2
  YeeSmb ThmYeeSmb SmbCorner SumUtil SmbCurrent ThmDivide RoundModel RoundProofs ThmRound.
Open Scope Z_scope.

Definition climber : part := {| pos_r := 15 / 4; pos_phi := 0; pos_z := 7 / 2; vel_r := / 2; vel_phi := 0; vel_z := 0; p_sin := 0; weight := 1 |}.
Definition climber0 : pt := mkPt climber (15 / 4) (7 / 2).
Definition begin1 : world1 := mkWorld1 (mkYee (sz3 8 0) (sz3 8 0) (sz3 8 0)) (sz3 8 1) (fun _ _ => [(7, [climber0])]).
Definition begin : world := mkWorld (fun _ => mkYee (sz3 4 0) (sz3 4 0) (sz3 4 0)) (fun _ => sz3 4 1)
  (fun i k => [(7, if (i =? 0) && (k =? 0) then [climber0] else [])]).
Lemma climber_radius : sqrt ((15 / 4 + / 2 * 1) * (15 / 4 + / 2 * 1) + 0 * 1 * (0 * 1)) = (17 / 4)%R.
Proof. replace ((15 / 4 + / 2 * 1) * (15 / 4 + / 2 * 1) + 0 * 1 * (0 * 1))%R with (17 / 4 * (17 / 4))%R by field. apply sqrt_square. lra. Qed.
Lemma climber_calm : calm geo8 4 climber.
Proof.
  unfold calm. cbv zeta. cbn [g_dr g_dz g_dt g_nr g_nz geo8 climber pos_r pos_phi pos_z vel_r vel_phi vel_z].
  split; [reflexivity|]. split; [lra|]. split; [lra|]. split.
  { replace ((/ 2 * 1) ^ 2 + (0 * 1) ^ 2)%R with (/ 2 * / 2)%R by field. rewrite sqrt_square by lra. lra. }
  split; [rewrite Rabs_right; lra|]. intros n. rewrite climber_radius, !Rmult_1_r. split; [apply (half_not_int 4)|apply (half_not_int 3)]; lra.
Qed.
Definition up : part := flight 8 8 1 1 1 climber.
Lemma up_at : pos_r up = (17 / 4)%R /\ pos_z up = (7 / 2)%R.
Proof.
  unfold up. cbn [flight pos_r pos_z vel_r vel_phi vel_z climber]. rewrite climber_radius. unfold bounce.
  repeat (destruct (Rlt_dec _ _); cbn [fst]; try lra).
Qed.
Lemma up_still : vel_phi up = 0%R /\ weight up = 1%R.
Proof.
  unfold up. cbn [flight pos_r pos_z vel_r vel_phi vel_z climber weight]. split; [|reflexivity]. rewrite climber_radius. try lra; try (field; lra).
Qed.

Lemma one_species (d : domain pt) q : map fst d = [7] -> Permutation (flat_map (fun s => if fst s =? 7 then snd s else []) d) [q] -> d = [(7, [q])].
Proof.
  intros I P. destruct d as [|[n l] [|]]; try discriminate I. injection I as ->. cbn [flat_map fst snd] in P. change (7 =? 7) with true in P. cbv iota in P.
  rewrite app_nil_r in P. symmetry in P. apply Permutation_length_1_inv in P. now subst l.
Qed.
(** the program moves the particle and hands it over as it should, in both areas; only the current differs *)
Theorem C125_refuted : inner2 2 2 4 (fun _ => sz 4 1) (sz 8 1) /\ inner2 2 2 4 (fun _ => sz 4 0) (sz 8 0) /\ same_world geo8 2 2 4 begin1 begin /\
  exists w1' w', one_round coast (fun _ => 1%R) zigzag_distribution 1 geo8 (sz 8 1) (sz 8 0) begin1 w1' /\
    (forall t q v, In t (o_p begin1 0 0) -> In q (snd t) -> new_velocity coast geo8 (o_f w1') (fst t) q v -> calm geo8 4 (set_vel (now q) v)) /\
    (forall t q, In t (o_p begin1 0 0) -> In q (snd t) -> ~ crossing geo8 4 (pos_r (now q)) (pos_z (now q))) /\
    smb_round coast (fun _ => 1%R) zigzag_distribution 1 geo8 2 2 4 (fun _ => sz 4 1) (fun _ => sz 4 0) begin w' /\ ~ same_world geo8 2 2 4 w1' w' /\
    lv (c_r (o_j w1')) 3 4 <> 0%R /\ lv (c_r (w_j w' (0, 1))) 3 0 = 0%R.
Proof.
  assert (Ie : inner2 2 2 4 (fun _ => sz 4 1) (sz 8 1)) by apply C65_example. assert (Is : inner2 2 2 4 (fun _ => sz 4 0) (sz 8 0)) by apply C65_example.
  assert (SF : same_fields geo8 2 2 4 (w_f begin) (o_f begin1)) by apply C65_example. assert (SJ : same_current 2 2 4 (w_j begin) (o_j begin1)) by apply C65_example.
  assert (Cr0 : cell_number (15 / 4) 1 = 3) by (apply cell_is; lra). assert (Cz0 : cell_number (7 / 2) 1 = 3) by (apply cell_is; lra).
  assert (Cr1 : cell_number (17 / 4) 1 = 4) by (apply cell_is; lra).
  set (a := {| nr := 2 * 4; nz := 2 * 4; rd_ := 2; zd_ := 2 |}).
  assert (Hm0 : forall i k t q, 0 <= i < 2 -> 0 <= k < 2 -> In t (w_p begin i k) -> In q (snd t) -> t = (7, [climber0]) /\ q = climber0 /\ i = 0 /\ k = 0).
  { intros i k t q Hi Hk Ht Hq. cbn [begin w_p] in Ht. destruct ((i =? 0) && (k =? 0)) eqn:E; destruct Ht as [<-|[]]; cbn [snd] in Hq; [|destruct Hq].
    destruct Hq as [<-|[]]. assert (i = 0 /\ k = 0) as [-> ->] by lia. auto. }
  assert (Hh0 : home (pt_cr 1) (pt_cz 1) a 0 0 climber0).
  { unfold home, pt_cr, pt_cz, part_cr, part_cz. cbn [climber0 now climber pos_r pos_z a nr nz rd_ zd_].
    change (ParticleModel.cell_number (15 / 4) 1) with (cell_number (15 / 4) 1). change (ParticleModel.cell_number (7 / 2) 1) with (cell_number (7 / 2) 1).
    rewrite Cr0, Cz0. vm_compute. intuition congruence. }
  assert (Sw : same_world geo8 2 2 4 begin1 begin).
  { split; [exact SF|]. split; [exact SJ|]. split.
    - exists [7]. split; (split; [repeat constructor; intros []|]); reflexivity.
    - split.
      + intros sid. cbn [begin begin1 w_p o_p]. unfold particles_of. cbn [rd_ zd_ nr nz g_nr g_nz geo8]. vm_compute pairs. cbn [flat_map fst snd]. destruct (7 =? sid); reflexivity.
      + intros i k t q Hi Hk Ht Hq. destruct (Hm0 i k t q Hi Hk Ht Hq) as (_ & -> & -> & ->). exact Hh0. }
  split; [exact Ie|]. split; [exact Is|]. split; [exact Sw|].
  destruct (C65_step 1 geo8 2 2 4 ltac:(lia) ltac:(lia) ltac:(lia) ltac:(lia) eq_refl eq_refl ltac:(cbn; lia) ltac:(cbn; lia) _ _ _ _ Ie Is _ _ _ _ SF SJ) as (m' & y' & E1 & E2 & SF').
  destruct (step_corners 1 geo8 2 2 4 ltac:(lia) ltac:(lia) ltac:(lia) ltac:(lia) eq_refl eq_refl ltac:(cbn; lia) ltac:(cbn; lia) _ _ _ _ Ie Is _ _ _ _ m' y' SF SJ E1 E2) as (Me & Mh & _).
  set (a1 := {| nr := g_nr geo8; nz := g_nz geo8; rd_ := 1; zd_ := 1 |}).
  set (q1 := mkPt up (15 / 4) (7 / 2)).
  set (p1 := upd_dom pt (o_p begin1) 0 0 [(7, [q1])]).
  assert (Ga1 : good_area a1) by (apply (area1_good geo8 2 2 4); cbn; lia).
  assert (Ga : good_area a) by (apply (area_good geo8 2 2 4); cbn; lia).
  assert (Fl : advanced (domain_geo a1 1 1 0 0) 1 climber up) by (apply (flies_one geo8 2 2 4); cbn; try lia; try lra; apply climber_calm).
  assert (Ins : inside geo8 (15 / 4) (7 / 2)) by (unfold inside; cbn; repeat split; (lia || lra)).
  assert (SF1 := SF'). destruct SF' as ((Fe & Fh & Ft) & SF'').
  destruct (C41_defined geo8 (y_e y') _ _ Fe Ins) as (e & _ & Ee & _). destruct (C41_defined geo8 (y_h y') _ _ Fh Ins) as (_ & b & _ & Eb).
  assert (Sp : step_particle coast geo8 (domain_geo a1 1 1 0 0) y' 7 climber0 q1).
  { exists e, b, (V3 (/ 2) 0 0). split; [exact Ee|]. split; [exact Eb|]. split; [reflexivity|]. split; [exact Fl|]. split; reflexivity. }
  assert (St : step_all coast a1 (fun _ => geo8) (domain_geo a1 1 1) (fun _ => y') (o_p begin1) p1).
  { split.
    - intros i k Hi Hk. cbn [a1 rd_ zd_] in Hi, Hk. replace i with 0 by lia. replace k with 0 by lia. unfold step_domain, p1. rewrite upd_dom_eq. cbn [begin1 o_p].
      constructor; [|constructor]. split; [reflexivity|]. cbn [snd fst]. constructor; [exact Sp|constructor].
    - intros i k N. unfold p1. apply upd_dom_ne. intros [= -> ->]. apply N. cbn. lia. }
  assert (Nx : ~ crossing geo8 4 (15 / 4) (7 / 2)).
  { unfold crossing, near_low, near_high. cbv zeta. cbn [g_dr g_dz geo8]. rewrite Cr0, Cz0. change (3 mod 4) with 3. lia. }
  assert (Cmv : forall v, new_velocity coast geo8 y' 7 climber0 v -> calm geo8 4 (set_vel (now climber0) v)).
  { intros v (e0 & b0 & _ & _ & Ev). injection Ev as <-. exact climber_calm. }
  destruct (step_same coast geo8 2 2 4 ltac:(lia) ltac:(lia) ltac:(lia) eq_refl eq_refl ltac:(cbn; lia) ltac:(cbn; lia) eq_refl eq_refl ltac:(cbn; lra) ltac:(cbn; lra)
     m' y' 0 0 7 climber0 q1 ltac:(lia) ltac:(lia) SF1 Me Mh Hh0 ltac:(right; right; exact Nx) Cmv Sp) as (Sd & _).
  set (p2 := upd_dom pt (w_p begin) 0 0 [(7, [q1])]).
  assert (St2 : step_all coast a (dom_geo geo8 2 2 4) (domain_geo a 1 1) m' (w_p begin) p2).
  { split.
    - intros i k Hi Hk. cbn [a rd_ zd_] in Hi, Hk. unfold step_domain, p2.
      assert (D : (i = 0 /\ k = 0) \/ ~ (i = 0 /\ k = 0)) by lia. destruct D as [[-> ->]|N].
      + rewrite upd_dom_eq. cbn [begin w_p]. change ((0 =? 0) && (0 =? 0)) with true. cbv iota. constructor; [|constructor]. split; [reflexivity|]. cbn [snd fst]. constructor; [exact Sd|constructor].
      + rewrite upd_dom_ne by (intros [= -> ->]; lia). cbn [begin w_p]. replace ((i =? 0) && (k =? 0)) with false by lia. constructor; [|constructor]. split; [reflexivity|constructor].
    - intros i k N. unfold p2. apply upd_dom_ne. intros [= -> ->]. apply N. cbn. lia. }
  assert (Ip : ids_ok a1 [7] p1).
  { split; [repeat constructor; intros []|]. intros i k Hi Hk. cbn [a1 rd_ zd_] in Hi, Hk. replace i with 0 by lia. replace k with 0 by lia. reflexivity. }
  assert (Ip2 : ids_ok a [7] p2).
  { split; [repeat constructor; intros []|]. intros i k Hi Hk. cbn [a rd_ zd_] in Hi, Hk. unfold p2.
    assert (D : (i = 0 /\ k = 0) \/ ~ (i = 0 /\ k = 0)) by lia. destruct D as [[-> ->]|N]; [rewrite upd_dom_eq; reflexivity|rewrite upd_dom_ne by (intros [= -> ->]; lia); reflexivity]. }
  destruct up_at as [L1 L2]. destruct up_still as [L3 L4].
  destruct (C08_collector_conserves pt pt_eq_dec (pt_cr 1) (pt_cz 1) a1 [7] p1 Ga1 (pt_int geo8) Ip) as (st' & Ec & Is' & P' & _).
  destruct (C08_collector_conserves pt pt_eq_dec (pt_cr 1) (pt_cz 1) a [7] p2 Ga (pt_int geo8) Ip2) as (st2 & Ec2 & Is2 & P2 & H2).
  assert (Al : forall b, b = a1 \/ b = a -> alive (pt_cr 1) (pt_cz 1) b q1 = true).
  { intros c Hc. unfold alive, pt_cr, pt_cz, part_cr, part_cz. cbn [q1 now]. rewrite L1, L2.
    change (ParticleModel.cell_number (17 / 4) 1) with (cell_number (17 / 4) 1). change (ParticleModel.cell_number (7 / 2) 1) with (cell_number (7 / 2) 1). rewrite Cr1, Cz0. destruct Hc as [->| ->]; reflexivity. }
  assert (P7 : Permutation (particles_of a1 7 st') [q1]).
  { rewrite P'. change (particles_of a1 7 p1) with [q1]. cbn [filter]. now rewrite Al by auto. }
  assert (P7' : Permutation (particles_of a 7 st2) [q1]).
  { rewrite P2. change (particles_of a 7 p2) with [q1]. cbn [filter]. now rewrite Al by auto. }
  assert (S0 : st' 0 0 = [(7, [q1])]).
  { destruct Is' as [_ I]. specialize (I 0 0 ltac:(cbn; lia) ltac:(cbn; lia)). apply one_species; [exact I|].
    unfold particles_of in P7. change (pairs (rd_ a1) (zd_ a1)) with [(0, 0)] in P7. cbn [flat_map fst snd] in P7. rewrite app_nil_r in P7. exact P7. }
  assert (Only : forall i k t q, 0 <= i < 2 -> 0 <= k < 2 -> In t (st2 i k) -> In q (snd t) -> fst t = 7 /\ q = q1 /\ i = 1 /\ k = 0).
  { intros i k t q Hi Hk Ht Hq. assert (Et : fst t = 7).
    { destruct Is2 as [_ I]. specialize (I i k Hi Hk). apply (in_map fst) in Ht. rewrite I in Ht. destruct Ht as [<-|[]]. reflexivity. }
    assert (Q : In q (particles_of a 7 st2)) by (apply In_particles; exists i, k, t; cbn [rd_ zd_ a]; repeat split; auto; lia).
    apply (Permutation_in _ P7') in Q. destruct Q as [<-|[]]. split; [exact Et|]. split; [reflexivity|].
    destruct t as [n l]. cbn [snd fst] in *. assert (Hh := H2 i k n l q1 Hi Hk Ht Hq).
    destruct (home_cells geo8 2 2 4 ltac:(lia) ltac:(lia) ltac:(lia) eq_refl eq_refl ltac:(cbn; lia) ltac:(cbn; lia) i k q1 Hi Hk) as [X1 X2];
      try (cbn [q1 now g_dr g_dz g_nr g_nz geo8]; rewrite ?L1, ?L2, ?Cr1, ?Cz0; lia); [exact Hh|].
    cbn [q1 now g_dr g_dz geo8] in X1, X2. rewrite L1, Cr1 in X1. rewrite L2, Cz0 in X2. lia. }
  set (mv := mover_of (fun _ => 1%R) 1 1 7 q1).
  assert (LNd : forall i k, 0 <= i < 2 -> 0 <= k < 2 -> Forall (lands_from_near (dom_geo geo8 2 2 4 (i, k))) (movers (fun _ => 1%R) 1 1 (st2 i k))).
  { intros i k Hi Hk. apply Forall_forall. intros p Hp. unfold movers in Hp. apply in_flat_map in Hp as (t & Ht & Hp). apply in_map_iff in Hp as (q & <- & Hq).
    destruct (Only i k t q Hi Hk Ht Hq) as (_ & -> & -> & ->). unfold lands_from_near, dom_geo. cbn [mover_of m_r m_z m_ro m_zo q1 now old_r old_z g_dr g_dz g_d0 g_d1 g_nr g_nz geo8 fst snd].
    rewrite L1, L2, Cr0, Cr1, Cz0. lia. }
  assert (LN : Forall (lands_from_near geo8) [mv]).
  { constructor; [|constructor]. unfold lands_from_near. cbn [mv mover_of m_r m_z m_ro m_zo q1 now old_r old_z g_dr g_dz g_d0 g_d1 g_nr g_nz geo8]. rewrite L1, L2, Cr0, Cr1, Cz0. lia. }
  destruct (zero_zigzag geo8 [mv] (o_j begin1) (proj1 SJ) LN) as (j' & Ej & _ & VJ).
  destruct (C121_zigzag_exact geo8 2 2 4 ltac:(lia) ltac:(lia) ltac:(lia) ltac:(lia) eq_refl eq_refl (fun ik => movers (fun _ => 1%R) 1 1 (st2 (fst ik) (snd ik))) (w_j begin)
    (proj1 (proj2 SJ)) LNd) as (j2 & Ej2 & _ & V2).
  assert (Vl : lv (c_r j') 3 4 = (/ PI * (1 / 72))%R).
  { change (c_r j') with (getc Cr j'). rewrite VJ by (unfold inw; cbn; lia). cbn [flat_map]. rewrite app_nil_r. unfold zigzag.
    cbn [g_dr g_dz g_dt g_d0 g_d1 geo8 mv mover_of m_r m_z m_ro m_zo m_q m_vphi q1 now old_r old_z]. rewrite L1, L2, L3, L4, Cr0, Cr1, Cz0.
    assert (Y1 : relay_point 3 4 (15 / 4) (17 / 4) 1 = 4%R) by (unfold relay_point; rewrite (Rmin_left (3 * 1) (4 * 1)), (Rmax_right (3 * 1) (4 * 1)), Rmax_left, Rmin_left; lra).
    assert (Y2 : cell_number ((17 / 4 + 15 / 4) / 2) 1 = 4) by (apply cell_is; lra).
    rewrite Y1, relay2, Y2. cbn [amount ceqb]. bools. unfold cell_volume. assert (P := PI_RGT_0). field; lra. }
  assert (V0 : lv (c_r (j2 (0, 1))) 3 0 = 0%R).
  { change (c_r (j2 (0, 1))) with (getc Cr (j2 (0, 1))). rewrite V2 by lia. apply sum2_zero.
    intros c d Hc Hd. destruct (anti _ _ _) eqn:An; [reflexivity|]. cbn [fst snd].
    replace (movers (fun _ => 1%R) 1 1 (st2 c d)) with (@nil mover); [reflexivity|]. symmetry.
    destruct (movers (fun _ => 1%R) 1 1 (st2 c d)) as [|x l] eqn:Em; [reflexivity|]. exfalso.
    assert (Hp : In x (movers (fun _ => 1%R) 1 1 (st2 c d))) by (rewrite Em; now left).
    unfold movers in Hp. apply in_flat_map in Hp as (t & Ht & Hp). apply in_map_iff in Hp as (q & _ & Hq).
    destruct (Only c d t q Hc Hd Ht Hq) as (_ & _ & -> & ->). discriminate An. }
  assert (Vn : lv (c_r j') 3 4 <> 0%R) by (rewrite Vl; assert (P := PI_RGT_0); assert (0 < / PI)%R by (apply Rinv_0_lt_compat; lra); lra).
  exists (mkWorld1 y' j' st'), (mkWorld m' j2 st2). split.
  { exists p1. split; [exact E2|]. split; [exact St|]. split; [exact Ec|]. cbn [o_p o_j]. rewrite S0. exact Ej. }
  split; [intros t q v [<-|[]] [<-|[]] Nv; now apply Cmv|]. split; [intros t q [<-|[]] [<-|[]]; exact Nx|]. split.
  { exists p2. split; [exact E1|]. split; [exact St2|]. split; [exact Ec2|exact Ej2]. }
  split; [|split; [exact Vn|exact V0]].
  intros (_ & (_ & _ & A) & _). specialize (A 0 1 Cr 3 0 ltac:(lia) ltac:(lia) ltac:(lia) ltac:(lia)). cbn [getc w_j o_j] in A.
  rewrite V0 in A. apply Vn. symmetry. exact A.
Qed.

Print Assumptions C125_refuted.
