(** C164: Gauss's law in an area divided into domains, in a run of whole rounds with beams, collisions and external fields. *)
From Coq Require Import ZifyBool Reals Lra Psatz Permutation.
From Verif Require Import Base RndUtil DecompModel DecompProofs CollectorModel CollectorProofs ListUtil PushModel ParticleModel ParticleProofs StepModel
  ThmParticle ThmInit ThmDecomp ThmStep ThmFlight GridModel GridProofs OverlayModel YeeModel YeeProofs ThmYee ExtModel ThmExt CurrentModel CurrentProofs ThmCurrent ThmCurrent2
  CavityProofs ThmEnergy ThmGauss YeeSmb ThmYeeSmb SmbCorner SmbCurrent ThmDivide ThmGaussSmb TimeModel ThmTime BeamModel RoundModel RoundProofs ThmRound ThmRoundGauss ThmGaussRef FullModel ThmFull
  ThmBeamGauss.
Open Scope Z_scope.

(** ** specification *)
(** R x C domains of s x s cells *)
Definition parts (R C s : Z) : area := {| nr := R * s; nz := C * s; rd_ := R; zd_ := C |}.
(** the domains hold one electromagnetic field and one current between them: cells that two of them hold are the same *)
Definition one_field (g : YeeModel.geo) (R C s : Z) (w : world) : Prop :=
  (exists y, same_fields g R C s (w_f w) y) /\ exists J, same_current R C s (w_j w) J.
(** the particles that are in the area after a round came on ways for which the current of Villasenor and Buneman is right (C120),
    and none of them near the two corners of its domain whose deposits get lost (C121) *)
Definition fair_parts charge (g : YeeModel.geo) (R C s : Z) (w' : world) : Prop :=
  forall a b t q, 0 <= a < R -> 0 <= b < C -> In t (w_p w' a b) -> In q (snd t) -> let p := way charge g (fst t) q in
    (oblique_move g p \/ radial_move g p) /\ (0 < pos_r (now q))%R /\ (0 < old_r q)%R /\
    - 2 ^ 31 <= cell_number (pos_r (now q)) (g_dr g) < 2 ^ 31 /\ - 2 ^ 31 <= cell_number (pos_z (now q)) (g_dz g) < 2 ^ 31 /\
    (R = 1 \/ C = 1 \/ away_from_corner (dom_geo g R C s (a, b)) p).
(** between [st] and [st'] the particles [new] of a species came and the particles [gone] (as they were) left *)
Definition swapped (a : area) (dr dz : R) (sid : Z) (st st' : smb pt) (new gone : list pt) : Prop :=
  exists stay l, Permutation (particles_of a sid st ++ new) (stay ++ gone) /\ Forall2 remembers stay l /\ Permutation (particles_of a sid st') l /\
    Forall (fun q => exists q', remembers q q' /\ in_area a dr dz q' = false) gone.

Section Parts.
Variable pusher : Z -> v3 -> v3 -> v3 -> outcome v3.
Variable charge : Z -> R.
Variable mu : R.
Variable beams : Z -> option (beam * R).
Variable extern : option (doms yee).
Variable impulse : Z -> Z -> domain pt -> domain pt -> Prop.
Variable draw : nat -> Z -> Z -> Z -> nat -> R * R.
Hypothesis Im : velocities_only impulse.
Variable g : YeeModel.geo.
Variables R C s : Z.
Hypothesis HR : 1 <= R.
Hypothesis HC : 1 <= C.
Hypothesis Hs : 4 <= s.
Hypothesis Gr : g_nr g = R * s.
Hypothesis Gz : g_nz g = C * s.
Hypothesis GrL : g_nr g + 4 < 2 ^ 31.
Hypothesis GzL : g_nz g + 4 < 2 ^ 31.
Hypothesis D1 : g_d1 g = 0.
Hypothesis Cl : closed g.
Hypothesis Pt : (0 < g_dt g)%R.
Variables eps sg : doms (grid Rdefinitions.R).
Variables Eps Sg : grid Rdefinitions.R.
Hypothesis Heps : inner2 R C s eps Eps.
Hypothesis Hsg : inner2 R C s sg Sg.
Hypothesis Q : forall i k, 0 <= i < g_nr g -> 0 <= k < g_nz g -> (0 < lv Eps i k)%R /\ (0 <= lv Sg i k)%R.
Let round := full_round pusher charge vb_distribution mu beams extern impulse draw g R C s eps sg.
Let a := parts R C s.
Let dr := g_dr g.
Let dz := g_dz g.

Lemma parts_good : good_area a.
Proof using HR HC Hs Gr Gz GrL GzL. exact (area_good g R C s HR HC Hs Gr Gz ltac:(lia) ltac:(lia)). Qed.
Lemma parts_homes hs m t c ids st st' : ids_ok a ids st -> full_particles pusher beams extern impulse draw a dr dz (g_dt g) hs m t c st st' ->
  forall i k sp q, 0 <= i < R -> 0 <= k < C -> In sp (st' i k) -> In q (snd sp) -> home (pt_cr dr) (pt_cz dz) a i k q.
Proof using Im HR HC Hs Gr Gz GrL GzL.
  intros Io (p1 & [Ad _] & Ec) i k [sid l] q Hi Hk Ht Hq.
  assert (I1 : ids_ok a ids p1).
  { destruct (inject_ids a dr dz (g_dt g) beams draw t c ids st Io) as [N I]. split; [exact N|]. intros x y Hx Hy.
    rewrite (each_ids _ _ _ (advance_remembers pusher beams impulse Im _ _ _ _ _ _ _ _ (Ad x y Hx Hy))). now apply I. }
  destruct (C08_collector_conserves pt pt_eq_dec (pt_cr dr) (pt_cz dz) a ids p1 parts_good (pt_int g) I1) as (st2 & Ec' & _ & _ & H').
  rewrite Ec in Ec'. injection Ec' as <-. exact (H' i k sid l q Hi Hk Ht Hq).
Qed.
Lemma held_parts w ids i k : ids_ok a ids (w_p w) -> held_doms charge g R C w i k = owned charge g ids (fun sid => particles_of a sid (w_p w)) i k.
Proof using.
  intros Ia. set (f := fun (sid : Z) (q : pt) => (charge sid * weight (now q) * (share_r g i (pos_r (now q)) * share_z g k (pos_z (now q))))%R).
  assert (X := everyone_species f _ ids (w_p w) Ia). rewrite everyone_pairs in X. unfold a at 1 2, parts in X. cbn [rd_ zd_] in X.
  transitivity (sum_over (fun x => x) (flat_map (fun ab => flat_map (fun t => map (f (fst t)) (snd t)) (w_p w (fst ab) (snd ab))) (pairs R C))).
  { unfold held_doms. rewrite sum_flat. apply sum_ext_in. intros ab _. rewrite sum_flat. apply sum_ext_in. intros t _. now rewrite sum_over_map. }
  rewrite (sum_over_perm _ _ _ X), sum_flat. apply sum_ext_in. intros sid _. now rewrite sum_over_map.
Qed.
(** a current of the whole area whose azimuthal component is read from the domains *)
Lemma glue_phi j' J1 : all_fit R C s j' -> fits3 (R * s) (C * s) J1 ->
  (forall i k c x y, c <> Cphi -> 0 <= i < R -> 0 <= k < C -> 0 <= x < s -> 0 <= y < s -> lv (getc c (j' (i, k))) x y = lv (getc c J1) (i * s + x) (k * s + y)) ->
  exists J', same_current R C s j' J' /\ getc Cr J' = getc Cr J1 /\ getc Cz J' = getc Cz J1.
Proof using HR HC Hs Gr Gz GrL GzL.
  intros Fj FJ V. assert (0 <= R * s /\ 0 <= C * s) by nia.
  exists (mkGrid3 (c_r J1) (mk_grid (R * s) (C * s) (fun X Y => glued s j' Cphi X Y)) (c_z J1)). split; [|split; reflexivity]. split; [|split; [exact Fj|]].
  - intros []; [exact (FJ Cr)|apply mk_grid_fits; lia|exact (FJ Cz)].
  - intros i k c x y Hi Hk Hx Hy. destruct c; [now apply (V i k Cr)| |now apply (V i k Cz)]. cbn [getc c_phi].
    rewrite mk_grid_lv. unfold glued. cbn [getc].
    assert (D : forall u v, 0 <= v < s -> (u * s + v) / s = u /\ (u * s + v) mod s = v).
    { intros u v Hv. split; [symmetry; apply (Z.div_unique _ _ _ v); lia|symmetry; apply (Z.mod_unique _ _ u); lia]. }
    destruct (D i x Hx) as [-> ->]. destruct (D k y Hy) as [-> ->]. reflexivity.
Qed.

(** One round: the error of Gauss's law changes by the charge of the particles that came and left. *)
Theorem C164_balance_partial : forall u u' ids, round u u' -> one_field g R C s (u_w u) -> ids_ok a ids (w_p (u_w u)) -> fair_parts charge g R C s (u_w u') ->
  one_field g R C s (u_w u') /\ ids_ok a ids (w_p (u_w u')) /\
  exists (new : Z -> Z * Z -> list pt) (gone : Z -> list pt),
    (forall sid i k, In sid ids -> 0 <= i < R -> 0 <= k < C -> entered beams a dr dz (g_dt g) (u_t u) (u_c u) sid i k (new sid (i, k))) /\
    (forall sid, In sid ids -> swapped a dr dz sid (w_p (u_w u)) (w_p (u_w u')) (flat_map (new sid) (pairs R C)) (gone sid)) /\
    forall ev i k, node g i k -> (i, k) <> (0, 1) -> vacuum g Eps Sg ev i k ->
      doms_error charge g R C s ev (u_w u') i k =
        (doms_error charge g R C s ev (u_w u) i k - owned charge g ids (fun sid => flat_map (new sid) (pairs R C)) i k + owned charge g ids gone i k)%R.
Proof using Im HR HC Hs Gr Gz GrL GzL D1 Cl Pt Heps Hsg Q.
  intros u u' ids Rd ((y & SF) & J & SJ) Io Fw. destruct Rd as (Es & Fp & Ej & _ & _). fold (parts R C s) in Fp. fold a in Fp.
  set (w := u_w u) in *. set (w' := u_w u') in *. assert (HsL : s + 4 < 2 ^ 32) by nia.
  pose proof Cl as (_ & _ & _ & _ & D0 & _ & _ & Hdr & Hdz).
  assert (Sz : sizes g) by (split; [exact Hdr|split; [exact Hdz|exact Pt]]).
  assert (Hm := parts_homes _ _ _ _ ids _ _ Io Fp).
  destruct (C159_account pusher beams extern impulse draw Im a ids _ _ _ _ _ _ _ _ _ parts_good Io Fp) as (I' & Ac).
  destruct (C65_step mu g R C s HR HC Hs HsL Gr Gz ltac:(lia) ltac:(lia) eps sg Eps Sg Heps Hsg (w_j w) J (w_f w) y SF SJ) as (m' & y' & E1 & Ey & SF').
  rewrite Es in E1. injection E1 as <-.
  (* the ways of the particles *)
  assert (Ld : forall i k t q, 0 <= i < R -> 0 <= k < C -> In t (w_p w' i k) -> In q (snd t) ->
     mover_of charge dr dz (fst t) q = way charge g (fst t) q /\ lands (dom_geo g R C s (i, k)) (way charge g (fst t) q)).
  { intros i k t q Hi Hk Ht Hq. destruct (Fw i k t q Hi Hk Ht Hq) as (_ & P1 & P2 & C1 & C2 & _).
    assert (H := Hm i k t q Hi Hk Ht Hq). destruct H as [H1 H2]. cbn [nr nz rd_ zd_ a parts] in H1, H2. unfold pt_cr, part_cr in H1. unfold pt_cz, part_cz in H2.
    change (ParticleModel.cell_number (pos_r (now q)) dr) with (cell_number (pos_r (now q)) dr) in H1. change (ParticleModel.cell_number (pos_z (now q)) dz) with (cell_number (pos_z (now q)) dz) in H2.
    fold dr in C1. fold dz in C2.
    rewrite s32_small, !(bound_dom s Hs) in H1 by lia. rewrite s32_small, !(bound_dom s Hs) in H2 by lia. split.
    - unfold mover_of, way, pt_cr, pt_cz, part_cr, part_cz. fold dr dz.
      change (ParticleModel.cell_number (pos_r (now q)) dr) with (cell_number (pos_r (now q)) dr). change (ParticleModel.cell_number (pos_z (now q)) dz) with (cell_number (pos_z (now q)) dz).
      now rewrite !s32_small by lia.
    - unfold lands, ThmCurrent.bound, way, dom_geo. cbn [m_r m_z m_ro m_zo m_cr m_cz fst snd g_dr g_dz g_nr g_nz g_d0 g_d1]. fold dr dz. rewrite D1, D0. repeat split; auto; lia. }
  set (ps := fun ik : Z * Z => movers charge dr dz (w_p w' (fst ik) (snd ik))) in *.
  set (all := flat_map (fun sid => map (way charge g sid) (particles_of a sid (w_p w'))) ids).
  assert (InP : forall i k p, 0 <= i < R -> 0 <= k < C -> In p (ps (i, k)) -> exists t q, In t (w_p w' i k) /\ In q (snd t) /\ p = way charge g (fst t) q).
  { intros i k p Hi Hk Hp. unfold ps, movers in Hp. cbn [fst snd] in Hp. apply in_flat_map in Hp as (t & Ht & Hp). apply in_map_iff in Hp as (q & <- & Hq).
    exists t, q. split; [exact Ht|]. split; [exact Hq|]. now apply (Ld i k). }
  assert (Pa : Permutation all (everyone R C ps)).
  { assert (X := everyone_species (mover_of charge dr dz) a ids (w_p w') I'). cbn [rd_ zd_ a parts] in X. fold (parts R C s) in X. fold a in X. change (fun ik => flat_map _ _) with ps in X. rewrite X.
    apply perm_flat_ext. intros sid _. erewrite map_ext_in; [reflexivity|]. intros q Hq. apply In_particles in Hq as (i & k & t & Hi & Hk & Ht & <- & Hq).
    symmetry. now apply (Ld i k). }
  assert (Gm : Forall (good_move g) all).
  { apply Forall_forall. intros p Hp. apply (Permutation_in _ Pa), In_everyone in Hp as (i & k & Hi & Hk & Hp). destruct (InP i k p Hi Hk Hp) as (t & q & Ht & Hq & ->).
    split; [|exact (proj1 (Fw i k t q Hi Hk Ht Hq))]. apply (lands_glob g R C s HR HC Hs Gr Gz i k); auto. now apply Ld. }
  destruct (C121_vb_partial g R C s HR HC Hs HsL Gr Gz ps all (w_j w) J Sz ltac:(apply SJ) ltac:(apply SJ) Pa) as (j' & J1 & Ej1 & EJ1 & Fj' & FJ1 & Vrz & _).
  { intros i k Hi Hk. apply Forall_forall. intros p Hp. destruct (InP i k p Hi Hk Hp) as (t & q & Ht & Hq & ->). now apply Ld. }
  { exact (long_moves g all Gm). }
  { assert (N : (R = 1 \/ C = 1) \/ ~ (R = 1 \/ C = 1)) by lia. destruct N as [[N|N]|N]; auto. right. right. intros i k Hi Hk. apply Forall_fm. intros p Hp.
    destruct (InP i k p Hi Hk Hp) as (t & q & Ht & Hq & ->). destruct (Fw i k t q Hi Hk Ht Hq) as (_ & _ & _ & _ & _ & O). destruct O as [O|[O|O]]; [tauto|tauto|].
    apply rz_deps_no_corner; auto. now apply Ld. }
  change (smb_current vb_distribution g R C s ps (w_j w) = Ok (w_j w')) in Ej. rewrite Ej in Ej1. injection Ej1 as <-.
  destruct (glue_phi (w_j w') J1 Fj' FJ1 Vrz) as (J' & SJ' & Er & Ez).
  assert (FJ : fits3 (g_nr g) (g_nz g) J) by (rewrite Gr, Gz; apply SJ).
  destruct (zero_vb g all J Sz FJ ltac:(eapply Forall_impl; [|exact Gm]; intros m Hm'; apply Hm')) as (J2 & EJ2 & _ & _ & V').
  rewrite EJ1 in EJ2. injection EJ2 as <-. specialize (V' (long_moves g all Gm)).
  assert (V2 : forall c x z, c <> Cphi -> inw (g_nr g) (g_nz g) x z -> lv (getc c J') x z = amount c x z (flat_map (rz_deps g) all)).
  { intros c x z Nc W. destruct c; [rewrite Er|congruence|rewrite Ez]; now apply V'. }
  split; [split; [now exists y'|now exists J']|]. split; [exact I'|].
  (* the account of the particles *)
  assert (X : forall sid, In sid ids -> exists ng : (Z * Z -> list pt) * list pt,
     (forall i k, 0 <= i < R -> 0 <= k < C -> entered beams a dr dz (g_dt g) (u_t u) (u_c u) sid i k (fst ng (i, k))) /\
     swapped a dr dz sid (w_p w) (w_p w') (flat_map (fst ng) (pairs R C)) (snd ng)).
  { intros sid Hsid. destruct (Ac sid Hsid) as (new & l0 & l & En & P0 & F & P'). cbn [rd_ zd_ a parts] in P0. fold (parts R C s) in P0. fold a in P0.
    destruct (filter_partners _ (in_area a dr dz) _ _ F) as (stay & gone & Pm & Fs & G).
    exists (new, gone). cbn [fst snd]. split; [intros i k Hi Hk; exact (En i k Hi Hk)|]. exists stay, (filter (in_area a dr dz) l).
    split; [rewrite <- P0; exact Pm|auto]. }
  destruct (choose_list ids _ (fun _ => [], []) X) as [f Hf]. clear X.
  exists (fun sid => fst (f sid)), (fun sid => snd (f sid)).
  split; [intros sid i k Hsid; apply (Hf sid Hsid)|]. split; [intros sid Hsid; apply (Hf sid Hsid)|]. intros ev i k Nd Nc V.
  assert (D := deposits_leave g all J' Cl D1 Sz Gm V2 i k Nd).
  assert (A : charge_after g all i k = held_doms charge g R C w' i k).
  { rewrite (held_parts w' ids i k I'). unfold charge_after, all, owned. rewrite sum_flat. apply sum_ext_in. intros sid _. now rewrite sum_over_map. }
  assert (B : (charge_before g all i k = held_doms charge g R C w i k + owned charge g ids (fun sid => flat_map (fst (f sid)) (pairs R C)) i k - owned charge g ids (fun sid => snd (f sid)) i k)%R).
  { rewrite (held_parts w ids i k Io). unfold charge_before, all. rewrite sum_flat.
    apply (Rplus_eq_reg_r (owned charge g ids (fun sid => snd (f sid)) i k)). unfold Rminus. rewrite Rplus_assoc, Rplus_opp_l, Rplus_0_r.
    unfold owned. rewrite <- !sum_plus. apply sum_ext_in. intros sid Hsid. destruct (Hf sid Hsid) as (_ & stay & l & Pm & Fr & P' & _).
    set (h := fun q : pt => (charge sid * weight (now q) * (share_r g i (pos_r (now q)) * share_z g k (pos_z (now q))))%R).
    rewrite sum_over_map. cbn [way m_q m_ro m_zo]. rewrite (sum_over_perm _ _ _ P'), <- !sum_app.
    rewrite <- (sum_related remembers h (fun q => charge sid * weight (now q) * (share_r g i (old_r q) * share_z g k (old_z q)))%R _ _
      ltac:(intros q q' (Wt & O1 & O2); unfold h; now rewrite Wt, O1, O2) Fr).
    rewrite <- sum_app. symmetry. apply sum_over_perm. exact Pm. }
  assert (NF : (ev * flux g (y_e y') i k = ev * flux g (y_e y) i k - g_dt g * flux g J i k)%R).
  { destruct SF as ((Fe & Fh & Ft) & _). pose proof (yee_step_e _ _ _ _ _ _ _ Ey) as Ee.
    assert (Y := C119_flux_partial g (y_t y) J Eps Sg ev (y_e y) (y_e y') Cl Ft FJ ltac:(rewrite Gr, Gz; apply Heps) ltac:(rewrite Gr, Gz; apply Hsg) Fe).
    specialize (Y ltac:(intros x z Hx Hz; destruct (Q x z Hx Hz); assert (0 <= lv Sg x z * g_dt g)%R by (apply Rmult_le_pos; lra); lra) Ee i k Nd Nc V). lra. }
  unfold doms_error. destruct SF as (_ & _ & _ & _ & Ae & _). destruct SF' as (_ & _ & _ & _ & Ae' & _).
  rewrite (glued_flux_agrees g R C s (fun ab => y_e (w_f w ab)) (y_e y) i k), (glued_flux_agrees g R C s (fun ab => y_e (w_f w' ab)) (y_e y') i k) by (assumption || lia).
  rewrite (glued_flux_inner g R C s (w_j w) J i k), (glued_flux_inner g R C s (w_j w') J' i k); auto; try lia; [|apply SJ'|apply SJ].
  rewrite NF, <- A, D, B. ring.
Qed.

(** ** runs *)
(** a run of n rounds in which [ins] came and [outs] left, each with its species *)
Fixpoint chronicle (ids : list Z) (n : nat) (u u' : full) (ins outs : list (Z * pt)) : Prop :=
  match n with
  | O => u' = u /\ ins = [] /\ outs = []
  | S m => exists v (new : Z -> Z * Z -> list pt) gone ins' outs', round u v /\ fair_parts charge g R C s (u_w v) /\
      (forall sid i k, In sid ids -> 0 <= i < R -> 0 <= k < C -> entered beams a dr dz (g_dt g) (u_t u) (u_c u) sid i k (new sid (i, k))) /\
      (forall sid, In sid ids -> swapped a dr dz sid (w_p (u_w u)) (w_p (u_w v)) (flat_map (new sid) (pairs R C)) (gone sid)) /\
      chronicle ids m v u' ins' outs' /\
      ins = flat_map (fun sid => map (pair sid) (flat_map (new sid) (pairs R C))) ids ++ ins' /\ outs = flat_map (fun sid => map (pair sid) (gone sid)) ids ++ outs'
  end.
(** Every run has such a chronicle, and the error of Gauss's law has changed by the charge of all that left less that of all that came. *)
Theorem C164_run_partial : forall n u u' ids, rounds (fun x y => round x y /\ fair_parts charge g R C s (u_w y)) n u u' ->
  one_field g R C s (u_w u) -> ids_ok a ids (w_p (u_w u)) ->
  one_field g R C s (u_w u') /\ ids_ok a ids (w_p (u_w u')) /\ exists ins outs, chronicle ids n u u' ins outs /\
    forall ev i k, node g i k -> (i, k) <> (0, 1) -> vacuum g Eps Sg ev i k ->
      doms_error charge g R C s ev (u_w u') i k = (doms_error charge g R C s ev (u_w u) i k - belong charge g ins i k + belong charge g outs i k)%R.
Proof using Im HR HC Hs Gr Gz GrL GzL D1 Cl Pt Heps Hsg Q.
  induction n as [|n IH]; cbn [rounds chronicle]; intros u u' ids.
  - intros -> Of Io. split; [exact Of|]. split; [exact Io|]. exists [], []. split; [auto|]. intros. unfold belong. cbn [sum_over]. ring.
  - intros (v & (Rd & Fw) & Rn) Of Io. destruct (C164_balance_partial u v ids Rd Of Io Fw) as (Ov & Iv & new & gone & En & Ex & Bal).
    destruct (IH v u' ids Rn Ov Iv) as (O' & I' & ins & outs & Hi & B'). split; [exact O'|]. split; [exact I'|].
    exists (flat_map (fun sid => map (pair sid) (flat_map (new sid) (pairs R C))) ids ++ ins), (flat_map (fun sid => map (pair sid) (gone sid)) ids ++ outs).
    split; [exists v, new, gone, ins, outs; auto 10|]. intros ev i k Nd Nc V. rewrite (B' ev i k Nd Nc V), (Bal ev i k Nd Nc V).
    assert (S : forall x y, belong charge g (x ++ y) i k = (belong charge g x i k + belong charge g y i k)%R) by (intros; apply sum_app).
    rewrite !S, (belong_owned charge g ids (fun sid => flat_map (new sid) (pairs R C))), (belong_owned charge g ids gone). ring.
Qed.
End Parts.

(** ** an example: the run of [C159_ex], an area of four domains in which one particle of a beam comes and one leaves *)
Theorem C164_gauss_refuted : velocities_only none /\ closed geo8 /\ one_field geo8 2 2 4 (u_w empty22) /\ ids_ok (parts 2 2 4) [9] (w_p (u_w empty22)) /\ node geo8 1 1 /\
  vacuum geo8 (sz 8 1) (sz 8 0) 1 1 1 /\
  exists u', full_round tilt (fun _ => 1%R) vb_distribution 1 bms None none dice geo8 2 2 4 (fun _ => sz 4 1) (fun _ => sz 4 0) empty22 u' /\
    fair_parts (fun _ => 1%R) geo8 2 2 4 (u_w u') /\
    doms_error (fun _ => 1%R) geo8 2 2 4 1 (u_w u') 1 1 <> doms_error (fun _ => 1%R) geo8 2 2 4 1 (u_w empty22) 1 1.
Proof.
  assert (M := mnzl_small).
  destruct C159_ex as (Vo & Ga & Io & _ & _ & P0 & u' & Rn & P9). cbn [rounds] in Rn. destruct Rn as (v & Rd & ->).
  assert (Cl : closed geo8) by (unfold closed, geo8; cbn; repeat split; lia || lra).
  assert (Ie : inner2 2 2 4 (fun _ => sz 4 1) (sz 8 1)) by apply C65_example. assert (Is : inner2 2 2 4 (fun _ => sz 4 0) (sz 8 0)) by apply C65_example.
  assert (SF : same_fields geo8 2 2 4 (w_f start) (o_f start1)) by apply C65_example. assert (SJ : same_current 2 2 4 (w_j start) (o_j start1)) by apply C65_example.
  assert (Of : one_field geo8 2 2 4 (u_w empty22)) by (split; eauto).
  assert (Nd : node geo8 1 1) by (unfold node; cbn; lia).
  assert (Va : vacuum geo8 (sz 8 1) (sz 8 0) 1 1 1) by (intros a b Ha Hb Hp; rewrite !lv_sz by lia; auto).
  change area22 with (parts 2 2 4) in *.
  repeat (split; [assumption|]). exists v. split; [exact Rd|].
  destruct went_at as (L1 & L2 & L3 & L4).
  assert (Cr1 : cell_number (7 / 4) 1 = 1) by (apply cell_is; lra). assert (Cz1 : cell_number (5 / 4) 1 = 1) by (apply cell_is; lra). assert (Cz0 : cell_number (3 / 4) 1 = 0) by (apply cell_is; lra).
  assert (I' : ids_ok (parts 2 2 4) [9] (w_p (u_w v))).
  { pose proof Rd as (_ & Fp & _). exact (proj1 (C159_account tilt bms None none dice Vo (parts 2 2 4) [9] _ _ _ _ _ _ _ _ _ Ga Io Fp)). }
  assert (Only : forall i k t q, 0 <= i < 2 -> 0 <= k < 2 -> In t (w_p (u_w v) i k) -> In q (snd t) -> q = went).
  { intros i k t q Hi Hk Ht Hq. assert (Et : fst t = 9).
    { destruct I' as [_ I]. specialize (I i k ltac:(cbn; lia) ltac:(cbn; lia)). apply (in_map fst) in Ht. rewrite I in Ht. destruct Ht as [<-|[]]. reflexivity. }
    assert (X : In q (particles_of (parts 2 2 4) 9 (w_p (u_w v)))) by (apply In_particles; exists i, k, t; cbn [rd_ zd_ parts]; repeat split; auto; lia).
    apply (Permutation_in _ P9) in X. now destruct X as [<-|[]]. }
  assert (Fw : fair_parts (fun _ => 1%R) geo8 2 2 4 (u_w v)).
  { intros i k t q Hi Hk Ht Hq. rewrite (Only i k t q Hi Hk Ht Hq). cbv zeta. unfold way. cbn [g_dr g_dz geo8]. rewrite L1, L2, Cr1, Cz1. cbn [went old_r old_z].
    split; [|repeat split; try lra; try lia; right; right; unfold away_from_corner, dom_geo; cbn [m_cr m_cz g_d0 g_d1 g_nr g_nz geo8 fst snd]; lia].
    left. assert (Cr0 : cell_number (5 / 4) 1 = 1) by exact Cz1.
    split. { unfold step_at_most_one, ThmCurrent.old_r, ThmCurrent.old_z. cbn [m_ro m_zo m_cr m_cz g_dr g_dz geo8]. rewrite Cr0, Cz0. lia. }
    split; [unfold oblique; cbn [m_r m_ro m_z m_zo]; split; eapply Rle_trans; try exact M; absolve|].
    unfold ThmCurrent.old_r, ThmCurrent.old_z. cbn [m_ro m_zo m_cr m_cz g_dr g_dz geo8]. rewrite Cr0. split; [lia|]. split; [lia|].
    rewrite went_legs. repeat apply Forall_cons; try apply Forall_nil; cbn [leg_long]; right; split; eapply Rle_trans; try exact M; absolve. }
  split; [exact Fw|].
  destruct (C164_balance_partial tilt (fun _ => 1%R) 1 bms None none dice Vo geo8 2 2 4 ltac:(lia) ltac:(lia) ltac:(lia) eq_refl eq_refl ltac:(cbn; lia) ltac:(cbn; lia) eq_refl Cl ltac:(cbn; lra) _ _ _ _ Ie Is
    ltac:(intros i k Hi Hk; cbn [g_nr g_nz geo8] in Hi, Hk; rewrite !lv_sz by lia; lra) empty22 v [9] Rd Of Io Fw) as (_ & _ & new & gone & _ & Ex & Bal).
  rewrite (Bal 1%R 1 1 Nd ltac:(congruence) Va). clear Bal. destruct (Ex 9 (or_introl eq_refl)) as (stay & l & Pm & Fr & Pl & _). clear Ex.
  rewrite P9 in Pl. apply Permutation_length_1_inv in Pl. subst l. inversion Fr as [|x q1 s' l' Hx Fr' E1 E2]; subst. inversion Fr'; subst. clear Fr Fr'.
  rewrite P0 in Pm. cbn [app] in Pm. destruct Hx as (H1 & H2 & H3). rewrite L4 in H1. cbn [went old_r old_z] in H2, H3.
  unfold owned. cbn [sum_over].
  assert (SB : forall h : pt -> R, (sum_over h (flat_map (new 9%Z) (pairs 2 2)) + h goer = h x + sum_over h (gone 9%Z))%R).
  { intros h. rewrite Rplus_comm. change (sum_over h (goer :: flat_map (new 9) (pairs 2 2)) = sum_over h (x :: gone 9)). now apply sum_over_perm. }
  set (h := fun q : pt => (1 * weight (now q) * (share_r geo8 1 (pos_r (now q)) * share_z geo8 1 (pos_z (now q))))%R) in *. specialize (SB h).
  assert (Hx : h x = (w0 * (share_r geo8 1 (5 / 4) * share_z geo8 1 (3 / 4)))%R) by (unfold h; rewrite <- H1, <- H2, <- H3; ring).
  assert (Hg : h goer = 0%R).
  { unfold h, goer. cbn [now pos_z pos_r weight]. rewrite (share_z_in geo8 ltac:(cbn; lra) 7 1 (15/2)) by (cbn; lra). bools. ring. }
  rewrite (share_r_in geo8 ltac:(cbn; lra) 1 1 (5/4)) in Hx by (cbn; lra). rewrite (share_z_in geo8 ltac:(cbn; lra) 0 1 (3/4)) in Hx by (cbn; lra).
  revert Hx. bools. cbn [geo8 g_dr g_dz]. assert (W := w0_pos). intros Hx. assert (0 < h x)%R by (rewrite Hx; nra). lra.
Qed.

Print Assumptions C164_balance_partial.
Print Assumptions C164_run_partial.
Print Assumptions C164_gauss_refuted.
