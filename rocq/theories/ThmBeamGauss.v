(** C160: Gauss's law in a run of whole rounds with beams, collisions and external fields. *)
From Coq Require Import ZifyBool Reals Lra Psatz Permutation.
From Verif Require Import Base RndUtil DecompModel DecompProofs CollectorModel CollectorProofs ListUtil PushModel ParticleModel ParticleProofs StepModel
  ThmParticle ThmInit ThmDecomp ThmStep ThmFlight GridModel GridProofs OverlayModel YeeModel YeeProofs ThmYee ExtModel ThmExt CurrentModel CurrentProofs ThmCurrent ThmCurrent2
  CavityProofs ThmEnergy ThmGauss YeeSmb ThmYeeSmb SmbCorner SmbCurrent ThmDivide ThmGaussSmb TimeModel ThmTime BeamModel RoundModel RoundProofs ThmRound ThmRoundGauss ThmGaussRef FullModel ThmFull.
Open Scope Z_scope.

(** ** specification *)
(** the charge of some particles (by species) that belongs to a node *)
Definition owned (charge : Z -> R) (g : YeeModel.geo) (ids : list Z) (f : Z -> list pt) (i k : Z) : R :=
  sum_over (fun sid => sum_over (fun q => charge sid * weight (now q) * (share_r g i (pos_r (now q)) * share_z g k (pos_z (now q))))%R (f sid)) ids.
(** the particles that are in the area after a round came on ways for which the current of Villasenor and Buneman is right (C120) *)
Definition fair_ways charge (g : YeeModel.geo) (w' : world1) : Prop :=
  forall t q, In t (o_p w' 0 0) -> In q (snd t) -> (oblique_move g (way charge g (fst t) q) \/ radial_move g (way charge g (fst t) q)) /\
    (0 < pos_r (now q))%R /\ (0 < old_r q)%R /\
    - 2 ^ 31 <= cell_number (pos_r (now q)) (g_dr g) < 2 ^ 31 /\ - 2 ^ 31 <= cell_number (pos_z (now q)) (g_dz g) < 2 ^ 31.
(** the whole area as one domain *)
Definition whole (g : YeeModel.geo) : area := {| nr := g_nr g; nz := g_nz g; rd_ := 1; zd_ := 1 |}.
(** between [w] and [w'] the particles [new] came and the particles [gone] (as they were) left *)
Definition exchanged (g : YeeModel.geo) (w w' : world1) (new gone : Z -> list pt) : Prop :=
  forall sid, In sid (map fst (o_p w 0 0)) -> exists stay l,
    Permutation (of_species sid w ++ new sid) (stay ++ gone sid) /\ Forall2 remembers stay l /\ Permutation (of_species sid w') l /\
    Forall (fun q => exists q', remembers q q' /\ in_area (whole g) (g_dr g) (g_dz g) q' = false) (gone sid).

Lemma sum_app {A} (f : A -> R) l m : sum_over f (l ++ m) = (sum_over f l + sum_over f m)%R.
Proof. induction l as [|x l IH]; cbn [app sum_over]; [ring|]. rewrite IH. ring. Qed.
Lemma sum_plus {A} (f h : A -> R) l : sum_over (fun x => f x + h x)%R l = (sum_over f l + sum_over h l)%R.
Proof. induction l as [|x l IH]; cbn [sum_over]; [ring|]. rewrite IH. ring. Qed.
(** a filtered list of partners *)
Lemma filter_partners {A B} (P : A -> B -> Prop) (f : B -> bool) l m : Forall2 P l m ->
  exists s g, Permutation l (s ++ g) /\ Forall2 P s (filter f m) /\ Forall (fun x => exists y, P x y /\ f y = false) g.
Proof.
  induction 1 as [|x y l m Hx _ (s & g & Pm & F & G)]; [exists [], []; repeat constructor|]. cbn [filter]. destruct (f y) eqn:E.
  - exists (x :: s), g. split; [now constructor|]. split; [now constructor|exact G].
  - exists s, (x :: g). split; [now apply Permutation_cons_app|]. split; [exact F|]. constructor; eauto.
Qed.
Lemma choose_list {A} (ids : list Z) (P : Z -> A -> Prop) (d : A) : (forall sid, In sid ids -> exists x, P sid x) -> exists f, forall sid, In sid ids -> P sid (f sid).
Proof.
  induction ids as [|s ids IH]; intros H; [exists (fun _ => d); intros ? []|]. destruct IH as [f F]; [intros; apply H; now right|].
  destruct (H s (or_introl eq_refl)) as [x X]. exists (fun z => if z =? s then x else f z). intros z Hz.
  destruct (z =? s) eqn:E; [replace z with s by lia; exact X|]. apply F. destruct Hz; [lia|assumption].
Qed.

Section One.
Variable pusher : Z -> v3 -> v3 -> v3 -> outcome v3.
Variable charge : Z -> R.
Variable mu : R.
Variable beams : Z -> option (beam * R).
Variable extern : option (doms yee).
Variable impulse : Z -> Z -> domain pt -> domain pt -> Prop.
Variable draw : nat -> Z -> Z -> Z -> nat -> R * R.
Hypothesis Im : velocities_only impulse.
Variable g : YeeModel.geo.
Hypothesis Nr : 4 <= g_nr g < 2 ^ 31.
Hypothesis Nz : 4 <= g_nz g < 2 ^ 31.
Hypothesis D1 : g_d1 g = 0.
Hypothesis Cl : closed g.
Hypothesis Pt : (0 < g_dt g)%R.
Variables Eps Sg : grid R.
Hypothesis F1 : fits2 (g_nr g) (g_nz g) Eps.
Hypothesis F2 : fits2 (g_nr g) (g_nz g) Sg.
Hypothesis Q : forall i k, 0 <= i < g_nr g -> 0 <= k < g_nz g -> (0 < lv Eps i k)%R /\ (0 <= lv Sg i k)%R.
Let round := full1_round pusher charge vb_distribution mu beams extern impulse draw g Eps Sg.

Lemma held_owned w i k : NoDup (map fst (o_p w 0 0)) -> held charge g w i k = owned charge g (map fst (o_p w 0 0)) (fun sid => of_species sid w) i k.
Proof using Nr Nz.
  intros N. unfold held, owned. exact (sum_species g Nr Nz (fun sid q => charge sid * weight (now q) * (share_r g i (pos_r (now q)) * share_z g k (pos_z (now q))))%R w N).
Qed.

(** One round: the error of Gauss's law changes by the charge of the particles that came and left. *)
Theorem C160_balance_partial : forall u u', round u u' -> sound g (v_w u) -> fair_ways charge g (v_w u') ->
  let ids := map fst (o_p (v_w u) 0 0) in
  sound g (v_w u') /\ map fst (o_p (v_w u') 0 0) = ids /\
  exists new gone, (forall sid, In sid ids -> entered beams (whole g) (g_dr g) (g_dz g) (g_dt g) (v_t u) (v_c u) sid 0 0 (new sid)) /\
    exchanged g (v_w u) (v_w u') new gone /\
    forall ev i k, node g i k -> (i, k) <> (0, 1) -> vacuum g Eps Sg ev i k ->
      gauss_error charge g ev (v_w u') i k = (gauss_error charge g ev (v_w u) i k - owned charge g ids new i k + owned charge g ids gone i k)%R.
Proof using Im Nr Nz D1 Cl Pt F1 F2 Q.
  intros u u' Rd (Fy & Fj & N) Fw ids. destruct Rd as (Ey & Fp & Ej & _ & _). fold (whole g) in Fp.
  set (w := v_w u) in *. set (w' := v_w u') in *.
  pose proof Cl as (_ & _ & _ & _ & D0 & _ & _ & Hdr & Hdz).
  assert (Io : ids_ok (whole g) ids (o_p w)).
  { split; [exact N|]. intros i j Hi Hj. cbn [rd_ zd_ whole] in Hi, Hj. replace i with 0 by lia. now replace j with 0 by lia. }
  assert (Ga : good_area (whole g)) by exact (one_good g Nr Nz).
  destruct (C159_account pusher beams extern impulse draw Im (whole g) ids _ _ _ _ _ _ _ _ _ Ga Io Fp) as (I' & Ac).
  assert (Ids : map fst (o_p w' 0 0) = ids) by (apply I'; cbn; lia).
  assert (N' : NoDup (map fst (o_p w' 0 0))) by now rewrite Ids.
  assert (Ps : forall sid (st : smb pt), particles_of (whole g) sid st = flat_map (fun t => if fst t =? sid then snd t else []) (st 0 0)).
  { intros sid st. unfold particles_of. change (pairs (rd_ (whole g)) (zd_ (whole g))) with [(0, 0)]. cbn [flat_map fst snd]. now rewrite app_nil_r. }
  assert (X : forall sid, In sid ids -> exists ng : list pt * list pt, entered beams (whole g) (g_dr g) (g_dz g) (g_dt g) (v_t u) (v_c u) sid 0 0 (fst ng) /\
     exists stay l, Permutation (of_species sid w ++ fst ng) (stay ++ snd ng) /\ Forall2 remembers stay l /\ Permutation (of_species sid w') l /\
       Forall (fun q => exists q', remembers q q' /\ in_area (whole g) (g_dr g) (g_dz g) q' = false) (snd ng)).
  { intros sid Hs. destruct (Ac sid Hs) as (new & l0 & l & En & P0 & F & P'). specialize (En 0 0 ltac:(cbn; lia) ltac:(cbn; lia)).
    change (pairs (rd_ (whole g)) (zd_ (whole g))) with [(0, 0)] in P0. cbn [flat_map] in P0. rewrite app_nil_r in P0. rewrite Ps in P0, P'.
    destruct (filter_partners _ (in_area (whole g) (g_dr g) (g_dz g)) _ _ F) as (stay & gone & Pm & Fs & G).
    exists (new (0, 0), gone). cbn [fst snd]. split; [exact En|]. exists stay, (filter (in_area (whole g) (g_dr g) (g_dz g)) l).
    split; [|auto]. unfold of_species. rewrite <- P0. exact Pm. }
  destruct (choose_list ids _ ([], []) X) as [f Hf]. clear X.
  assert (S : sizes g) by (split; [exact Hdr|split; [exact Hdz|exact Pt]]).
  assert (Hm : forall t q, In t (o_p w' 0 0) -> In q (snd t) -> 0 <= pt_cr (g_dr g) q < g_nr g /\ 0 <= pt_cz (g_dz g) q < g_nz g).
  { intros t q Ht Hq. assert (Z : In q (of_species (fst t) w')) by (apply in_flat_map; exists t; split; [exact Ht|]; now rewrite Z.eqb_refl).
    assert (It : In (fst t) ids) by (rewrite <- Ids; now apply in_map).
    destruct (Ac (fst t) It) as (_ & _ & l & _ & _ & _ & P'). rewrite Ps in P'. apply (Permutation_in _ P'), filter_In in Z as [_ Z].
    unfold in_area in Z. cbn [nr nz whole] in Z.
    change (s32 (cell_number (pos_r (now q)) (g_dr g))) with (pt_cr (g_dr g) q) in Z. change (s32 (cell_number (pos_z (now q)) (g_dz g))) with (pt_cz (g_dz g) q) in Z. lia. }
  assert (Mv : forall t q, In t (o_p w' 0 0) -> In q (snd t) -> mover_of charge (g_dr g) (g_dz g) (fst t) q = way charge g (fst t) q /\ lands g (way charge g (fst t) q)).
  { intros t q Ht Hq. destruct (Hm t q Ht Hq) as [H1 H2]. destruct (Fw t q Ht Hq) as (_ & P1 & P2 & C1 & C2).
    unfold pt_cr, pt_cz, part_cr, part_cz in H1, H2.
    change (ParticleModel.cell_number (pos_r (now q)) (g_dr g)) with (cell_number (pos_r (now q)) (g_dr g)) in H1.
    change (ParticleModel.cell_number (pos_z (now q)) (g_dz g)) with (cell_number (pos_z (now q)) (g_dz g)) in H2.
    rewrite s32_small in H1 by lia. rewrite s32_small in H2 by lia. split.
    - unfold mover_of, way, pt_cr, pt_cz, part_cr, part_cz.
      change (ParticleModel.cell_number (pos_r (now q)) (g_dr g)) with (cell_number (pos_r (now q)) (g_dr g)).
      change (ParticleModel.cell_number (pos_z (now q)) (g_dz g)) with (cell_number (pos_z (now q)) (g_dz g)). now rewrite !s32_small by lia.
    - unfold lands, ThmCurrent.bound, way. cbn [m_r m_z m_ro m_zo m_cr m_cz]. rewrite D1, D0. repeat split; auto; lia. }
  set (ws := flat_map (fun t => map (way charge g (fst t)) (snd t)) (o_p w' 0 0)).
  assert (Em : movers charge (g_dr g) (g_dz g) (o_p w' 0 0) = ws).
  { unfold movers, ws. clear - Mv. induction (o_p w' 0 0) as [|t l IH]; [reflexivity|]. cbn [flat_map]. f_equal.
    - apply map_ext_in. intros q Hq. apply (Mv t q); auto. now left.
    - apply IH. intros; apply (Mv t0 q); auto. now right. }
  rewrite Em in Ej. clear Em.
  assert (Gm : Forall (good_move g) ws).
  { apply Forall_flat_map, Forall_forall. intros t Ht. apply Forall_forall. intros m Hm'. apply in_map_iff in Hm' as (q & <- & Hq).
    split; [now apply Mv|]. exact (proj1 (Fw t q Ht Hq)). }
  destruct (zero_vb g ws (o_j w) S Fj ltac:(eapply Forall_impl; [|exact Gm]; intros m Hm'; apply Hm')) as (j' & Ej' & Fj' & _ & V').
  rewrite Ej in Ej'. injection Ej' as <-. specialize (V' (long_moves g ws Gm)).
  destruct (yee_step_ok mu g Eps Sg (o_j w) (o_f w) ltac:(split; lia) F1 F2 Fj Fy) as (y1 & Ey1 & Fy1). rewrite Ey in Ey1. injection Ey1 as <-.
  split; [split; [exact Fy1|]; split; [exact Fj'|exact N']|]. split; [exact Ids|].
  exists (fun sid => fst (f sid)), (fun sid => snd (f sid)).
  split; [intros sid Hs; apply (Hf sid Hs)|]. split; [intros sid Hs; apply (Hf sid Hs)|]. intros ev i k Nd Nc V.
  assert (D := deposits_leave g ws (o_j w') Cl D1 S Gm V' i k Nd).
  assert (A : charge_after g ws i k = held charge g w' i k).
  { unfold charge_after, ws, held. rewrite sum_flat. apply sum_ext_in. intros t _. now rewrite sum_over_map. }
  assert (B : (charge_before g ws i k = held charge g w i k + owned charge g ids (fun sid => fst (f sid)) i k - owned charge g ids (fun sid => snd (f sid)) i k)%R).
  { unfold charge_before, ws. rewrite sum_flat.
    rewrite (sum_ext_in _ (fun t => sum_over (fun q => charge (fst t) * weight (now q) * (share_r g i (old_r q) * share_z g k (old_z q)))%R (snd t))) by (intros t _; now rewrite sum_over_map).
    rewrite (sum_species g Nr Nz (fun sid q => charge sid * weight (now q) * (share_r g i (old_r q) * share_z g k (old_z q)))%R w' N').
    rewrite (held_owned w i k N), Ids. fold ids.
    apply (Rplus_eq_reg_r (owned charge g ids (fun sid => snd (f sid)) i k)). unfold Rminus. rewrite Rplus_assoc, Rplus_opp_l, Rplus_0_r.
    unfold owned. rewrite <- !sum_plus. apply sum_ext_in. intros sid Hs. destruct (Hf sid Hs) as (_ & stay & l & Pm & Fr & P' & _).
    set (h := fun q : pt => (charge sid * weight (now q) * (share_r g i (pos_r (now q)) * share_z g k (pos_z (now q))))%R).
    rewrite (sum_over_perm _ _ _ P'), <- !sum_app.
    rewrite <- (sum_related remembers h (fun q => charge sid * weight (now q) * (share_r g i (old_r q) * share_z g k (old_z q)))%R _ _
      ltac:(intros q q' (Wt & O1 & O2); unfold h; now rewrite Wt, O1, O2) Fr).
    rewrite <- sum_app. symmetry. apply sum_over_perm. exact Pm. }
  assert (NF : (ev * flux g (y_e (o_f w')) i k = ev * flux g (y_e (o_f w)) i k - g_dt g * flux g (o_j w) i k)%R).
  { pose proof Fy as (Fe & Fh & Ft). pose proof (yee_step_e _ _ _ _ _ _ _ Ey) as Ee.
    assert (Y := C119_flux_partial g (y_t (o_f w)) (o_j w) Eps Sg ev (y_e (o_f w)) (y_e (o_f w')) Cl Ft Fj F1 F2 Fe).
    specialize (Y ltac:(intros a b Ha Hb; destruct (Q a b Ha Hb); assert (0 <= lv Sg a b * g_dt g)%R by (apply Rmult_le_pos; lra); lra) Ee i k Nd Nc V). lra. }
  unfold gauss_error. rewrite NF, <- A, D, B. ring.
Qed.

(** ** runs *)
Definition charges : Type := list (Z * pt).
Definition belong (cs : charges) (i k : Z) : R := sum_over (fun sq => charge (fst sq) * weight (now (snd sq)) * (share_r g i (pos_r (now (snd sq))) * share_z g k (pos_z (now (snd sq)))))%R cs.
(** a run of n rounds in which [ins] came and [outs] left *)
Fixpoint history (n : nat) (u u' : full1) (ins outs : charges) : Prop :=
  match n with
  | O => u' = u /\ ins = [] /\ outs = []
  | S m => exists v new gone ins' outs', round u v /\ fair_ways charge g (v_w v) /\
      (forall sid, In sid (map fst (o_p (v_w u) 0 0)) -> entered beams (whole g) (g_dr g) (g_dz g) (g_dt g) (v_t u) (v_c u) sid 0 0 (new sid)) /\
      exchanged g (v_w u) (v_w v) new gone /\ history m v u' ins' outs' /\
      ins = flat_map (fun sid => map (pair sid) (new sid)) (map fst (o_p (v_w u) 0 0)) ++ ins' /\
      outs = flat_map (fun sid => map (pair sid) (gone sid)) (map fst (o_p (v_w u) 0 0)) ++ outs'
  end.
Lemma belong_owned ids f i k : belong (flat_map (fun sid => map (pair sid) (f sid)) ids) i k = owned charge g ids f i k.
Proof using. unfold belong, owned. rewrite sum_flat. apply sum_ext_in. intros sid _. now rewrite sum_over_map. Qed.
(** Every run has such a history, and the error of Gauss's law has changed by the charge of all that left less that of all that came. *)
Theorem C160_run_partial : forall n u u', rounds (fun x y => round x y /\ fair_ways charge g (v_w y)) n u u' -> sound g (v_w u) ->
  sound g (v_w u') /\ exists ins outs, history n u u' ins outs /\
    forall ev i k, node g i k -> (i, k) <> (0, 1) -> vacuum g Eps Sg ev i k ->
      gauss_error charge g ev (v_w u') i k = (gauss_error charge g ev (v_w u) i k - belong ins i k + belong outs i k)%R.
Proof using Im Nr Nz D1 Cl Pt F1 F2 Q.
  induction n as [|n IH]; cbn [rounds history]; intros u u'.
  - intros -> Sd. split; [exact Sd|]. exists [], []. split; [auto|]. intros. unfold belong. cbn [sum_over]. ring.
  - intros (v & (Rd & Fw) & Rn) Sd. destruct (C160_balance_partial u v Rd Sd Fw) as (Sv & Ids & new & gone & En & Ex & Bal).
    destruct (IH v u' Rn Sv) as (S' & ins & outs & Hi & B'). split; [exact S'|].
    exists (flat_map (fun sid => map (pair sid) (new sid)) (map fst (o_p (v_w u) 0 0)) ++ ins), (flat_map (fun sid => map (pair sid) (gone sid)) (map fst (o_p (v_w u) 0 0)) ++ outs).
    split; [exists v, new, gone, ins, outs; auto 10|]. intros ev i k Nd Nc V. rewrite (B' ev i k Nd Nc V), (Bal ev i k Nd Nc V).
    unfold belong. rewrite !sum_app. fold (belong ins i k). fold (belong outs i k).
    assert (E : forall f, sum_over (fun sq => charge (fst sq) * weight (now (snd sq)) * (share_r g i (pos_r (now (snd sq))) * share_z g k (pos_z (now (snd sq)))))%R
       (flat_map (fun sid => map (pair sid) (f sid)) (map fst (o_p (v_w u) 0 0))) = owned charge g (map fst (o_p (v_w u) 0 0)) f i k) by (intros f; apply belong_owned).
    rewrite !E. fold (belong ins i k) (belong outs i k). ring.
Qed.
End One.

(** ** an example: one particle of a beam enters an empty area; the law of Gauss, true before, is false afterwards *)
Definition tilt : Z -> v3 -> v3 -> v3 -> outcome v3 := fun _ _ _ _ => Ok (V3 (/ 2) 0 (/ 2)).
Definition bm : beam := {| b_start := 0; b_length := 1; b_distance := 0; b_velocity := / 2; b_radius := 2; b_bunches := 1; b_macro := 2 |}.
Definition bms (sid : Z) : option (beam * R) := if sid =? 9 then Some (bm, 1%R) else None.
Definition none : Z -> Z -> domain pt -> domain pt -> Prop := fun _ _ d d' => d' = d.
Definition dice : nat -> Z -> Z -> Z -> nat -> R * R := fun _ _ _ _ _ => (3 / 8, / 2)%R.
Definition quiet : yee := mkYee (sz3 8 0) (sz3 8 0) (sz3 8 0).
Definition empty9 : full1 := mkFull1 (mkWorld1 quiet (sz3 8 0) (fun _ _ => [(9, [])])) 0 (fun _ _ _ => 0%nat).
Definition outside : option (doms yee) := Some (fun _ => quiet).

Lemma beam_dom8 : beam_dom (whole geo8) 1 0 0 = {| d_bot := 0; d_left := 0; d_top := 8; d_size := 8 * 1 / 1; d_dr := 1 |}%R.
Proof. reflexivity. Qed.
Lemma bm_radius : domain_radius bm (beam_dom (whole geo8) 1 0 0) = 2%R.
Proof.
  rewrite beam_dom8. unfold domain_radius. cbn [d_left d_top d_bot d_dr d_size b_radius bm]. change (0 <? 0) with false. cbv iota.
  unfold Rltb. destruct (Rlt_dec (8 * 1) 2); [lra|]. destruct (Rlt_dec (0 * 1) 2); lra.
Qed.
Lemma bm_once : fst (manage_beam bm (beam_dom (whole geo8) 1 0 0) 1 (INR 0 * 1) 0) = 1%nat.
Proof.
  unfold manage_beam, inject, macro_per_step, bunch_macro_amount. rewrite bm_radius, beam_dom8. cbn [d_left d_bot d_dr b_bunches b_macro bm b_radius b_velocity b_length].
  change (0 =? 0) with true. change (0 <? 1)%nat with true. cbv iota. unfold bunch_start, bunch_finish, bunch_start. cbn [b_start b_length b_distance b_velocity bm INR fst].
  replace (Rltb (0 * 1) 2) with true by (unfold Rltb; destruct (Rlt_dec _ _); lra || reflexivity).
  replace (Rleb (0 + (1 + 0) / / 2 * 0) (0 * 1)) with true by (unfold Rleb; destruct (Rle_dec _ _); lra || reflexivity).
  replace (Rltb (0 * 1) (0 + (1 + 0) / / 2 * 0 + 1 / / 2)) with true by (unfold Rltb; destruct (Rlt_dec _ _); lra || reflexivity).
  cbn [andb]. change (2 / 1)%nat with 2%nat. unfold loop_count. replace (INR 2 * (2 / 2) * / 2 * 1 / 1)%R with 1%R by (cbn; lra).
  now rewrite (ceilR_spec 1 1) by lra.
Qed.
Definition w0 : R := injected_weight bm (beam_dom (whole geo8) 1 0 0) 1 1 (5 / 4).
Lemma w0_pos : (0 < w0)%R.
Proof.
  assert (P := PI_RGT_0). unfold w0, injected_weight. rewrite beam_dom8. cbn [b_radius b_length b_bunches b_macro bm d_dr INR].
  replace (Rltb (1 / 2) (5 / 4)) with true by (unfold Rltb; destruct (Rlt_dec _ _); lra || reflexivity). cbv iota.
  match goal with |- (0 < ?x)%R => replace x with (5 / 2 * PI)%R by (field; lra) end. lra.
Qed.
Definition came : pt := mkPt {| pos_r := 5 / 4; pos_phi := 0; pos_z := 3 / 4; vel_r := 0; vel_phi := 0; vel_z := / 2; p_sin := 0; weight := w0 |} 0 0.
Lemma one_came : newcomers bms dice (whole geo8) 1 1 1 0 (fun _ _ _ => 0%nat) 0 0 9 = [came].
Proof.
  unfold newcomers, bms. change (9 =? 9) with true. cbv iota. rewrite bm_once. cbn [seq map]. unfold new_particle, dice. cbn [fst snd].
  unfold injected_particle. rewrite bm_radius, beam_dom8. cbn [d_dr d_bot b_velocity bm].
  replace (2 * (3 / 8) + 1 / 2 + 0 * 1)%R with (5 / 4)%R by field. replace (/ 2 * 1 * / 2 + 1 / 2)%R with (3 / 4)%R by field. reflexivity.
Qed.
Definition went : pt := mkPt (beam_flight geo8 (hurled came (V3 (/ 2) 0 (/ 2)))) (5 / 4) (3 / 4).
Lemma went_at : pos_r (now went) = (7 / 4)%R /\ pos_z (now went) = (5 / 4)%R /\ vel_phi (now went) = 0%R /\ weight (now went) = w0.
Proof.
  unfold went, beam_flight, hurled, came. cbn [now pos_r pos_phi pos_z vel_r vel_phi vel_z p_sin weight vx vy vz g_dt g_dr geo8].
  rewrite runner_radius. destruct (Rlt_dec (7 / 4) (1 / 2)); [lra|]. repeat split; try lra; unfold Rdiv; rewrite ?Rmult_0_l; ring.
Qed.
Lemma went_legs v c : legs_of geo8 (mkMover (7 / 4) (5 / 4) (5 / 4) (3 / 4) 1 1 v c) = [(3/2, 1, 5/4, 3/4, 1%Z, 0%Z); (7/4, 5/4, 3/2, 1, 1%Z, 1%Z)]%R.
Proof.
  unfold legs_of, ThmCurrent.old_r, ThmCurrent.old_z. cbn [m_r m_ro m_z m_zo m_cr m_cz m_q g_dr g_dz geo8]. cells4.
  unfold legs. cbn [g_dr g_dz geo8].
  change (Z.abs (1 - 1) + Z.abs (1 - 0) =? 0) with false. change (Z.abs (1 - 1) + Z.abs (1 - 0) =? 1) with true.
  change (negb (1 =? 1) && (1 =? 0)) with false. change ((1 =? 1) && negb (1 =? 0)) with true. change (1 - 1) with 0. cbv iota zeta. rlts.
  replace (5 / 4 + (7 / 4 - 5 / 4) / (5 / 4 - 3 / 4) * (1 * 1 - 3 / 4))%R with (3 / 2)%R by lra.
  replace (1 * 1)%R with 1%R by lra. reflexivity.
Qed.
Theorem C160_gauss_refuted : velocities_only none /\ closed geo8 /\ sound geo8 (v_w empty9) /\ node geo8 1 1 /\ vacuum geo8 (sz 8 1) (sz 8 0) 1 1 1 /\
  exists u', full1_round tilt (fun _ => 1%R) vb_distribution 1 bms outside none dice geo8 (sz 8 1) (sz 8 0) empty9 u' /\ fair_ways (fun _ => 1%R) geo8 (v_w u') /\
    gauss_error (fun _ => 1%R) geo8 1 (v_w empty9) 1 1 = 0%R /\ gauss_error (fun _ => 1%R) geo8 1 (v_w u') 1 1 <> 0%R.
Proof.
  assert (M := mnzl_small).
  assert (Vo : velocities_only none).
  { intros _ _ d d' ->. induction d as [|s d IH]; constructor; [|exact IH]. split; [reflexivity|]. clear. induction (snd s) as [|q l IH]; constructor; [|exact IH].
    exists (V3 (vel_r (now q)) (vel_phi (now q)) (vel_z (now q))). destruct q as [[? ? ? ? ? ? ? ?] ? ?]. reflexivity. }
  assert (Cl : closed geo8) by (unfold closed, geo8; cbn; repeat split; lia || lra).
  assert (F3 : forall v, fits3 8 8 (sz3 8 v)) by (intros v c; destruct c; apply sz_fits; lia).
  assert (Sd : sound geo8 (v_w empty9)).
  { split; [split; [apply F3|split; apply F3]|]. split; [apply F3|]. cbn. repeat constructor; intros []. }
  assert (Nd : node geo8 1 1) by (unfold node; cbn; lia).
  assert (Va : vacuum geo8 (sz 8 1) (sz 8 0) 1 1 1) by (intros a b Ha Hb Hp; rewrite !lv_sz by lia; auto).
  repeat (split; [assumption|]).
  destruct (yee_step_ok 1 geo8 (sz 8 1) (sz 8 0) (sz3 8 0) quiet ltac:(split; cbn; lia) ltac:(apply sz_fits; lia) ltac:(apply sz_fits; lia) (F3 0%R) ltac:(split; [apply F3|split; apply F3])) as (y' & Ey & (Fe & Fh & Ft)).
  set (a1 := whole geo8).
  assert (Ga1 : good_area a1) by (apply one_good; cbn; lia).
  assert (Ins : inside geo8 (5 / 4) (3 / 4)) by (unfold inside; cbn; repeat split; (lia || lra)).
  destruct (C41_defined geo8 (y_e y') _ _ Fe Ins) as (e & _ & Ee & _). destruct (C41_defined geo8 (y_h y') _ _ Fh Ins) as (_ & b & _ & Eb).
  destruct (C41_defined geo8 (sz3 8 0) _ _ (F3 0%R) Ins) as (e2 & b2 & Ee2 & Eb2).
  set (p0 := inject_beams bms dice a1 1 1 1 0 (fun _ _ _ => 0%nat) (fun _ _ => [(9, [])])).
  set (p1 := upd_dom pt p0 0 0 [(9, [went])]).
  assert (Ad : advance_all tilt bms outside none a1 (fun _ => geo8) (domain_geo a1 1 1) (fun _ => y') p0 p1).
  { split.
    - intros i k Hi Hk. cbn [rd_ zd_ a1 whole] in Hi, Hk. replace i with 0 by lia. replace k with 0 by lia. unfold p1. rewrite upd_dom_eq.
      unfold p0, inject_beams. cbn [map fst snd app]. unfold a1. rewrite one_came. cbn [outside].
      exists [(9, [mkPt (hurled came (V3 (/ 2) 0 (/ 2))) 0 0])], [(9, [mkPt (hurled came (V3 (/ 2) 0 (/ 2))) 0 0])]. split; [|split; [reflexivity|]].
      + constructor; [|constructor]. split; [reflexivity|]. constructor; [|constructor].
        exists (vadd (vec e) (vec e2)), (vadd (vec b) (vec b2)), (V3 (/ 2) 0 (/ 2)). split; [|split; reflexivity].
        exists e, b. cbn [came now pos_r pos_z]. split; [exact Ee|]. split; [exact Eb|]. exists e2, b2. auto.
      + constructor; [|constructor]. split; [reflexivity|]. constructor; [|constructor]. split; [|split; reflexivity].
        cbn [fst bms]. change (9 =? 9) with true. cbv iota. cbn [went now].
        symmetry. apply (beam_flies geo8 (domain_geo (whole geo8) 1 1 0 0) came (V3 (/ 2) 0 (/ 2))); reflexivity.
    - intros i k N. unfold p1. apply upd_dom_ne. intros [= -> ->]. apply N. cbn. lia. }
  assert (Ip : ids_ok a1 [9] p1).
  { split; [repeat constructor; intros []|]. intros i k Hi Hk. cbn [a1 whole rd_ zd_] in Hi, Hk. replace i with 0 by lia. replace k with 0 by lia. reflexivity. }
  destruct (C08_collector_conserves pt pt_eq_dec (pt_cr 1) (pt_cz 1) a1 [9] p1 Ga1 (pt_int geo8) Ip) as (st' & Ec & Is' & P' & _).
  assert (Pq : particles_of a1 9 p1 = [went]) by reflexivity. destruct went_at as (L1 & L2 & L3 & L4).
  assert (Cr1 : cell_number (7 / 4) 1 = 1) by (apply cell_is; lra). assert (Cz1 : cell_number (5 / 4) 1 = 1) by (apply cell_is; lra).
  assert (Cz0 : cell_number (3 / 4) 1 = 0) by (apply cell_is; lra).
  assert (Pc : pt_cr 1 went = 1 /\ pt_cz 1 went = 1).
  { unfold pt_cr, pt_cz, part_cr, part_cz. rewrite L1, L2.
    change (ParticleModel.cell_number (7 / 4) 1) with (cell_number (7 / 4) 1). change (ParticleModel.cell_number (5 / 4) 1) with (cell_number (5 / 4) 1). rewrite Cr1, Cz1. split; reflexivity. }
  destruct Pc as [Pc1 Pc2].
  assert (P9 : Permutation (particles_of a1 9 st') [went]) by (rewrite P', Pq; cbn [filter]; unfold alive; rewrite Pc1, Pc2; reflexivity).
  assert (Only : st' 0 0 = [(9, [went])]).
  { destruct Is' as [_ I]. specialize (I 0 0 ltac:(cbn; lia) ltac:(cbn; lia)). destruct (st' 0 0) as [|[sid d] [|? ?]] eqn:E; try discriminate I. injection I as ->.
    unfold particles_of in P9. change (pairs (rd_ a1) (zd_ a1)) with [(0, 0)] in P9. cbn [flat_map fst snd] in P9. rewrite E in P9. cbn [flat_map fst snd] in P9.
    rewrite Z.eqb_refl, !app_nil_r in P9. apply Permutation_sym, Permutation_length_1_inv in P9. now rewrite P9. }
  assert (LN : Forall (lands geo8) (movers (fun _ => 1%R) 1 1 (st' 0 0))).
  { rewrite Only. cbn [movers flat_map map fst snd app]. constructor; [|constructor]. unfold lands, ThmCurrent.bound.
    cbn [mover_of m_r m_z m_ro m_zo m_cr m_cz g_dr g_dz g_d0 g_d1 g_nr g_nz geo8]. rewrite Pc1, Pc2, L1, L2, Cr1, Cz1. cbn [went old_r old_z]. repeat split; try lra; lia. }
  assert (Sz : sizes geo8) by (unfold sizes; cbn; lra).
  destruct (zero_vb geo8 _ (sz3 8 0) Sz (F3 0%R) LN) as (j' & Ej & _).
  set (u' := mkFull1 (mkWorld1 y' j' st') 1 (next_bunch bms a1 1 1 0 (fun _ _ _ => 0%nat))).
  assert (Rd : full1_round tilt (fun _ => 1%R) vb_distribution 1 bms outside none dice geo8 (sz 8 1) (sz 8 0) empty9 u').
  { split; [exact Ey|]. split; [exists p1; split; [exact Ad|exact Ec]|]. split; [exact Ej|]. split; reflexivity. }
  assert (Fw : fair_ways (fun _ => 1%R) geo8 (v_w u')).
  { intros t q Ht Hq. cbn [u' v_w o_p] in Ht. rewrite Only in Ht. destruct Ht as [<-|[]]. destruct Hq as [<-|[]]. cbn [fst g_dr g_dz geo8]. rewrite L1, L2, Cr1, Cz1.
    split; [|cbn [went old_r]; repeat split; try lra; lia]. left. unfold way. cbn [fst g_dr g_dz geo8]. rewrite L1, L2, Cr1, Cz1. cbn [went old_r old_z].
    assert (Cr0 : cell_number (5 / 4) 1 = 1) by exact Cz1.
    split. { unfold step_at_most_one, ThmCurrent.old_r, ThmCurrent.old_z. cbn [m_ro m_zo m_cr m_cz g_dr g_dz geo8]. rewrite Cr0, Cz0. lia. }
    split; [unfold oblique; cbn [m_r m_ro m_z m_zo]; split; eapply Rle_trans; try exact M; absolve|].
    unfold ThmCurrent.old_r, ThmCurrent.old_z. cbn [m_ro m_zo m_cr m_cz g_dr g_dz geo8]. rewrite Cr0. split; [lia|]. split; [lia|].
    rewrite went_legs. repeat apply Forall_cons; try apply Forall_nil; cbn [leg_long]; right; split; eapply Rle_trans; try exact M; absolve. }
  exists u'. split; [exact Rd|]. split; [exact Fw|].
  assert (G0 : gauss_error (fun _ => 1%R) geo8 1 (v_w empty9) 1 1 = 0%R).
  { unfold gauss_error, held, flux. cbn [empty9 v_w o_f o_j o_p quiet y_e sum_over snd]. change (c_r (sz3 8 0)) with (sz 8 0). change (c_z (sz3 8 0)) with (sz 8 0). change (1 =? 0) with false. cbv iota. rewrite !lv_sz by lia. ring. }
  split; [exact G0|].
  destruct (C160_balance_partial tilt (fun _ => 1%R) 1 bms outside none dice Vo geo8 ltac:(cbn; lia) ltac:(cbn; lia) eq_refl Cl ltac:(cbn; lra) (sz 8 1) (sz 8 0)
    ltac:(apply sz_fits; lia) ltac:(apply sz_fits; lia) ltac:(intros i k Hi Hk; cbn [g_nr g_nz geo8] in Hi, Hk; rewrite !lv_sz by lia; lra) empty9 u' Rd Sd Fw) as (_ & _ & new & gone & En & Ex & Bal).
  rewrite (Bal 1%R 1 1 Nd ltac:(congruence) Va), G0. cbn [empty9 v_w o_p map fst] in *. clear Bal.
  specialize (En 9 (or_introl eq_refl)). destruct (Ex 9 (or_introl eq_refl)) as (stay & l & Pm & Fr & Pl & Gn). clear Ex.
  unfold entered in En. change (bms 9) with (Some (bm, 1%R)) in En. cbv iota beta in En. destruct En as [Len _].
  cbn [g_dr g_dt geo8 v_t v_c empty9] in Len. rewrite bm_once in Len.
  unfold of_species in Pm, Pl. cbn [v_w o_p u'] in Pm, Pl. rewrite Only in Pl. cbn [flat_map fst snd app] in Pm, Pl. change (9 =? 9) with true in Pl. cbv iota in Pl. rewrite app_nil_r in Pl.
  apply Permutation_length_1_inv in Pl. subst l. inversion Fr as [|x q1 s' l' Hx Fr' E1 E2]; subst. inversion Fr'; subst. clear Fr Fr'.
  cbn [app] in Pm. change (if 9 =? 9 then [] else []) with (@nil pt) in Pm. cbn [app] in Pm. assert (Gz : gone 9 = []).
  { apply Permutation_length in Pm. rewrite Len in Pm. cbn [length] in Pm. destruct (gone 9); [reflexivity|discriminate]. }
  rewrite Gz in Pm. apply Permutation_sym, Permutation_length_1_inv in Pm. unfold owned. cbn [sum_over]. rewrite Pm, Gz. cbn [sum_over].
  destruct Hx as (H1 & H2 & H3). rewrite L4 in H1. cbn [went old_r old_z] in H2, H3. rewrite <- H1, <- H2, <- H3.
  rewrite (share_r_in geo8 ltac:(cbn; lra) 1 1 (5/4)) by (cbn; lra). rewrite (share_z_in geo8 ltac:(cbn; lra) 0 1 (3/4)) by (cbn; lra).
  bools. cbn [geo8 g_dr g_dz]. assert (W := w0_pos). nra.
Qed.

(** ** the same particle in an area of four domains, and one that leaves, for C159 *)
Definition area22 : area := {| nr := 2 * 4; nz := 2 * 4; rd_ := 2; zd_ := 2 |}.
Definition goer : pt := mkPt {| pos_r := 5 / 4; pos_phi := 0; pos_z := 15 / 2; vel_r := 0; vel_phi := 0; vel_z := / 2; p_sin := 0; weight := 3 |} 0 0.
Definition left22 : pt := mkPt (beam_flight geo8 (hurled goer (V3 (/ 2) 0 (/ 2)))) (5 / 4) (15 / 2).
Definition empty22 : full := mkFull (mkWorld (w_f start) (w_j start) (fun i k => [(9, if (i =? 0) && (k =? 1) then [goer] else [])])) 0 (fun _ _ _ => 0%nat).
Lemma bm22 i k : 0 <= i < 2 -> 0 <= k < 2 -> newcomers bms dice area22 1 1 1 0 (fun _ _ _ => 0%nat) i k 9 = if (i =? 0) && (k =? 0) then [came] else [].
Proof.
  intros Hi Hk. unfold newcomers, bms. change (9 =? 9) with true. cbv iota. destruct (k =? 0) eqn:K.
  - assert (k = 0) by lia. subst k. destruct (i =? 0) eqn:I.
    + assert (i = 0) by lia. subst i. cbn [andb].
      assert (Dr : domain_radius bm (beam_dom area22 1 0 0) = 2%R).
      { change (beam_dom area22 1 0 0) with {| d_bot := 0; d_left := 0; d_top := 4; d_size := 8 * 1 / 2; d_dr := 1 |}%R. unfold domain_radius. cbn [d_left d_top d_bot d_dr d_size b_radius bm].
        change (0 <? 0) with false. cbv iota. unfold Rltb. destruct (Rlt_dec (4 * 1) 2); [lra|]. destruct (Rlt_dec (0 * 1) 2); lra. }
      assert (Same : forall dt t c, manage_beam bm (beam_dom area22 1 0 0) dt t c = manage_beam bm (beam_dom (whole geo8) 1 0 0) dt t c).
      { intros. unfold manage_beam, inject, macro_per_step, bunch_macro_amount. rewrite Dr, bm_radius. reflexivity. }
      rewrite Same, bm_once. cbn [seq map]. f_equal. unfold new_particle, dice. cbn [fst snd]. unfold injected_particle. rewrite Dr.
      change (d_dr (beam_dom area22 1 0 0)) with 1%R. change (d_bot (beam_dom area22 1 0 0)) with 0. cbn [b_velocity bm].
      replace (2 * (3 / 8) + 1 / 2 + 0 * 1)%R with (5 / 4)%R by field. replace (/ 2 * 1 * / 2 + 1 / 2)%R with (3 / 4)%R by field. reflexivity.
    + assert (i = 1) by lia. subst i. cbn [andb].
      change (beam_dom area22 1 1 0) with {| d_bot := 4; d_left := 0; d_top := 8; d_size := 8 * 1 / 2; d_dr := 1 |}%R.
      unfold manage_beam, inject. cbn [d_left d_bot d_dr b_radius bm]. change (0 =? 0) with true. cbv iota. destruct (_ <? _)%nat; [|reflexivity].
      replace (Rltb (4 * 1) 2) with false by (unfold Rltb; destruct (Rlt_dec _ _); lra || reflexivity). reflexivity.
  - assert (k = 1) by lia. subst k. rewrite Bool.andb_false_r. unfold manage_beam. replace (d_left (beam_dom area22 1 i 1) =? 0) with false by reflexivity. reflexivity.
Qed.
Lemma none_only : velocities_only none.
Proof.
  intros _ _ d d' ->. induction d as [|s d IH]; constructor; [|exact IH]. split; [reflexivity|]. clear. induction (snd s) as [|q l IH]; constructor; [|exact IH].
  exists (V3 (vel_r (now q)) (vel_phi (now q)) (vel_z (now q))). destruct q as [[? ? ? ? ? ? ? ?] ? ?]. reflexivity.
Qed.
Lemma left22_at : pos_r (now left22) = (7 / 4)%R /\ pos_z (now left22) = 8%R.
Proof.
  unfold left22, beam_flight, hurled, goer. cbn [now pos_r pos_phi pos_z vel_r vel_phi vel_z p_sin weight vx vy vz g_dt g_dr geo8].
  rewrite runner_radius. destruct (Rlt_dec (7 / 4) (1 / 2)); [lra|]. split; lra.
Qed.
Lemma kick_fly h G y q : YeeModel.g_dt h = 1%R -> g_bot G = 0 -> w_r0 G = true -> ParticleModel.g_dr G = 1%R -> pos_phi (now q) = 0%R ->
  fits3 (g_nr h) (g_nz h) (y_e y) -> fits3 (g_nr h) (g_nz h) (y_h y) -> inside h (pos_r (now q)) (pos_z (now q)) ->
  exists q1, kicked tilt h y None 9 q q1 /\ flown bms h G 9 q1 (mkPt (beam_flight geo8 (hurled q (V3 (/ 2) 0 (/ 2)))) (pos_r (now q)) (pos_z (now q))).
Proof.
  intros Dt Gb Gw Gd Ph Fe Fh Ins. destruct (C41_defined h (y_e y) _ _ Fe Ins) as (e & _ & Ee & _). destruct (C41_defined h (y_h y) _ _ Fh Ins) as (_ & b & _ & Eb).
  exists (mkPt (hurled q (V3 (/ 2) 0 (/ 2))) (old_r q) (old_z q)). split.
  - exists (vec e), (vec b), (V3 (/ 2) 0 (/ 2)). split; [exists e, b; auto|]. split; reflexivity.
  - split; [|split; reflexivity]. change (bms 9) with (Some (bm, 1%R)). cbv iota. cbn [now]. rewrite Dt. symmetry. apply (beam_flies geo8 G q (V3 (/ 2) 0 (/ 2))); auto.
Qed.
Example C159_ex : velocities_only none /\ good_area area22 /\ ids_ok area22 [9] (w_p (u_w empty22)) /\ on_schedule bms area22 1 1 empty22 /\ brought bms area22 1 1 9 0 1 = 1%nat /\
  particles_of area22 9 (w_p (u_w empty22)) = [goer] /\
  exists u', rounds (full_round tilt (fun _ => 1%R) vb_distribution 1 bms None none dice geo8 2 2 4 (fun _ => sz 4 1) (fun _ => sz 4 0)) 1 empty22 u' /\
    Permutation (particles_of area22 9 (w_p (u_w u'))) [went].
Proof.
  split; [exact none_only|].
  assert (Ga : good_area area22) by (unfold good_area, sane, area22; cbn; repeat split; try lia; exists 4; reflexivity).
  split; [exact Ga|]. split; [split; [repeat constructor; intros []|]; intros; reflexivity|].
  split; [intros i k sid b n _; reflexivity|]. split.
  { unfold brought. change (bms 9) with (Some (bm, 1%R)). cbv iota. cbn [seq map].
    assert (L : forall i k, 0 <= i < 2 -> 0 <= k < 2 -> injected bm (beam_dom area22 1 i k) 1 0 = if (i =? 0) && (k =? 0) then 1%nat else 0%nat).
    { intros i k Hi Hk. assert (X := f_equal (@length pt) (bm22 i k Hi Hk)). unfold newcomers in X. change (bms 9) with (Some (bm, 1%R)) in X. cbv iota in X.
      rewrite map_length, seq_length in X. unfold injected. cbn [bunch_no]. rewrite X. destruct ((i =? 0) && (k =? 0)); reflexivity. }
    change (pairs (rd_ area22) (zd_ area22)) with [(0, 0); (0, 1); (1, 0); (1, 1)]. cbn [map fst snd]. rewrite !L by lia. reflexivity. }
  split; [reflexivity|].
  assert (Ie : inner2 2 2 4 (fun _ => sz 4 1) (sz 8 1)) by apply C65_example. assert (Is : inner2 2 2 4 (fun _ => sz 4 0) (sz 8 0)) by apply C65_example.
  assert (SF : same_fields geo8 2 2 4 (w_f start) (o_f start1)) by apply C65_example. assert (SJ : same_current 2 2 4 (w_j start) (o_j start1)) by apply C65_example.
  destruct (C65_step 1 geo8 2 2 4 ltac:(lia) ltac:(lia) ltac:(lia) ltac:(lia) eq_refl eq_refl ltac:(cbn; lia) ltac:(cbn; lia) _ _ _ _ Ie Is _ _ _ _ SF SJ) as (m' & y' & E1 & _ & (_ & Fe & Fh & _)).
  set (p0 := inject_beams bms dice area22 1 1 1 0 (fun _ _ _ => 0%nat) (w_p (u_w empty22))).
  set (p1 := fun i k => if (0 <=? i) && (i <? 2) && (0 <=? k) && (k <? 2) then [(9, if (i =? 0) && (k =? 0) then [went] else if (i =? 0) && (k =? 1) then [left22] else [])] else p0 i k).
  assert (P0 : forall i k, 0 <= i < 2 -> 0 <= k < 2 -> p0 i k = [(9, if (i =? 0) && (k =? 0) then [came] else if (i =? 0) && (k =? 1) then [goer] else [])]).
  { intros i k Hi Hk. unfold p0, inject_beams. cbn [empty22 u_w w_p map fst snd]. rewrite (bm22 i k Hi Hk). do 2 f_equal.
    destruct (i =? 0), (k =? 0) eqn:K, (k =? 1) eqn:K1; cbn [andb app]; try reflexivity. lia. }
  assert (Ad : advance_all tilt bms None none area22 (dom_geo geo8 2 2 4) (domain_geo area22 1 1) m' p0 p1).
  { split.
    - intros i k Hi Hk. cbn [rd_ zd_ area22] in Hi, Hk. rewrite (P0 i k Hi Hk). unfold p1. replace ((0 <=? i) && (i <? 2) && (0 <=? k) && (k <? 2)) with true by lia.
      destruct ((i =? 0) && (k =? 0)) eqn:A; [|destruct ((i =? 0) && (k =? 1)) eqn:B].
      + assert (i = 0 /\ k = 0) as [-> ->] by lia.
        destruct (kick_fly (dom_geo geo8 2 2 4 (0, 0)) (domain_geo area22 1 1 0 0) (m' (0, 0)) came) as (q1 & K & F); try reflexivity; [exact (Fe 0 0 ltac:(lia) ltac:(lia))|exact (Fh 0 0 ltac:(lia) ltac:(lia))|unfold inside; cbn; repeat split; (lia || lra)|].
        exists [(9, [q1])], [(9, [q1])]. split; [|split; [reflexivity|]]; (constructor; [|constructor]; split; [reflexivity|]; constructor; [|constructor]); [exact K|exact F].
      + assert (i = 0 /\ k = 1) as [-> ->] by lia.
        destruct (kick_fly (dom_geo geo8 2 2 4 (0, 1)) (domain_geo area22 1 1 0 1) (m' (0, 1)) goer) as (q1 & K & F); try reflexivity; [exact (Fe 0 1 ltac:(lia) ltac:(lia))|exact (Fh 0 1 ltac:(lia) ltac:(lia))|unfold inside; cbn; repeat split; (lia || lra)|].
        exists [(9, [q1])], [(9, [q1])]. split; [|split; [reflexivity|]]; (constructor; [|constructor]; split; [reflexivity|]; constructor; [|constructor]); [exact K|exact F].
      + exists [(9, [])], [(9, [])]. split; [|split; [reflexivity|]]; (constructor; [|constructor]; split; [reflexivity|]; constructor).
    - intros i k N. cbn [rd_ zd_ area22] in N. unfold p1. replace ((0 <=? i) && (i <? 2) && (0 <=? k) && (k <? 2)) with false by lia. reflexivity. }
  assert (Ip : ids_ok area22 [9] p1).
  { split; [repeat constructor; intros []|]. intros i k Hi Hk. cbn [area22 rd_ zd_] in Hi, Hk. unfold p1. replace ((0 <=? i) && (i <? 2) && (0 <=? k) && (k <? 2)) with true by lia. reflexivity. }
  destruct (C08_collector_conserves pt pt_eq_dec (pt_cr 1) (pt_cz 1) area22 [9] p1 Ga (pt_int geo8) Ip) as (st' & Ec & Is' & P' & Hm).
  destruct went_at as (L1 & L2 & L3 & L4). destruct left22_at as (K1 & K2).
  assert (Cr1 : cell_number (7 / 4) 1 = 1) by (apply cell_is; lra). assert (Cz1 : cell_number (5 / 4) 1 = 1) by (apply cell_is; lra). assert (Cz8 : cell_number 8 1 = 8) by (apply cell_is; lra).
  assert (Pc : pt_cr 1 went = 1 /\ pt_cz 1 went = 1 /\ pt_cz 1 left22 = 8).
  { unfold pt_cr, pt_cz, part_cr, part_cz. rewrite L1, L2, K2. change (ParticleModel.cell_number (7 / 4) 1) with (cell_number (7 / 4) 1).
    change (ParticleModel.cell_number (5 / 4) 1) with (cell_number (5 / 4) 1). change (ParticleModel.cell_number 8 1) with (cell_number 8 1). rewrite Cr1, Cz1, Cz8. repeat split; reflexivity. }
  destruct Pc as (Pc1 & Pc2 & Pc3).
  assert (P9 : Permutation (particles_of area22 9 st') [went]).
  { rewrite P'. change (particles_of area22 9 p1) with [went; left22]. cbn [filter]. unfold alive. rewrite Pc1, Pc2, Pc3. cbn [nr nz area22].
    change ((0 <=? 1) && (1 <? 2 * 4) && (0 <=? 1) && (1 <? 2 * 4)) with true. cbv iota. change (8 <? 2 * 4) with false. rewrite !Bool.andb_false_r. reflexivity. }
  assert (Only : forall i k t q, 0 <= i < 2 -> 0 <= k < 2 -> In t (st' i k) -> In q (snd t) -> q = went /\ i = 0 /\ k = 0).
  { intros i k t q Hi Hk Ht Hq. assert (Et : fst t = 9).
    { destruct Is' as [_ I]. specialize (I i k ltac:(cbn; lia) ltac:(cbn; lia)). apply (in_map fst) in Ht. rewrite I in Ht. destruct Ht as [<-|[]]. reflexivity. }
    assert (X : In q (particles_of area22 9 st')) by (apply In_particles; exists i, k, t; cbn [rd_ zd_ area22]; repeat split; auto; lia).
    apply (Permutation_in _ P9) in X. destruct X as [<-|[]]. split; [reflexivity|]. destruct t as [sid l]. assert (Hh := Hm i k sid l went Hi Hk Ht Hq). unfold home in Hh. rewrite Pc1, Pc2 in Hh.
    cbn [nr nz rd_ zd_ area22] in Hh.
    assert (Bd : forall x, 0 <= x < 2 -> DecompModel.bound (2 * 4) 2 0 x = 4 * x) by (intros x Hx; assert (x = 0 \/ x = 1) as [-> | ->] by lia; reflexivity).
    rewrite !(Bd i), !(Bd k) in Hh by lia. lia. }
  assert (M := mnzl_small).
  destruct (C121_vb_exact geo8 2 2 4 ltac:(lia) ltac:(lia) ltac:(lia) ltac:(lia) eq_refl eq_refl ltac:(unfold sizes; cbn; lra)
     (fun ik => movers (fun _ => 1%R) 1 1 (st' (fst ik) (snd ik))) (w_j start) (proj1 (proj2 SJ))) as (j' & Ej & _).
  { intros i k Hi Hk. cbn [fst snd]. split; apply Forall_forall; intros p Hp; unfold movers in Hp; apply in_flat_map in Hp as (t & Ht & Hp); apply in_map_iff in Hp as (q & <- & Hq);
      destruct (Only i k t q Hi Hk Ht Hq) as (-> & -> & ->).
    - unfold lands, ThmCurrent.bound, dom_geo. cbn [mover_of m_r m_z m_ro m_zo m_cr m_cz g_dr g_dz g_d0 g_d1 g_nr g_nz geo8 fst snd]. rewrite Pc1, Pc2, L1, L2, Cr1, Cz1. cbn [went old_r old_z]. repeat split; try lra; lia.
    - unfold long_r. cbn [mover_of m_r m_ro went old_r]. change (now (mkPt (beam_flight geo8 (hurled came (V3 (/ 2) 0 (/ 2)))) (5 / 4) (3 / 4))) with (now went).
      rewrite L1. eapply Rle_trans; [exact M|]. absolve. }
  exists (mkFull (mkWorld m' j' st') 1 (next_bunch bms area22 1 1 0 (fun _ _ _ => 0%nat))). split; [|exact P9].
  cbn [rounds]. eexists. split; [|reflexivity].
  split; [exact E1|]. split; [exists p1; split; [exact Ad|exact Ec]|]. split; [exact Ej|]. split; reflexivity.
Qed.

Print Assumptions C160_balance_partial.
Print Assumptions C160_run_partial.
Print Assumptions C160_gauss_refuted.
