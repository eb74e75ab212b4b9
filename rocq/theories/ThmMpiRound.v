(** C150: a run of particles and fields on several MPI processes does what the undivided area does. *)
From Coq Require Import ZifyBool Reals Lra Psatz Permutation.
From Verif Require Import Base RndUtil DecompModel DecompProofs CollectorModel CollectorProofs ListUtil PushModel ParticleModel ParticleProofs StepModel
  ThmParticle ThmInit ThmDecomp ThmStep ThmFlight GridModel GridProofs OverlayModel YeeModel YeeProofs ThmYee ExtModel ThmExt CurrentModel CurrentProofs ThmCurrent ThmCurrent2
  YeeSmb ThmYeeSmb SmbCorner SmbCurrent ThmDivide RoundModel RoundProofs ThmRound DensModel MpiModel MigrModel MigrProofs ThmMigr FieldMpiModel FieldMpi MpiExchange MpiCurrent
  MpiRoundModel MpiRoundProofs.
Open Scope Z_scope.

(** ** specification *)
(** the ranks hold what the undivided area holds: fields and currents cell by cell, the particles of each species in any order, each
    of them with its tag and on the rank and in the domain that its cell belongs to *)
Definition same_ranks (g : YeeModel.geo) (W R C s : Z) (w1 : world1) (w : mworld) : Prop :=
  let whole := {| nr := R * s; nz := W * C * s; rd_ := R; zd_ := W * C |} in let slab := {| nr := R * s; nz := C * s; rd_ := R; zd_ := C |} in
  let one := {| nr := g_nr g; nz := g_nz g; rd_ := 1; zd_ := 1 |} in
  rank_fields g W R C s (r_f w) (o_f w1) /\ rank_current W R C s (r_j w) (o_j w1) /\
  (exists ids, (forall p, 0 <= p < W -> ids_ok slab ids (r_p w p)) /\ ids_ok one ids (o_p w1)) /\
  (forall sid, Permutation (map snd (everybody W slab sid (r_p w))) (particles_of one sid (o_p w1))) /\
  (forall p i k t q, 0 <= p < W -> 0 <= i < R -> 0 <= k < C -> In t (r_p w p i k) -> In q (snd t) ->
     fst q = fst t /\ home (pt_cr (g_dr g)) (pt_cz (g_dz g)) whole i (p * C + k) (snd q)).
(** a round of the undivided area in which all particles move calmly, and
    - with several rows and, on a rank, several columns of domains, no particle starts near the lower right or the upper left corner of a domain,
    - with several ranks no particle starts where its magnetic field is read from two ranks,
    - with several rows of domains no particle moves across a corner of a domain as described by [off_corners] *)
Definition calm_ranks pusher charge (g : YeeModel.geo) (W R C s : Z) (w w' : world1) : Prop :=
  (forall t q v, In t (o_p w 0 0) -> In q (snd t) -> new_velocity pusher g (o_f w') (fst t) q v -> calm g s (set_vel (now q) v)) /\
  (R = 1 \/ C = 1 \/ forall t q, In t (o_p w 0 0) -> In q (snd t) -> ~ crossing g s (pos_r (now q)) (pos_z (now q))) /\
  (W = 1 \/ forall t q, In t (o_p w 0 0) -> In q (snd t) -> ~ near_rank_border g W (C * s) (pos_z (now q))) /\
  (R = 1 \/ W * C = 1 \/ forall t q, In t (o_p w' 0 0) -> In q (snd t) ->
     off_corners W C (snd (domain_of g s q)) (dom_geo g R (W * C) s (domain_of g s q)) (mover_of charge (g_dr g) (g_dz g) (fst t) q)) /\
  headcount (o_p w 0 0) < 2 ^ 32.

Section Round.
Variable pusher : Z -> v3 -> v3 -> v3 -> outcome v3.
Variable charge : Z -> R.
Variable mu : R.
Variable g : YeeModel.geo.
Variables W R C s : Z.
Hypothesis HW : 1 <= W.
Hypothesis HR : 1 <= R.
Hypothesis HC : 1 <= C.
Hypothesis Hs : 4 <= s.
Hypothesis Gr : g_nr g = R * s.
Hypothesis Gz : g_nz g = W * C * s.
Hypothesis GrL : g_nr g < 2 ^ 31.
Hypothesis GzL : g_nz g < 2 ^ 31.
Hypothesis D0 : g_d0 g = 0.
Hypothesis D1 : g_d1 g = 0.
Hypothesis Hdr : (0 < g_dr g)%R.
Hypothesis Hdz : (0 < g_dz g)%R.
Variables eps sg : Z -> doms (grid Rdefinitions.R).
Variables Eps Sg : grid Rdefinitions.R.
Hypothesis Heps : rank_inner2 W R C s eps Eps.
Hypothesis Hsg : rank_inner2 W R C s sg Sg.
Let a := {| nr := R * s; nz := C * s; rd_ := R; zd_ := C |}.
Let whole := {| nr := R * s; nz := W * C * s; rd_ := R; zd_ := W * C |}.
Let a1 := {| nr := g_nr g; nz := g_nz g; rd_ := 1; zd_ := 1 |}.
Let dr := g_dr g.
Let dz := g_dz g.
Let one_step (y : yee) (sid : Z) (q q' : pt) : Prop := step_particle pusher g (domain_geo a1 dr dz 0 0) y sid q q'.
Let rank_step (f : Z -> doms yee) (p i k sid : Z) (q q' : tpt) : Prop :=
  fst q' = fst q /\ step_particle pusher (dom_geo g R (W * C) s (i, p * C + k)) (domain_geo whole dr dz i (p * C + k)) (f p (i, k)) sid (snd q) (snd q').
(** where a particle is after its step *)
Let moved (q' : pt) : Prop :=
  (cell_number (pos_r (now q')) dr - 1 <= cell_number (old_r q') dr <= cell_number (pos_r (now q')) dr + 1 /\
   cell_number (pos_z (now q')) dz - 1 <= cell_number (old_z q') dz <= cell_number (pos_z (now q')) dz + 1) /\
  0 <= cell_number (pos_r (now q')) dr < g_nr g /\ 0 <= cell_number (pos_z (now q')) dz < g_nz g.
Let stepped (f : Z -> doms yee) (y : yee) (p i k sid : Z) (q q' : tpt) : Prop :=
  rank_step f p i k sid q q' /\ one_step y sid (snd q) (snd q') /\ moved (snd q') /\ (p * C + k) * s <= cell_number (old_z (snd q')) dz < (p * C + k) * s + s.

Let GZ : g_nz g = (W * C) * s.
Proof using Gz. exact Gz. Qed.
Let HWC : 1 <= W * C.
Proof using HW HC. clear - HW HC. nia. Qed.

(** one particle: what the undivided area does with it, its domain does *)
Lemma rank_step_same f y p i k sid q q' : 0 <= p < W -> 0 <= i < R -> 0 <= k < C -> rank_fields g W R C s f y ->
  rank_all W R C s (fun p q => y_e (f p q)) (y_e y) -> rank_all_inside W R C s (fun p q => y_h (f p q)) (y_h y) ->
  home (pt_cr dr) (pt_cz dz) whole i (p * C + k) (snd q) -> R = 1 \/ C = 1 \/ ~ crossing g s (pos_r (now (snd q))) (pos_z (now (snd q))) ->
  W = 1 \/ ~ near_rank_border g W (C * s) (pos_z (now (snd q))) -> (forall v, new_velocity pusher g y sid (snd q) v -> calm g s (set_vel (now (snd q)) v)) ->
  one_step y sid (snd q) q' -> stepped f y p i k sid q (fst q, q').
Proof using HW HR HC Hs Gr Gz GrL GzL D0 D1 Hdr Hdz HWC.
  intros Hp Hi Hk ((Fe & Fh & _) & Le & Lh & _) Ae Ah Hh Nb Nr Cm St. assert (Hn : 0 <= p * C + k < W * C) by nia.
  assert (St0 := St). destruct St as (e & b & v & Ee & Eb & Ev & Adv & O1 & O2).
  assert (Cv : calm g s (set_vel (now (snd q)) v)) by (apply Cm; exists e, b; auto).
  destruct (calm_cells g s Hdr Hdz _ Cv) as [CR CZ]. cbn [set_vel pos_r pos_z] in CR, CZ.
  fold dr in CR. fold dz in CZ.
  destruct (home_cells g R (W * C) s HR HWC Hs Gr GZ GrL GzL i (p * C + k) (snd q) Hi Hn ltac:(fold dr; lia) ltac:(fold dz; lia) Hh) as [Hr Hz]. rewrite Gr, Gz in Fe, Fh.
  assert (I1 := rank_field_e g W R C s HW HR HC Hs Gr D0 D1 Hdr Hdz p i k _ _ Hp Hi Hk Hr Hz Nb (fun p q => y_e (f p q)) _ (Le p Hp) Fe Ae).
  assert (I2 := rank_field_h g W R C s HW HR HC Hs Gr D0 D1 Hdr Hdz p i k _ _ Hp Hi Hk Hr Hz Nb (fun p q => y_h (f p q)) _ (Lh p Hp) Fh Ah Nr).
  assert (E' : now q' = flight (g_nr g) (g_nz g) dr dz (g_dt g) (set_vel (now (snd q)) v)).
  { apply (advanced_unique (domain_geo a1 dr dz 0 0) (g_dt g) (set_vel (now (snd q)) v)); [exact Adv|].
    now apply (flies_one g R (W * C) s HR HWC Hs Gr GZ GrL GzL Hdr Hdz). }
  split; [|split; [exact St0|split]].
  - split; [reflexivity|]. cbn [snd]. exists e, b, v. rewrite I1, I2. split; [exact Ee|]. split; [exact Eb|]. split; [exact Ev|]. split; [|auto].
    rewrite E'. apply (flies_dom g R (W * C) s HR HWC Hs Gr GZ GrL GzL Hdr Hdz i (p * C + k) (snd q) v Hi Hn Hh Cv).
  - unfold moved. cbn [snd]. rewrite O1, O2, E'. destruct (calm_near g s Hdr Hdz _ Cv) as [N1 N2]. cbn [set_vel pos_r pos_z] in N1, N2.
    destruct (calm_stays g W R C s HW HR HC Hs Gr Gz Hdr Hdz _ Cv) as [K1 K2]. split; [split; [exact N1|exact N2]|]. split; [exact K1|exact K2].
  - cbn [snd]. rewrite O2. exact Hz.
Qed.
Lemma Forall2_length {A B} (Q : A -> B -> Prop) l l' : Forall2 Q l l' -> length l = length l'.
Proof using. induction 1; [reflexivity|]. cbn [length]. congruence. Qed.
Lemma tpt_eq_dec (x y : tpt) : {x = y} + {x <> y}.
Proof using. decide equality; [apply pt_eq_dec|apply Z.eq_dec]. Qed.
Lemma everybody_related (Q : Z -> tpt -> tpt -> Prop) (st st1 : Z -> smb tpt) sid :
  (forall p i k, 0 <= p < W -> 0 <= i < R -> 0 <= k < C -> Forall2 (fun t t' => fst t = fst t' /\ Forall2 (Q (fst t)) (snd t) (snd t')) (st p i k) (st1 p i k)) ->
  Forall2 (Q sid) (everybody W a sid st) (everybody W a sid st1).
Proof using.
  intros H. unfold everybody. rewrite ranks_zrange.
  assert (A : forall p, In p (zrange 0 W) -> 0 <= p < W) by (intros p Hp; now apply In_zrange' in Hp).
  induction (zrange 0 W) as [|p l IH]; [constructor|]. cbn [flat_map]. apply Forall2_app; [|apply IH; intros; apply A; now right].
  apply (stepped_species a (fun _ _ => Q) Q); [auto|]. intros i k Hi Hk. apply H; auto. apply A. now left.
Qed.
Lemma map_snd_related (Q : pt -> pt -> Prop) l l' : Forall2 (fun q q' : tpt => Q (snd q) (snd q')) l l' -> Forall2 Q (map snd l) (map snd l').
Proof using. induction 1; constructor; auto. Qed.
Lemma related_weaken {P} (Q Q' : Z -> P -> P -> Prop) (d d' : domain P) : (forall sid q q', Q sid q q' -> Q' sid q q') ->
  Forall2 (fun t t' => fst t = fst t' /\ Forall2 (Q (fst t)) (snd t) (snd t')) d d' -> Forall2 (fun t t' => fst t = fst t' /\ Forall2 (Q' (fst t)) (snd t) (snd t')) d d'.
Proof using.
  intros H. induction 1 as [|t t' d d' [E F] _ IH]; constructor; auto. split; [exact E|]. clear - F H. induction F; constructor; auto.
Qed.
Lemma related_ids {P} (Q : Z -> P -> P -> Prop) (d d' : domain P) : Forall2 (fun t t' => fst t = fst t' /\ Forall2 (Q (fst t)) (snd t) (snd t')) d d' -> map fst d' = map fst d.
Proof using. induction 1 as [|t t' d d' [E _] _ IH]; [reflexivity|]. cbn [map]. now rewrite IH, E. Qed.
(** a round of the undivided area that starts as the ranks do *)
Section Given.
Variables w1 w1' : world1.
Variable w : mworld.
Hypothesis O : one_round pusher charge zigzag_distribution mu g Eps Sg w1 w1'.
Hypothesis Ca : calm_ranks pusher charge g W R C s w1 w1'.
Hypothesis Sm : same_ranks g W R C s w1 w.
Section Fields.
Variable f : Z -> doms yee.
Hypothesis SF : rank_fields g W R C s f (o_f w1').
Hypothesis Me : rank_all W R C s (fun p q => y_e (f p q)) (y_e (o_f w1')).
Hypothesis Mh : rank_all_inside W R C s (fun p q => y_h (f p q)) (y_h (o_f w1')).
Lemma has_step p i k t q : 0 <= p < W -> 0 <= i < R -> 0 <= k < C -> In t (r_p w p i k) -> In q (snd t) -> exists q', stepped f (o_f w1') p i k (fst t) q (fst q, q').
Proof using O Ca Sm SF Me Mh HW HR HC Hs Gr Gz GrL GzL D0 D1 Hdr Hdz HWC.
  intros Hp Hi Hk Ht Hq. destruct O as (p1 & Ey & [St _] & Ec & Ej). destruct Ca as (Cm & Cx & Cb & _). destruct Sm as (_ & _ & _ & Pm & Hm).
  fold a whole a1 in Pm, Hm. fold a1 in St. fold dr dz in St, Hm.
  assert (St0 := St 0 0 ltac:(cbn; lia) ltac:(cbn; lia)). cbv beta in St0. unfold step_domain in St0.
  assert (Q : In (snd q) (map snd (everybody W a (fst t) (r_p w)))).
  { apply in_map. unfold everybody. apply in_flat_map. exists p. split; [rewrite ranks_zrange; apply In_zrange'; lia|]. apply In_particles. exists i, k, t. cbn [rd_ zd_ a]. auto. }
  apply (Permutation_in _ (Pm (fst t))), In_particles in Q as (i0 & k0 & t0 & Hi0 & Hk0 & Ht0 & Et & Hq0). cbn [rd_ zd_ a1] in Hi0, Hk0.
  replace i0 with 0 in Ht0 by lia. replace k0 with 0 in Ht0 by lia.
  assert (X : exists q', one_step (o_f w1') (fst t) (snd q) q').
  { clear - St0 Ht0 Et Hq0. induction St0 as [|u u' l l' [Eu Fu] _ IH]; [destruct Ht0|]. destruct Ht0 as [->|Ht0]; [|now apply IH].
    rewrite Et in Fu. clear - Fu Hq0. induction Fu as [|x x' l l' Hx _ IH]; [destruct Hq0|]. destruct Hq0 as [->|Hq0]; [now exists x'|now apply IH]. }
  destruct X as [q' Sq]. exists q'. destruct (Hm p i k t q Hp Hi Hk Ht Hq) as [_ Hh].
  apply rank_step_same; auto.
  - destruct Cx as [Cx|[Cx|Cx]]; auto. right. right. now apply (Cx t0).
  - destruct Cb as [Cb|Cb]; auto. right. now apply (Cb t0).
  - intros v Nv. apply (Cm t0 (snd q) v Ht0 Hq0). now rewrite Et.
Qed.
(** the state of the ranks after the steps of their particles *)
Section Moved.
Variable st1 : Z -> smb tpt.
Hypothesis Sd : forall p i k, 0 <= p < W -> 0 <= i < R -> 0 <= k < C ->
  Forall2 (fun t t' => fst t = fst t' /\ Forall2 (stepped f (o_f w1') p i k (fst t)) (snd t) (snd t')) (r_p w p i k) (st1 p i k).
Lemma moved_counts ids : (forall p, 0 <= p < W -> ids_ok a ids (r_p w p)) -> ids_ok a1 ids (o_p w1) -> forall p, 0 <= p < W -> population a ids (st1 p) <= headcount (o_p w1 0 0).
Proof using Sm Sd.
  intros Ia I1 p Hp. destruct Sm as (_ & _ & _ & Pm & _). fold a a1 in Pm.
  apply (rank_population W a ids st1 p _ Hp). rewrite <- (headcount_population (g_nr g) (g_nz g) ids (o_p w1) I1). unfold population. apply sumZ_le. intros sid _.
  fold a1. rewrite <- (Permutation_length (Pm sid)), map_length.
  assert (F : Forall2 (fun _ _ : tpt => True) (everybody W a sid (r_p w)) (everybody W a sid st1)).
  { apply (everybody_related (fun _ _ _ => True) (r_p w) st1 sid). intros r i k Hr Hi Hk. apply (related_weaken (stepped f (o_f w1') r i k) (fun _ _ _ => True)); [auto|exact (Sd r i k Hr Hi Hk)]. }
  apply Forall2_length in F. apply Z.eq_le_incl, f_equal. symmetry. exact F.
Qed.
Lemma moved_ready ids : (forall p, 0 <= p < W -> ids_ok a ids (r_p w p)) -> ids_ok a1 ids (o_p w1) ->
  state_ok (fun q => pt_cr dr (snd q)) (fun q => pt_cz dz (snd q)) fst W a ids st1 /\ state_tame (fun q => pt_cr dr (snd q)) (fun q => pt_cz dz (snd q)) W a st1.
Proof using Sm Sd Ca HW HR HC Hs Gr Gz GrL GzL Hdr Hdz.
  intros Ia I1. assert (Pop := moved_counts ids Ia I1). split.
  - intros p Hp. split; [|split].
    + destruct (Ia p Hp) as [N I]. split; [exact N|]. intros i k Hi Hk. rewrite <- (I i k Hi Hk). apply (related_ids (stepped f (o_f w1') p i k)). now apply Sd.
    + destruct Ca as (_ & _ & _ & _ & Hc). exact (Z.le_lt_trans _ _ _ (Pop p Hp) Hc).
    + intros i k sid l q Hi Hk Hl Hq. cbn [rd_ zd_ a] in Hi, Hk. split; [|exact (pt_int g (snd q))].
      destruct (forall2_in _ _ _ _ (Sd p i k Hp Hi Hk) Hl) as (u & Hu & Eu & Fu). cbn [fst snd] in Eu, Fu. destruct (forall2_in _ _ _ q Fu Hq) as (q0 & Hq0 & (E & _) & _).
      rewrite E. destruct Sm as (_ & _ & _ & _ & Hm). destruct (Hm p i k u q0 Hp Hi Hk Hu Hq0) as [Em _]. congruence.
  - intros p i k sid l q Hp Hi Hk Hl Hq. cbn [rd_ zd_ a] in Hi, Hk.
    destruct (forall2_in _ _ _ _ (Sd p i k Hp Hi Hk) Hl) as (u & Hu & Eu & Fu). cbn [fst snd] in Eu, Fu. destruct (forall2_in _ _ _ q Fu Hq) as (q0 & _ & _ & _ & ((N1 & N2) & K1 & K2) & Z).
    unfold tame. right. right. right. left. cbn [nr nz a]. unfold pt_cr, pt_cz, part_cr, part_cz.
    change (ParticleModel.cell_number (pos_r (now (snd q))) dr) with (cell_number (pos_r (now (snd q))) dr). change (ParticleModel.cell_number (pos_z (now (snd q))) dz) with (cell_number (pos_z (now (snd q))) dz).
    rewrite !s32_small by lia. split; [lia|]. clear - N2 Z Hk HC Hs Hp. nia.
Qed.
Variable st' : Z -> smb tpt.
Variable K : nat.
Hypothesis Mg : migrated (fun q => pt_cr dr (snd q)) (fun q => pt_cz dz (snd q)) fst K W a st1 st'.
Let ps := fun (p : Z) (ik : Z * Z) => movers charge dr dz (untag (st' p (fst ik) (snd ik))).
Lemma arrived : rank_fit W R C s (r_j w) /\
  ((exists ids, (forall p, 0 <= p < W -> ids_ok a ids (st' p)) /\ ids_ok a1 ids (o_p w1')) /\
   (forall sid, Permutation (map snd (everybody W a sid st')) (particles_of a1 sid (o_p w1'))) /\
   (forall p i k t q, 0 <= p < W -> 0 <= i < R -> 0 <= k < C -> In t (st' p i k) -> In q (snd t) ->
     fst q = fst t /\ home (pt_cr dr) (pt_cz dz) whole i (p * C + k) (snd q))) /\
  Permutation (movers charge dr dz (o_p w1' 0 0)) (everyone R (W * C) (joined C ps)) /\
  (forall p i k, 0 <= p < W -> 0 <= i < R -> 0 <= k < C -> Forall (lands_from_near (dom_geo g R (W * C) s (i, p * C + k))) (ps p (i, k))) /\
  (R = 1 \/ W * C = 1 \/ forall p i k, 0 <= p < W -> 0 <= i < R -> 0 <= k < C -> Forall (off_corners W C (p * C + k) (dom_geo g R (W * C) s (i, p * C + k))) (ps p (i, k))).
Proof using O Ca Sm Sd Mg HW HR HC Hs Gr Gz GrL GzL D0 D1 Hdr Hdz HWC.
  destruct O as (p1 & Ey & [St _] & Ec & Ej). destruct Ca as (Cm & Cx & Cb & Oc & Hc). assert (Sm0 := Sm). destruct Sm0 as (_ & SJ & (ids & Ia & I1) & Pm & Hm).
  fold a whole a1 in Ia, Pm, Hm, I1. fold a1 in St, Ec. fold dr dz in St, Hm, Ec.
  destruct (moved_ready ids Ia I1) as [Ok1 Tm1].
  destruct (C101_conserves_partial _ _ _ tpt_eq_dec K W a ids st1 st' (good_ranks g W R C s HW HR HC Hs Gr Gz GrL GzL) Ok1 Tm1 Mg) as (P' & I' & H').
  assert (Perm1 : forall sid, Permutation (map snd (everybody W a sid st1)) (particles_of a1 sid p1)).
  { intros sid. apply (perm_related (one_step (o_f w1') sid) (map snd (everybody W a sid (r_p w))) (particles_of a1 sid (o_p w1))); auto.
    - intros; eapply step_particle_fun; eauto.
    - apply map_snd_related. apply (everybody_related (fun sid q q' => one_step (o_f w1') sid (snd q) (snd q'))).
      intros p i k Hp Hi Hk. apply (related_weaken (stepped f (o_f w1') p i k) (fun sid (q q' : tpt) => one_step (o_f w1') sid (snd q) (snd q'))); [|exact (Sd p i k Hp Hi Hk)]. intros sid' q q' (_ & H & _). exact H.
    - apply (stepped_species a1 (fun i k => step_particle pusher g (domain_geo a1 dr dz i k) (o_f w1')) (one_step (o_f w1'))).
      + intros i k q q' Hi Hk. cbn [rd_ zd_ a1] in Hi, Hk. replace i with 0 by lia. now replace k with 0 by lia.
      + exact St. }
  assert (Ip : ids_ok a1 ids p1).
  { destruct I1 as [N I]. split; [exact N|]. intros i k Hi Hk. rewrite <- (I i k Hi Hk). specialize (St i k Hi Hk). clear - St. unfold step_domain in St.
    induction St as [|u u' l l' [E _] _ IH]; [reflexivity|]. cbn [map]. now rewrite E, IH. }
  assert (Ga : good_area a1) by exact (area1_good g R (W * C) s HR HWC Hs Gr GZ GrL GzL).
  destruct (C08_collector_conserves pt pt_eq_dec (pt_cr dr) (pt_cz dz) a1 ids p1 Ga (pt_int g) Ip) as (so' & Eo & Io & Po & _).
  rewrite Ec in Eo. injection Eo as <-.
  assert (PF : forall (h : pt -> bool) l l', Permutation l l' -> Permutation (filter h l) (filter h l')).
  { intros h l l' P. induction P as [|x l l' P IH|x y l|l l' l'' P1 IH1 P2 IH2]; cbn [filter]; [constructor| | |now rewrite IH1].
    - destruct (h x); [now constructor|exact IH].
    - destruct (h x), (h y); (reflexivity || apply perm_swap). }
  assert (MF : forall l, map snd (filter (inside (fun q : tpt => pt_cr dr (snd q)) (fun q => pt_cz dz (snd q)) W a) l) = filter (alive (pt_cr dr) (pt_cz dz) a1) (map snd l)).
  { intros l. induction l as [|[x q] l IH]; [reflexivity|]. cbn [map filter snd].
    assert (E : inside (fun q : tpt => pt_cr dr (snd q)) (fun q => pt_cz dz (snd q)) W a (x, q) = alive (pt_cr dr) (pt_cz dz) a1 q).
    { unfold inside, alive. cbn [nr nz a a1 snd]. rewrite Gr, Gz. apply eq_true_iff_eq. rewrite !andb_true_iff. replace (C * s * W) with (W * C * s) by ring. lia. }
    rewrite E. destruct (alive _ _ a1 q); cbn [map snd]; now rewrite IH. }
  assert (Pm' : forall sid, Permutation (map snd (everybody W a sid st')) (particles_of a1 sid (o_p w1'))).
  { intros sid. rewrite (Permutation_map snd (P' sid)), MF, Po. apply PF, Perm1. }
  assert (Hm' : forall p i k t q, 0 <= p < W -> 0 <= i < R -> 0 <= k < C -> In t (st' p i k) -> In q (snd t) -> fst q = fst t /\ home (pt_cr dr) (pt_cz dz) whole i (p * C + k) (snd q)).
  { intros p i k [sid l] q Hp Hi Hk Ht Hq. destruct (H' p i k sid l q Hp Hi Hk Ht Hq) as [E Hh]. split; [exact E|].
    now apply (home_rank g W R C s HW HC Hs Gz GzL). }
  assert (In' : forall p i k t q, 0 <= p < W -> 0 <= i < R -> 0 <= k < C -> In t (st' p i k) -> In q (snd t) -> In q (everybody W a (fst t) st')).
  { intros p i k t q Hp Hi Hk Ht Hq. unfold everybody. apply in_flat_map. exists p. split; [rewrite ranks_zrange; apply In_zrange'; lia|]. apply In_particles. exists i, k, t. cbn [rd_ zd_ a]. auto. }
  assert (Fr : forall p i k t q, 0 <= p < W -> 0 <= i < R -> 0 <= k < C -> In t (st' p i k) -> In q (snd t) ->
     (i * s <= cell_number (pos_r (now (snd q))) dr < i * s + s /\ (p * C + k) * s <= cell_number (pos_z (now (snd q))) dz < (p * C + k) * s + s) /\ moved (snd q)).
  { intros p i k t q Hp Hi Hk Ht Hq. assert (Q := In' p i k t q Hp Hi Hk Ht Hq).
    apply (Permutation_in _ (P' (fst t))), filter_In in Q as [Q _]. unfold everybody in Q. apply in_flat_map in Q as (r & Hr & Q). rewrite ranks_zrange in Hr. apply In_zrange' in Hr.
    apply In_particles in Q as (i0 & k0 & t0 & Hi0 & Hk0 & Ht0 & Et & Hq0).
    destruct (forall2_in _ _ _ t0 (Sd r i0 k0 Hr Hi0 Hk0) Ht0) as (u & Hu & _ & Fu). destruct (forall2_in _ _ _ q Fu Hq0) as (q0 & _ & _ & _ & M & _).
    split; [|exact M]. destruct (Hm' p i k t q Hp Hi Hk Ht Hq) as [_ Hh]. unfold moved in M.
    apply (home_cells g R (W * C) s HR HWC Hs Gr GZ GrL GzL i (p * C + k) (snd q)); auto; fold dr dz; nia. }
  assert (InP : forall p i k m, In m (ps p (i, k)) -> exists t q, In t (st' p i k) /\ In q (snd t) /\ m = mover_of charge dr dz (fst t) (snd q)).
  { intros p i k m Hp. unfold ps, movers, untag in Hp. cbn [fst snd] in Hp. apply in_flat_map in Hp as (t & Ht & Hp). apply in_map_iff in Ht as (t0 & <- & Ht0).
    cbn [fst snd] in Hp. rewrite map_map in Hp. apply in_map_iff in Hp as (q & <- & Hq). eauto. }
  split; [apply SJ|]. split; [split; [exists ids; split; [exact I'|exact Io]|split; [exact Pm'|exact Hm']]|]. split; [|split].
  - change (joined C ps) with (fun ik : Z * Z => flat_map (fun u => map (mover_of charge dr dz (fst u)) (snd u)) (untagged st' C (fst ik) (snd ik))).
    assert (X := everyone_species (mover_of charge dr dz) whole ids (untagged st' C) (untagged_ids W R C s ids st' HC I' HW)). cbn [rd_ zd_ whole] in X. rewrite X.
    assert (Y := everyone_species (mover_of charge dr dz) a1 ids (o_p w1') Io). cbn [rd_ zd_ a1] in Y.
    unfold everyone, zrange in Y. change (Z.to_nat (1 - 0)) with 1%nat in Y. cbn [zseq flat_map fst snd] in Y. rewrite !app_nil_r in Y.
    unfold movers at 1. rewrite Y. apply perm_flat_ext. intros sid _. apply Permutation_map. rewrite <- Pm'. symmetry. apply untagged_species; lia.
  - intros p i k Hp Hi Hk. apply Forall_forall. intros m Hm0. destruct (InP p i k m Hm0) as (t & q & Ht & Hq & ->).
    destruct (Fr p i k t q Hp Hi Hk Ht Hq) as ((A1 & A2) & (A3 & A4) & A5 & A6). unfold lands_from_near, dom_geo.
    cbn [fst snd g_d0 g_d1 g_nr g_nz g_dr g_dz mover_of m_r m_z m_ro m_zo]. fold dr dz. rewrite D0, D1. lia.
  - destruct Oc as [Oc|[Oc|Oc]]; auto. right. right. intros p i k Hp Hi Hk. apply Forall_forall. intros m Hm0. destruct (InP p i k m Hm0) as (t & q & Ht & Hq & ->).
    destruct (Fr p i k t q Hp Hi Hk Ht Hq) as ((A1 & A2) & _).
    assert (Q := in_map snd _ _ (In' p i k t q Hp Hi Hk Ht Hq)). apply (Permutation_in _ (Pm' (fst t))), In_particles in Q as (i0 & k0 & t0 & Hi0 & Hk0 & Ht0 & Et & Hq0). cbn [rd_ zd_ a1] in Hi0, Hk0.
    replace i0 with 0 in Ht0 by lia. replace k0 with 0 in Ht0 by lia. assert (X := Oc t0 (snd q) Ht0 Hq0). rewrite Et in X.
    assert (E : domain_of g s (snd q) = (i, p * C + k)).
    { unfold domain_of. fold dr dz. f_equal; symmetry; [apply (Z.div_unique _ _ _ (cell_number (pos_r (now (snd q))) dr - i * s))|apply (Z.div_unique _ _ _ (cell_number (pos_z (now (snd q))) dz - (p * C + k) * s))]; lia. }
    rewrite E in X. exact X.
Qed.
End Moved.
End Fields.
Lemma fields_after K f : mpi_step mu g W (W * C) R s eps sg K (r_j w) (r_f w) f ->
  rank_fields g W R C s f (o_f w1') /\ rank_all W R C s (fun p q => y_e (f p q)) (y_e (o_f w1')) /\ rank_all_inside W R C s (fun p q => y_h (f p q)) (y_h (o_f w1')).
Proof using O Sm HW HR HC Hs Gr Gz GrL GzL D0 D1 Heps Hsg.
  intros E1. destruct O as (p1 & Ey & _). destruct Sm as (SF & SJ & _). assert (HsL : s + 4 < 2 ^ 32) by nia.
  destruct (mpi_step_full mu g W R C s HW HR HC Hs HsL Gr Gz ltac:(lia) ltac:(lia) D1 eps sg Eps Sg Heps Hsg K (r_j w) (o_j w1) (r_f w) f (o_f w1) SF SJ E1) as (y' & Ey' & X).
  rewrite Ey in Ey'. injection Ey' as <-. exact X.
Qed.
Theorem C150_round_partial K w' : mpi_round pusher charge zigzag_distribution mu g W R C s eps sg K w w' -> same_ranks g W R C s w1' w'.
Proof using O Ca Sm HW HR HC Hs Gr Gz GrL GzL D0 D1 Hdr Hdz Heps Hsg HWC.
  intros (st1 & E1 & Ps & Mg & Ej1). fold a whole in Ps, Mg. fold dr dz in Ps, Mg, Ej1. assert (HsL : s + 4 < 2 ^ 32) by nia.
  destruct (fields_after K _ E1) as (SF' & Me & Mh).
  assert (Sd : forall p i k, 0 <= p < W -> 0 <= i < R -> 0 <= k < C ->
    Forall2 (fun t t' => fst t = fst t' /\ Forall2 (stepped (r_f w') (o_f w1') p i k (fst t)) (snd t) (snd t')) (r_p w p i k) (st1 p i k)).
  { intros p i k Hp Hi Hk. destruct (Ps p Hp) as (gr & C' & Eg & Pd & _). destruct (rank_geo_eq g W R C s HW HC Hs Gz ltac:(lia) D1 p Hp) as (gr' & Eg' & Dg).
    rewrite Eg in Eg'. injection Eg' as -> ->. specialize (Pd i k Hi Hk). rewrite Dg in Pd by exact Hk. unfold dr, dz, whole in Pd. rewrite (rank_geo_whole g W R C s HW HC Hs Gz GzL p i k Hp Hk) in Pd.
    fold dr dz whole in Pd. assert (Hd : forall t q, In t (r_p w p i k) -> In q (snd t) -> exists q', stepped (r_f w') (o_f w1') p i k (fst t) q (fst q, q')) by (intros t q; now apply has_step).
    unfold step_tagged in Pd. clear - Pd Hd. induction Pd as [|t t' d d' [E F] _ IH]; constructor; [|apply IH; intros; apply Hd; auto; now right]. split; [exact E|].
    specialize (fun q => Hd t q (or_introl eq_refl)). clear - F Hd. destruct t as [sid l], t' as [sid' l']. cbn [fst snd] in *. induction F as [|q q' l l' [T S1] _ IH]; constructor; [|apply IH; intros; apply Hd; now right].
    destruct (Hd q (or_introl eq_refl)) as [q2 S2]. assert (X := proj1 S2). destruct X as [_ X]. cbn [snd] in X.
    assert (Y := step_particle_fun pusher _ _ _ _ _ _ _ S1 X). assert (Q : q' = (fst q, q2)) by (destruct q' as [u v]; cbn [fst snd] in *; congruence). rewrite Q. exact S2. }
  destruct (arrived (r_f w') st1 Sd (r_p w') K Mg) as (Fj & Pp & Pa & La & Of).
  destruct O as (p1 & _ & _ & _ & Ej). destruct (mpi_zigzag g W R C s HW HR HC Hs HsL Gr Gz ltac:(lia) D1 (fun p ik => movers charge dr dz (untag (r_p w' p (fst ik) (snd ik)))) (movers charge dr dz (o_p w1' 0 0)) K (r_j w) (r_j w') (o_j w1)
    Fj ltac:(apply Sm) Pa La Of Ej1) as (J' & EJ & SJ').
  fold dr dz in Ej. rewrite Ej in EJ. injection EJ as <-. split; [exact SF'|]. split; [exact SJ'|exact Pp].
Qed.
Theorem C150_takes_place K : (Z.to_nat R <= K)%nat -> headcount (o_p w1 0 0) < Z.of_nat K -> exists w', mpi_round pusher charge zigzag_distribution mu g W R C s eps sg K w w'.
Proof using O Ca Sm HW HR HC Hs Gr Gz GrL GzL D0 D1 Hdr Hdz Heps Hsg HWC.
  intros HK HcK. assert (HsL : s + 4 < 2 ^ 32) by nia. assert (Sm0 := Sm). destruct Sm0 as (SF & SJ & (ids & Ia & I1) & _). fold a a1 in Ia, I1.
  destruct (mpi_step_exists mu g W R C s HW HR HC Hs HsL Gr Gz ltac:(lia) ltac:(lia) D1 eps sg Eps Sg Heps Hsg K (r_j w) (o_j w1) (r_f w) (o_f w1) HK SF SJ) as (f & E1).
  destruct (fields_after K f E1) as (SF' & Me & Mh).
  assert (Ex : forall p, 0 <= p < W -> exists st, (forall i k, 0 <= i < R -> 0 <= k < C ->
      Forall2 (fun t t' => fst t = fst t' /\ Forall2 (stepped f (o_f w1') p i k (fst t)) (snd t) (snd t')) (r_p w p i k) (st i k)) /\
    (forall i k, ~ (0 <= i < R /\ 0 <= k < C) -> st i k = r_p w p i k)).
  { intros p Hp. apply (step_build a (stepped f (o_f w1') p) (r_p w p)). intros i k t q Hi Hk Ht Hq.
    destruct (has_step f SF' Me Mh p i k t q Hp Hi Hk Ht Hq) as [q' Sq]. eauto. }
  destruct (choose_fun W _ HW Ex) as (st1 & S1).
  assert (Sd : forall p i k, 0 <= p < W -> 0 <= i < R -> 0 <= k < C ->
    Forall2 (fun t t' => fst t = fst t' /\ Forall2 (stepped f (o_f w1') p i k (fst t)) (snd t) (snd t')) (r_p w p i k) (st1 p i k)) by (intros p i k Hp Hi Hk; now apply S1).
  destruct (moved_ready f st1 Sd ids Ia I1) as [Ok1 Tm1].
  destruct (C101_takes_place (fun q : tpt => pt_cr dr (snd q)) (fun q => pt_cz dz (snd q)) fst tpt_eq_dec K W a ids st1 (good_ranks g W R C s HW HR HC Hs Gr Gz GrL GzL) Ok1 Tm1) as (st' & Mg).
  { intros p Hp. assert (X := moved_counts f st1 Sd ids Ia I1 p Hp). lia. }
  destruct (arrived f st1 Sd st' K Mg) as (Fj & _ & _ & La & _).
  destruct (mpi_zigzag_exists g W R C s HW HR HC Hs HsL Gr Gz ltac:(lia) D1 (fun p ik => movers charge dr dz (untag (st' p (fst ik) (snd ik)))) K (r_j w) HK Fj La) as (j' & Ej).
  exists (mkMworld f j' st'). exists st1. cbn [r_f r_j r_p]. fold a whole dr dz. split; [exact E1|]. split; [|split; [exact Mg|exact Ej]].
  intros p Hp. destruct (rank_geo_eq g W R C s HW HC Hs Gz ltac:(lia) D1 p Hp) as (gr & Eg & Dg). exists gr, C. split; [exact Eg|]. split; [|apply S1; exact Hp].
  intros i k Hi Hk. rewrite Dg by exact Hk. unfold dr, dz, whole. rewrite (rank_geo_whole g W R C s HW HC Hs Gz GzL p i k Hp Hk). fold dr dz whole.
  unfold step_tagged. apply (related_weaken (stepped f (o_f w1') p i k) (rank_step f p i k)); [intros sid q q' H; apply H|now apply Sd].
Qed.
End Given.
End Round.

(** ** any number of rounds *)
Section Run.
Variable pusher : Z -> v3 -> v3 -> v3 -> outcome v3.
Variable charge : Z -> R.
Variable mu : R.
Variable g : YeeModel.geo.
Variables W R C s : Z.
Hypothesis HW : 1 <= W.
Hypothesis HR : 1 <= R.
Hypothesis HC : 1 <= C.
Hypothesis Hs : 4 <= s.
Hypothesis Gr : g_nr g = R * s.
Hypothesis Gz : g_nz g = W * C * s.
Hypothesis GrL : g_nr g < 2 ^ 31.
Hypothesis GzL : g_nz g < 2 ^ 31.
Hypothesis D0 : g_d0 g = 0.
Hypothesis D1 : g_d1 g = 0.
Hypothesis Hdr : (0 < g_dr g)%R.
Hypothesis Hdz : (0 < g_dz g)%R.
Variables eps sg : Z -> doms (grid Rdefinitions.R).
Variables Eps Sg : grid Rdefinitions.R.
Hypothesis Heps : rank_inner2 W R C s eps Eps.
Hypothesis Hsg : rank_inner2 W R C s sg Sg.

(** whatever order the messages of the ranks take, the ranks end with what the undivided area ends with *)
Theorem C150_run_partial : forall n K w1 w1' w w',
  rounds (fun u v => one_round pusher charge zigzag_distribution mu g Eps Sg u v /\ calm_ranks pusher charge g W R C s u v) n w1 w1' ->
  same_ranks g W R C s w1 w -> rounds (mpi_round pusher charge zigzag_distribution mu g W R C s eps sg K) n w w' -> same_ranks g W R C s w1' w'.
Proof using HW HR HC Hs Gr Gz GrL GzL D0 D1 Hdr Hdz Heps Hsg.
  induction n as [|n IH]; intros K w1 w1' w w'; cbn [rounds]; [intros -> S ->; exact S|].
  intros (u & [O Ca] & Rn) S (v & Rv & Rw). apply (IH K u w1' v w' Rn); [|exact Rw].
  exact (C150_round_partial pusher charge mu g W R C s HW HR HC Hs Gr Gz GrL GzL D0 D1 Hdr Hdz eps sg Eps Sg Heps Hsg w1 u w O Ca S K v Rv).
Qed.
(** and they do get there when the library can store the rows of a border and all particles *)
Theorem C150_run_takes_place : forall n K w1 w1' w, (Z.to_nat R <= K)%nat ->
  rounds (fun u v => one_round pusher charge zigzag_distribution mu g Eps Sg u v /\ calm_ranks pusher charge g W R C s u v /\ headcount (o_p u 0 0) < Z.of_nat K) n w1 w1' ->
  same_ranks g W R C s w1 w -> exists w', rounds (mpi_round pusher charge zigzag_distribution mu g W R C s eps sg K) n w w' /\ same_ranks g W R C s w1' w'.
Proof using HW HR HC Hs Gr Gz GrL GzL D0 D1 Hdr Hdz Heps Hsg.
  induction n as [|n IH]; intros K w1 w1' w HK; cbn [rounds]; [intros -> S; exists w; auto|].
  intros (u & (O & Ca & Hc) & Rn) S.
  destruct (C150_takes_place pusher charge mu g W R C s HW HR HC Hs Gr Gz GrL GzL D0 D1 Hdr Hdz eps sg Eps Sg Heps Hsg w1 u w O Ca S K HK Hc) as (v & Rv).
  assert (S' := C150_round_partial pusher charge mu g W R C s HW HR HC Hs Gr Gz GrL GzL D0 D1 Hdr Hdz eps sg Eps Sg Heps Hsg w1 u w O Ca S K v Rv).
  destruct (IH K u w1' v HK Rn S') as (w' & Rw & S2). exists w'. split; [exists v; auto|exact S2].
Qed.
End Run.

Print Assumptions C150_round_partial.
Print Assumptions C150_takes_place.
Print Assumptions C150_run_partial.
Print Assumptions C150_run_takes_place.
