(** C162: no particle of a run is as fast as light. *)
From Coq Require Import ZifyBool Reals Lra Psatz Permutation String FunctionalExtensionality.
From Verif Require Import Base RndUtil PushModel CollModel CollOpModel CollPhaseModel CollPhaseProofs ThmPush ThmColl ThmColl2 CollOpProofs ThmColl3 ThmPhase ThmPhase2
  DecompModel CollectorModel CollectorProofs ListUtil ParticleModel ParticleProofs StepModel ThmParticle ThmInit ThmDecomp ThmStep GridModel OverlayModel YeeModel YeeProofs YeeSmb ThmYeeSmb SmbCurrent
  BeamModel RoundModel RoundProofs ThmRound ThmRoundGauss FullModel ThmFull CollRoundModel ThmCollRound.
From Verif Require ExtModel ThmExt.
Open Scope Z_scope.
Local Notation kind := CollPhaseModel.kind.

(** ** specification *)
(** slower than light *)
Definition slower (c : R) (q : pt) : Prop := (vel_r (now q) * vel_r (now q) + vel_phi (now q) * vel_phi (now q) + vel_z (now q) * vel_z (now q) < c * c)%R.
(** all particles of all domains *)
Definition all_slower (c : R) (a : area) (st : smb pt) : Prop :=
  forall i k sid l q, 0 <= i < rd_ a -> 0 <= k < zd_ a -> In (sid, l) (st i k) -> In q l -> slower c q.
(** one of the relativistic pushers for every species ([k sid]: charge times dt over twice the mass) *)
Definition relativistic (c mu : R) (pusher : Z -> v3 -> v3 -> v3 -> outcome v3) : Prop := exists k : Z -> R,
  forall sid, (forall e b v, pusher sid e b v = boris_relativistic c (k sid) mu e b v) \/
    (forall e b v, pusher sid e b v = vay c (k sid) mu e b v) \/ (forall e b v, pusher sid e b v = hc c (k sid) mu e b v).
(** collisions after which the particles are as slow as before *)
Definition keeps_slow (c : R) (impulse : Z -> Z -> domain pt -> domain pt -> Prop) : Prop :=
  forall i k d d', impulse i k d d' -> everywhere (slower c) d -> everywhere (slower c) d'.
(** the rounds in which no particle lands on the axis (0/0 in back_velocity_to_rz) *)
Definition off_the_axis (dt : R) (impulse : Z -> Z -> domain pt -> domain pt -> Prop) : Z -> Z -> domain pt -> domain pt -> Prop :=
  fun i k d d' => impulse i k d d' /\ everywhere (misses_axis dt) d'.

(** ** the flight, the push, the injection *)
Lemma slower_vel c q : slower c q <-> subluminal c (vel q).
Proof. unfold slower, subluminal, len2, vel. cbn [vx vy vz]. tauto. Qed.
Lemma pushers_slow c mu pusher : (0 < c)%R -> relativistic c mu pusher -> forall sid e b v, subluminal c v -> same_as (pusher sid e b v) (subluminal c).
Proof.
  intros Hc (k & H) sid e b v S. destruct (H sid) as [E|[E|E]]; rewrite E; [now apply C46_boris|now apply C46_vay|now apply C46_hc].
Qed.
Lemma every_each (P : pt -> Prop) (Q : Z -> pt -> pt -> Prop) d d' : (forall sid q q', Q sid q q' -> P q -> P q') -> each Q d d' -> everywhere P d -> everywhere P d'.
Proof.
  intros H E. unfold everywhere, each in *. induction E as [|s s' d d' [_ F] _ IH]; intros A; [constructor|]. inversion A as [|? ? A1 A2]; subst. constructor; [|now apply IH].
  clear - H F A1. revert H A1 F. generalize (fst s). intros sid H A1 F. induction F as [|q q' l l' X F IH]; [constructor|]. inversion A1; subst. constructor; [now apply H with sid q|now apply IH].
Qed.
Lemma every_and (P Q : pt -> Prop) d : everywhere P d -> everywhere Q d -> everywhere (fun q => P q /\ Q q) d.
Proof.
  unfold everywhere. intros A B. rewrite Forall_forall in *. intros s I. specialize (A s I). specialize (B s I). rewrite Forall_forall in *. auto.
Qed.
Lemma every_impl (P Q : pt -> Prop) d : (forall q, P q -> Q q) -> everywhere P d -> everywhere Q d.
Proof. intros H. unfold everywhere. apply Forall_impl. intros s. now apply Forall_impl. Qed.
Lemma domain_slow c pusher beams impulse h G y x i k d d' : (forall sid e b v, subluminal c v -> same_as (pusher sid e b v) (subluminal c)) ->
  keeps_slow c impulse -> advance_domain pusher beams (off_the_axis (YeeModel.g_dt h) impulse) h G y x i k d d' -> everywhere (slower c) d -> everywhere (slower c) d'.
Proof.
  intros Pu Im (d1 & d2 & K & (Co & Ms) & F) S. assert (S1 : everywhere (slower c) d1).
  { revert K S. apply every_each. intros sid q q' (e & b & v & _ & E & ->) Sq. apply (proj1 (slower_vel _ _)) in Sq. destruct (Pu sid e b _ Sq) as (v' & E' & Sv). unfold vel in E'. rewrite E in E'. injection E' as <-.
    apply (proj2 (slower_vel _ _)). destruct v. exact Sv. }
  assert (S2 := Im _ _ _ _ Co S1). assert (A := each_and _ _ _ _ F Ms).
  revert A S2. apply every_each. intros sid q q' [M Fl] Sq. destruct (flown_speed _ _ _ _ _ _ M Fl) as [L _]. apply (proj2 (slower_vel _ _)). apply (proj1 (slower_vel _ _)) in Sq. unfold subluminal in *.
  change (len2 (vel q')) with (len q'). now rewrite L.
Qed.
Lemma inject_slow c beams draw a dr dz dt t cnt st i k : (forall sid b n, beams sid = Some (b, n) -> (Rabs (b_velocity b) < c)%R) ->
  everywhere (slower c) (st i k) -> everywhere (slower c) (inject_beams beams draw a dr dz dt t cnt st i k).
Proof.
  intros Hb S. unfold everywhere, inject_beams in *. apply Forall_map. rewrite Forall_forall in *. intros s I. cbn [snd]. apply Forall_app. split; [now apply S|].
  unfold newcomers. destruct (beams (fst s)) as [[b n]|] eqn:E; [|constructor]. apply Forall_map. apply Forall_forall. intros m _.
  unfold new_particle. destruct (injected_particle _ _ _ _ _ _) as [[[r z] x] y]. unfold slower. cbn. specialize (Hb _ _ _ E). assert (P := Rabs_pos (b_velocity b)).
  assert (Q : (b_velocity b * b_velocity b = Rabs (b_velocity b) * Rabs (b_velocity b))%R) by (unfold Rabs; destruct (Rcase_abs _); ring). nra.
Qed.
Lemma area_every a (P : pt -> Prop) (st : smb pt) : (forall i k sid l q, 0 <= i < rd_ a -> 0 <= k < zd_ a -> In (sid, l) (st i k) -> In q l -> P q) <->
  forall i k, 0 <= i < rd_ a -> 0 <= k < zd_ a -> everywhere P (st i k).
Proof.
  unfold everywhere. split.
  - intros H i k Hi Hk. apply Forall_forall. intros [sid l] I. apply Forall_forall. intros q J. now apply (H i k sid l).
  - intros H i k sid l q Hi Hk I J. specialize (H i k Hi Hk). rewrite Forall_forall in H. specialize (H _ I). rewrite Forall_forall in H. now apply H.
Qed.
Lemma area_species a (P : pt -> Prop) ids (st : smb pt) : ids_ok a ids st ->
  ((forall i k sid l q, 0 <= i < rd_ a -> 0 <= k < zd_ a -> In (sid, l) (st i k) -> In q l -> P q) <-> forall sid q, In q (particles_of a sid st) -> P q).
Proof.
  intros _. unfold particles_of. split.
  - intros H sid q I. apply in_flat_map in I as ([i k] & Hik & I). apply In_pairs in Hik as [Hi Hk]. cbn [fst snd] in I. apply in_flat_map in I as ([sd l] & J & I). cbn [fst snd] in I.
    destruct (sd =? sid); [|destruct I]. now apply (H i k sd l).
  - intros H i k sid l q Hi Hk I J. apply (H sid). apply in_flat_map. exists (i, k). split; [now apply In_pairs|]. apply in_flat_map. exists (sid, l). split; [exact I|]. cbn [fst snd]. rewrite Z.eqb_refl. exact J.
Qed.

(** ** a round, a run *)
Section C162.
Variables (c mu : R).
Hypothesis Hc : (0 < c)%R.
Variable pusher : Z -> v3 -> v3 -> v3 -> outcome v3.
Hypothesis Pu : relativistic c mu pusher.
Variable beams : Z -> option (beam * R).
Hypothesis Hb : forall sid b n, beams sid = Some (b, n) -> (Rabs (b_velocity b) < c)%R.
Variable extern : option (doms yee).
Variable impulse : Z -> Z -> domain pt -> domain pt -> Prop.
Hypothesis Im : velocities_only impulse.
Hypothesis Is : keeps_slow c impulse.
Variable draw : nat -> Z -> Z -> Z -> nat -> R * R.
Lemma particles_slow a ids dr dz dt hs m t cnt st st' : good_area a -> ids_ok a ids st -> (forall ik, YeeModel.g_dt (hs ik) = dt) ->
  full_particles pusher beams extern (off_the_axis dt impulse) draw a dr dz dt hs m t cnt st st' -> all_slower c a st -> ids_ok a ids st' /\ all_slower c a st'.
Proof using Hc Pu Hb Im Is.
  intros HA Io Hdt (p1 & [Ad _] & Ec) S.
  assert (Im' : velocities_only (off_the_axis dt impulse)) by (intros i k d d' [H _]; exact (Im i k d d' H)).
  set (st0 := inject_beams beams draw a dr dz dt t cnt st) in *.
  assert (I0 : ids_ok a ids st0) by now apply inject_ids.
  assert (I1 : ids_ok a ids p1).
  { destruct I0 as [N I]. split; [exact N|]. intros i k Hi Hk. rewrite (each_ids _ _ _ (advance_remembers _ _ _ Im' _ _ _ _ _ _ _ _ (Ad i k Hi Hk))). now apply I. }
  destruct (C08_collector_conserves pt pt_eq_dec (pt_cr dr) (pt_cz dz) a ids p1 HA (fun q => int_cells_part dr dz (now q)) I1) as (st2 & Ec' & I' & P' & _).
  rewrite Ec in Ec'. injection Ec' as <-. split; [exact I'|].
  assert (S1 : all_slower c a p1).
  { refine (proj2 (area_every a (slower c) p1) _). intros i k Hi Hk. specialize (Ad i k Hi Hk). rewrite <- (Hdt (i, k)) in Ad. revert Ad.
    intros Ad. eapply domain_slow; [exact (pushers_slow c mu pusher Hc Pu)|exact Is|exact Ad|]. apply inject_slow; [exact Hb|]. now apply (proj1 (area_every a (slower c) st) S). }
  refine (proj2 (area_species a (slower c) ids st' I') _). intros sid q J. assert (K := Permutation_in _ (P' sid) J). apply filter_In in K as [K _].
  exact (proj1 (area_species a (slower c) ids p1 I1) S1 sid q K).
Qed.
Variable charge : Z -> R.
Variable dist : YeeModel.geo -> list CurrentModel.mover -> grid3 R -> outcome (grid3 R).
Variable mu0 : R.
Variable g : YeeModel.geo.
Variables R C s : Z.
Variables eps sg : doms (grid Rdefinitions.R).
Let a := {| nr := R * s; nz := C * s; rd_ := R; zd_ := C |}.
Hypothesis HA : good_area a.
Let round := full_round pusher charge dist mu0 beams extern (off_the_axis (YeeModel.g_dt g) impulse) draw g R C s eps sg.
(** Any number of rounds, any fields: all particles are slower than light, and the pusher never stops at the square root of a negative number. *)
Theorem C162_run : forall n u u' ids, rounds round n u u' -> ids_ok a ids (w_p (u_w u)) -> all_slower c a (w_p (u_w u)) ->
  all_slower c a (w_p (u_w u')) /\
  forall i k sid l q e b, 0 <= i < R -> 0 <= k < C -> In (sid, l) (w_p (u_w u') i k) -> In q l -> exists v, pusher sid e b (V3 (vel_r (now q)) (vel_phi (now q)) (vel_z (now q))) = Ok v.
Proof using Hc Pu Hb Im Is HA.
  induction n as [|n IH]; cbn [rounds]; intros u u' ids.
  - intros -> _ S. split; [exact S|]. intros i k sid l q e b Hi Hk I J. assert (Sq := S i k sid l q Hi Hk I J). apply (proj1 (slower_vel _ _)) in Sq.
    destruct (pushers_slow c mu pusher Hc Pu sid e b _ Sq) as (v & E & _). now exists v.
  - intros (v & Rd & Rn) Io S. pose proof Rd as (_ & Fp & _). fold a in Fp.
    destruct (particles_slow a ids _ _ (YeeModel.g_dt g) (dom_geo g R C s) _ _ _ _ _ HA Io (fun ik => eq_refl) Fp S) as [Iv Sv]. exact (IH v u' ids Rn Iv Sv).
Qed.
End C162.

(** ** the collisions *)
Section Collisions.
Variables (nr nz d0 d1 : Z) (dr dz ev c : R).
Variable D : Type.
Variable single : (kind -> R) -> (kind -> R) -> kind -> kind -> CollOpModel.part -> CollOpModel.part -> R -> R -> R -> D -> coll.
Variable draw : Z -> Z -> nat -> D.
Variable shuffle : kind -> Z -> Z -> list nat -> list nat.
Hypothesis shuffles : forall k i j l, Permutation (shuffle k i j l) l.
Variable sp : list specie.
Hypothesis heavy : forall s, In s sp -> (0 < sp_mass s)%R.
Definition slow_update (u : update) : Prop := match u with CollOpModel.Keep => True | Set_to v => subluminal c v | SetNaN => True end.
Hypothesis pair_slow : forall mass charge a b pa pb na nb db x y n, (forall k, 0 < mass k)%R -> subluminal c (velocity pa) -> subluminal c (velocity pb) ->
  match single mass charge a b pa pb na nb db (draw x y n) with Pair u v => slow_update u /\ slow_update v | Died => True end.
Let ok (h : heap) : Prop := forall p, In p (all_ptrs sp) -> subluminal c (velocity (cp_part (h p))).
Lemma update_slow h p u h' : apply_update h p u = Some h' -> slow_update u -> ok h -> ok h'.
Proof using.
  intros E U S q I. destruct u as [|v|]; cbn in E; [injection E as <-; now apply S| |discriminate]. injection E as <-. unfold set_velocity. destruct (Nat.eqb q p); [exact U|now apply S].
Qed.
Section Maps.
Variable m : maps.
Hypothesis listed : forall k i j p, inner nr nz i j = true -> In p (m k i j) -> In p (all_ptrs sp).
Variables mass charge : kind -> R.
Hypothesis Mass : forall k, (0 < mass k)%R.
Lemma pairs_slow i j ne ni db l : inner nr nz i j = true -> forall n h h', collide_pairs (single mass charge) draw m i j ne ni db l n h = Ok (Some h') -> ok h -> ok h'.
Proof using listed Mass pair_slow.
  intros I. induction l as [|[[ka a] [kb b]] l IH]; intros n h h' E S; cbn [collide_pairs] in E.
  - injection E as <-. exact S.
  - destruct (collide_pair _ _ _ _ _ _ _ _ _ _) as [[h1|]| |] eqn:F; try discriminate. cbn [bind] in E. apply (IH _ _ _ E). clear IH E. cbn [collide_pair] in F.
    destruct (nth_error (m ka i j) (Z.to_nat a)) as [p|] eqn:Ep; [|discriminate]. destruct (nth_error (m kb i j) (Z.to_nat b)) as [q|] eqn:Eq; [|discriminate].
    apply nth_error_In in Ep. apply nth_error_In in Eq.
    assert (P := pair_slow mass charge ka kb (cp_part (h p)) (cp_part (h q)) (match ka with El => ne | Ion => ni end) (match kb with El => ne | Ion => ni end) db i j n Mass
      (S p (listed _ _ _ _ I Ep)) (S q (listed _ _ _ _ I Eq))).
    destruct (single _ _ _ _ _ _ _ _ _ _) as [|u v]; [discriminate|]. destruct P as [U V]. injection F as F. destruct (apply_update h p u) as [h2|] eqn:G; [|discriminate].
    exact (update_slow _ _ _ _ F V (update_slow _ _ _ _ G U S)).
Qed.
Lemma list_slow h0 l : (forall i j, In (i, j) l -> inner nr nz i j = true) -> forall h h', collide_list d0 dr dz mass (single mass charge) draw ev m h0 l h = Ok (Some h') -> ok h -> ok h'.
Proof using listed Mass pair_slow.
  induction l as [|[i j] l IH]; intros I h h' E S; cbn [collide_list] in E.
  - injection E as <-. exact S.
  - destruct (collide_cell _ _ _ _ _ _ _ _ _ _ _) as [[h1|]| |] eqn:F; try discriminate. cbn [bind] in E. apply (IH (fun i j J => I i j (or_intror J)) _ _ E). clear IH E. unfold collide_cell in F.
    destruct (CheckModel.debye_length _ _ _ _) as [db| |]; try discriminate. cbn [bind] in F. exact (pairs_slow _ _ _ _ _ _ (I i j (or_introl eq_refl)) _ _ _ F S).
Qed.
End Maps.
Lemma find_last_in f l e : find_last f l = Some e -> In e l.
Proof using.
  unfold find_last. assert (A : forall l acc e, fold_left (fun acc s => if f s then Some s else acc) l acc = Some e -> acc = Some e \/ In e l).
  { induction l0 as [|s l0 IH]; intros acc e' E; cbn in E; [now left|]. apply IH in E as [E|E]; [|right; now right]. destruct (f s); [injection E as <-; right; now left|now left]. }
  intros E. apply A in E as [E|E]; [discriminate|exact E].
Qed.
Lemma phase_slow m0 h m h' : phase nr nz d0 d1 dr dz ev false single draw shuffle sp m0 h = Ok (Some (m, h')) -> ok h -> ok h'.
Proof using shuffles heavy pair_slow.
  unfold phase. destruct (sort_to_cells _ _ _ _ _ _ _) as [m1| |] eqn:So; try discriminate. cbn [bind].
  destruct (find_last is_el sp) as [e|] eqn:Fe; [|discriminate]. destruct (find_last is_ion sp) as [i|] eqn:Fi; [|discriminate].
  destruct (collide _ _ _ _ _ _ _ _ _ _ _) as [[h2|]| |] eqn:Co; try discriminate. cbn [bind]. intros E. injection E as _ <-. unfold collide in Co. revert Co. apply list_slow.
  - intros k x y p J Ip. apply (in_all sp k). exact (proj1 (proj1 (round_in nr nz d0 d1 shuffle shuffles sp h m0 m1 So k x y p J) Ip)).
  - intros []; apply heavy; eapply find_last_in; eassumption.
  - intros x y J. exact (colliding_inner _ _ _ _ _ _ _ _ _ _ J).
Qed.
End Collisions.
Lemma sk98_slow c eps0 hbar mnzl step (mass charge : kind -> R) a b pa pb na nb db d : (0 < c)%R -> (forall k, 0 < mass k)%R -> subluminal c (velocity pa) -> subluminal c (velocity pb) ->
  match sk98 c eps0 hbar mnzl step mass charge a b pa pb na nb db d with Pair u v => slow_update c u /\ slow_update c v | Died => True end.
Proof.
  intros Hc M Sa Sb. unfold sk98.
  destruct (C54_partial c eps0 hbar mnzl step (mass a) (mass b) (charge a) (charge b) pa pb na nb db (fst d) (snd d) Hc (M a) (M b) Sa Sb) as [E|[(va & vb & E & _ & A & B)|[E _]]]; rewrite E; cbn; auto.
Qed.
Lemma zero_slow c : (0 < c)%R -> subluminal c (V3 0 0 0).
Proof. intros Hc. unfold subluminal, len2. cbn. nra. Qed.
Lemma p12_slow c eps0 hbar mnzl lim step (mass charge : kind -> R) a b pa pb na nb db d : (0 < c)%R -> (forall k, 0 < mass k)%R -> subluminal c (velocity pa) -> subluminal c (velocity pb) ->
  match p12 c eps0 hbar mnzl lim step mass charge a b pa pb na nb db d with Pair u v => slow_update c u /\ slow_update c v | Died => True end.
Proof.
  intros Hc M Sa Sb. unfold p12, p12_single, p12_prime. destruct d as [[u phi] U]. cbv zeta. assert (Z := zero_slow c Hc).
  destruct (PushModel.rlt 1 (CollOpModel.weight pa / CollOpModel.weight pb)).
  - destruct (p12_cases c eps0 hbar mnzl lim step Hc (charge b) (charge a) nb na db u phi (mass b) (mass a) _ _ (M b) (M a) Sb Sa) as [E|[(va & vb & E & _ & A & B)|[E _]]]; rewrite E; cbn [slow_update]; auto;
      destruct (PushModel.rlt U (CollOpModel.weight pa)), (PushModel.rlt U (CollOpModel.weight pb)); cbn [set_opt slow_update]; auto.
  - destruct (p12_cases c eps0 hbar mnzl lim step Hc (charge a) (charge b) na nb db u phi (mass a) (mass b) _ _ (M a) (M b) Sa Sb) as [E|[(va & vb & E & _ & A & B)|[E _]]]; rewrite E; cbn [slow_update]; auto;
      destruct (PushModel.rlt U (CollOpModel.weight pa)), (PushModel.rlt U (CollOpModel.weight pb)); cbn [set_opt slow_update]; auto.
Qed.
Section Relativistic.
Variable info : Z -> string * R * R.
Hypothesis heavy : forall sid, (0 < snd (fst (info sid)))%R.
Variable stored : Z -> Z -> nat -> Z * Z.
Variables (nr nz d0 d1 : Z -> Z -> Z) (dr dz ev c : R).
Hypothesis Hc : (0 < c)%R.
Variable shuffle : Z -> Z -> kind -> Z -> Z -> list nat -> list nat.
Hypothesis Sh : forall i k kd x y l, Permutation (shuffle i k kd x y l) l.
Lemma pointers_heavy d : forall n s, In s (pointers info n d) -> (0 < sp_mass s)%R.
Proof using heavy.
  induction d as [|[sid l] d IH]; intros n s I; [destruct I|]. cbn [pointers fst snd] in I. assert (H := heavy sid). destruct (info sid) as [[nm ms] e]. destruct I as [<-|I]; [exact H|exact (IH _ _ I)].
Qed.
Lemma collided_slow (D : Type) (single : (kind -> R) -> (kind -> R) -> kind -> kind -> CollOpModel.part -> CollOpModel.part -> R -> R -> R -> D -> coll) draw :
  (forall mass charge a b pa pb na nb db d, (forall k, 0 < mass k)%R -> subluminal c (velocity pa) -> subluminal c (velocity pb) ->
    match single mass charge a b pa pb na nb db d with Pair u v => slow_update c u /\ slow_update c v | Died => True end) ->
  keeps_slow c (collided info stored nr nz d0 d1 dr dz ev false _ single draw shuffle).
Proof using heavy Sh.
  intros P i k d d' Co S. destruct (collided_heap info stored nr nz d0 d1 dr dz ev shuffle Sh _ _ _ _ _ _ _ _ Co) as (m0 & m & h & h' & E & H & H' & Pe).
  assert (Ev : everywhere (fun q => subluminal c (vel q)) d) by (revert S; apply every_impl; intros q; apply slower_vel).
  pose proof (proj1 (holds_in info h d (fun p => subluminal c (velocity p)) H) Ev) as Ev'.
  assert (X : everywhere (fun q => subluminal c (vel q)) d').
  { refine (proj2 (holds_in info h' d' (fun p => subluminal c (velocity p)) H') _). rewrite Pe.
    exact (phase_slow _ _ _ _ _ _ _ c _ single (draw i k) (shuffle i k) (Sh i k) (pointers info 0 d) (pointers_heavy d 0) (fun mass charge a b pa pb na nb db x y n => P mass charge a b pa pb na nb db _) m0 h m h' E Ev'). }
  revert X. apply every_impl. intros q. apply slower_vel.
Qed.
(** The relativistic operators, whatever the weights of the particles. *)
Theorem C162_sk98 : forall eps0 hbar mnzl step draw, keeps_slow c (collided info stored nr nz d0 d1 dr dz ev false _ (sk98 c eps0 hbar mnzl step) draw shuffle).
Proof using heavy Hc Sh. intros. apply collided_slow. intros. now apply sk98_slow. Qed.
Theorem C162_p12 : forall eps0 hbar mnzl lim step draw, keeps_slow c (collided info stored nr nz d0 d1 dr dz ev false _ (p12 c eps0 hbar mnzl lim step) draw shuffle).
Proof using heavy Hc Sh. intros. apply collided_slow. intros. now apply p12_slow. Qed.
End Relativistic.
Theorem C162_none : forall c, keeps_slow c (fun _ _ d d' => d' = d) /\ velocities_only (fun _ _ d d' => d' = d).
Proof.
  intros c. split; [intros i k d d' -> S; exact S|]. intros i k d d' ->. induction d as [|[sid l] d IH]; constructor; [|exact IH]. split; [reflexivity|].
  clear. cbn [snd]. induction l as [|q l IH]; constructor; [|exact IH]. exists (vel q). destruct q as [[] ? ?]. reflexivity.
Qed.

(** ** TA77S: an electron that is faster afterwards *)
(** the particles of ThmPhase.four have the speed 1 *)
Lemma four_speed p : len2 (velocity (cp_part (four p))) = 1%R.
Proof. destruct p as [|[|[|p]]]; cbn; unfold len2; cbn; ring. Qed.
Lemma sped_up : exists p q, correct_velocities 1 3 (V3 (-1) 0 0) (3 / 2) [Part 1 (V3 (3 / 5) 0 (4 / 5)); Part 2 (V3 (-6 / 5) 0 (3 / 5))] = [p; q] /\
  velocity p = V3 (- 1 / 3 + sqrt (50 / 41) * (6 / 5)) 0 (sqrt (50 / 41) * (2 / 15)).
Proof.
  unfold correct_velocities. cbv zeta. rewrite req_f by lra.
  set (mo := moment_tot 1 _). assert (Mo : mo = V3 (- 9 / 5) 0 2) by (unfold mo; cbn; unfold vadd, vscale; cbn; f_equal; field).
  set (en := energy_tot 1 _). assert (En : en = (23 / 10)%R) by (unfold en; cbn; unfold len2; cbn; field). rewrite Mo, En. clear mo en Mo En.
  unfold vscale, vsub, vadd, len2. cbn [vx vy vz].
  match goal with |- context [normal_quot ?a ?b] => replace a with (4 / 3)%R by field; replace b with (82 / 75)%R by field end.
  rewrite normal_quot_t by lra. replace (4 / 3 / (82 / 75))%R with (50 / 41)%R by field. rewrite rlt_f by lra. rewrite req_f by lra.
  generalize (sqrt (50 / 41)). intros al. eexists _, _. split; [reflexivity|]. cbn [velocity vx vy vz]. f_equal; field.
Qed.
Lemma sped_len : (1002 / 1000 * (1002 / 1000) < len2 (V3 (- 1 / 3 + sqrt (50 / 41) * (6 / 5)) 0 (sqrt (50 / 41) * (2 / 15))))%R.
Proof.
  unfold len2. cbn [vx vy vz]. assert (S : (sqrt (50 / 41) * sqrt (50 / 41) = 50 / 41)%R) by (apply sqrt_sqrt; lra).
  assert (P := sqrt_pos (50 / 41)). set (s := sqrt (50 / 41)) in *. clearbody s. assert (U : (s <= 11044 / 10000)%R) by nra. nra.
Qed.
(** All particles are slower than 1.002, and after the phase one of them is faster *)
Theorem C162_ta77s_refuted : exists m h', phase 1 1 0 0 1 1 1 true ta77 draws keep_order plasma nothing four = Ok (Some (m, h')) /\
  (forall p, In p (all_ptrs plasma) -> subluminal (1002 / 1000) (velocity (cp_part (four p)))) /\
  exists p, In p (all_ptrs plasma) /\ (1002 / 1000 * (1002 / 1000) < len2 (velocity (cp_part (h' p))))%R.
Proof.
  destruct sorted_plasma as (m1 & So & Le & Li). set (m := random_sort 1 1 keep_order m1).
  assert (Me : m El 0 0 = [0; 1]%nat) by exact Le. assert (Mi : m Ion 0 0 = [2; 3]%nat) by exact Li.
  destruct (four_collide m Me Mi (per_kind (-1)%R 1%R)) as (h1 & C & H0 & H1 & H2 & H3).
  assert (N : NoDup (all_ptrs plasma)) by (cbn; repeat constructor; cbn; intuition lia).
  assert (Sep := round_separate 1 1 0 0 keep_order keep_permutes plasma four nothing m1 N So). fold m in Sep.
  exists m, (correct 1 1 (per_kind 1%R 1%R) m four h1). split; [|split].
  - unfold phase. rewrite So. cbn [bind]. change (find_last is_el plasma) with (Some (Specie "Electrons" 1 (-1) [0; 1]%nat)).
    change (find_last is_ion plasma) with (Some (Specie "ions" 1 1 [2; 3]%nat)). cbn [sp_mass sp_charge]. fold m. rewrite C. reflexivity.
  - intros p _. unfold subluminal. rewrite four_speed. lra.
  - exists 0%nat. split; [now left|].
    destruct (correct_spec 1 1 (per_kind 1%R 1%R) m four h1 Sep) as (_ & _ & P). specialize (P El 0 0 eq_refl). rewrite Me in P. unfold fixed_list in P. cbv zeta in P.
    assert (A : amount_tot (parts four [0; 1]%nat) = 3%R) by (cbn; ring). assert (B : moment_tot (per_kind 1%R 1%R El) (parts four [0; 1]%nat) = V3 (-1) 0 0).
    { cbn. unfold vadd, vscale. cbn. f_equal; ring. }
    assert (E : energy_tot (per_kind 1%R 1%R El) (parts four [0; 1]%nat) = (3 / 2)%R) by (cbn; unfold len2; cbn; field).
    rewrite A, B, E in P. unfold parts in P at 2. cbn [map] in P. rewrite H0, H1 in P. cbn [per_kind] in P.
    destruct sped_up as (x & y & F & G). rewrite F in P. unfold parts in P. cbn [map] in P. injection P as P _. rewrite P, G. exact sped_len.
Qed.

(** ** an electron and an ion, pushed, colliding and flying *)
Definition boris1 (sid : Z) : v3 -> v3 -> v3 -> outcome v3 := boris_relativistic 1 (-1) 1.
Definition lance : beam := {| b_start := 0; b_length := 1; b_distance := 0; b_velocity := / 2; b_radius := 2; b_bunches := 1; b_macro := 2 |}.
Definition lances (sid : Z) : option (beam * R) := Some (lance, 1%R).
Definition empty8 : yee := mkYee (sz3 8 0) (sz3 8 0) (sz3 8 0).
Definition g88 : ParticleModel.geo := domain_geo {| nr := 8; nz := 8; rd_ := 1; zd_ := 1 |} 1 1 0 0.
Lemma unpushed v : subluminal 1 v -> boris1 0 ThmPush.zero3 ThmPush.zero3 v = Ok v.
Proof.
  intros S. destruct (C72_electric 1 (-1) 1 ThmPush.zero3 v ltac:(lra) S) as ((v' & E & S' & M) & _). unfold boris1. rewrite E. f_equal.
  apply (mom_inj 1 ltac:(lra)); try assumption. rewrite M. unfold vadd, vscale, ThmPush.zero3. destruct (mom 1 v). cbn. f_equal; ring.
Qed.
Lemma no_field r z : ThmExt.inside geo8 r z -> fields_at geo8 empty8 None r z ThmPush.zero3 ThmPush.zero3.
Proof.
  intros I. assert (F : fits3 8 8 (sz3 8 0)) by (intros []; apply sz_fits; lia). assert (Z : forall x y, lv (sz 8 0) x y = 0%R) by reflexivity.
  assert (Z4 : forall p, ThmExt.sum4 (ThmExt.four geo8 (lv (sz 8 0)) r p) = 0%R /\ ThmExt.last4 (ThmExt.four geo8 (lv (sz 8 0)) r p) = 0%R) by (intros p; apply ThmExt.four_zero, Z).
  exists (0, 0, 0)%R, (0, 0, 0)%R. split; [|split; [|split; reflexivity]].
  - change (y_e empty8) with (sz3 8 0). rewrite (ThmExt.get_field_e_eq geo8 _ _ _ F I). cbn [empty8 y_e sz3 c_r c_phi c_z]. rewrite !(fun p => proj1 (Z4 p)), !(fun p => proj2 (Z4 p)). do 2 f_equal; [f_equal|]; ring.
  - change (y_h empty8) with (sz3 8 0). rewrite (ThmExt.get_field_h_eq geo8 _ _ _ F I). cbn [empty8 y_h sz3 c_r c_phi c_z]. rewrite !(fun p => proj1 (Z4 p)). reflexivity.
Qed.
Example C162_ex : relativistic 1 1 boris1 /\ (forall sid b n, lances sid = Some (b, n) -> (Rabs (b_velocity b) < 1)%R) /\ velocities_only clash /\ keeps_slow 1 clash /\
  everywhere (slower 1) two_kinds /\
  exists d', advance_domain boris1 lances (off_the_axis (YeeModel.g_dt geo8) clash) geo8 g88 empty8 None 0 0 two_kinds d' /\ map (fun s => map old_r (snd s)) d' = [[5 / 4]; [5 / 4]]%R.
Proof.
  split; [exists (fun _ => (-1)%R); intros sid; left; reflexivity|]. split.
  { intros sid b n E. injection E as <- _. cbn. rewrite Rabs_pos_eq; lra. }
  split; [apply C161_velocities|].
  assert (Ks : keeps_slow 1 clash).
  { apply C162_sk98; [|lra|intros; apply Permutation_refl]. intros sid. unfold names. destruct (sid =? 5); cbn; lra. }
  split; [exact Ks|].
  destruct C161_ex as (_ & Ev & d2 & Co & Ne & Ms). assert (Sl : everywhere (slower 1) two_kinds) by (revert Ev; apply every_impl; intros q [H _]; apply slower_vel; exact H).
  split; [exact Sl|].
  set (fly := fun q => mkPt (back_velocity (beam_reflect g88 (back_position (ParticleModel.mover 1 (now q))))) (pos_r (now q)) (pos_z (now q))).
  exists (map (fun s => (fst s, map fly (snd s))) d2). split.
  - exists two_kinds, d2. split; [|split; [split; [exact Co|exact Ms]|]].
    + assert (K : forall sid v, subluminal 1 v -> kicked boris1 geo8 empty8 None sid (thrown v) (thrown v)).
      { intros sid v Sv. exists ThmPush.zero3, ThmPush.zero3, v. split; [apply no_field; unfold ThmExt.inside; cbn; repeat split; (lia || lra)|]. split; [|reflexivity].
        cbn [thrown now vel_r vel_phi vel_z]. destruct v as [a b c]. cbn [vx vy vz]. now apply unpushed. }
      repeat constructor; apply K; [exact fast_slow|exact back_slow].
    + clear. unfold each. induction d2 as [|[sid l] d IH]; constructor; [|exact IH]. split; [reflexivity|]. cbn [snd fst]. induction l as [|q l IHl]; constructor; [|exact IHl].
      split; [|split; reflexivity]. reflexivity.
  - assert (V := C161_velocities names corner one one zero zero 1 1 1 (fun _ _ => keep_order) false _ (sk98 1 1 1 (1 / 10 ^ 15) 1) (fun _ _ => steady) 0 0 two_kinds d2 Co).
    unfold two_kinds in V. inversion V as [|? [s1 l1] ? d3 [_ F1] V1]; subst. inversion V1 as [|? [s2 l2] ? d4 [_ F2] V2]; subst. inversion V2; subst. cbn [snd] in F1, F2.
    inversion F1 as [|? q1 ? l3 (v1 & ->) G1]; subst. inversion G1; subst. inversion F2 as [|? q2 ? l4 (v2 & ->) G2]; subst. inversion G2; subst. reflexivity.
Qed.

Print Assumptions C162_run.
Print Assumptions C162_sk98.
Print Assumptions C162_p12.
Print Assumptions C162_none.
Print Assumptions C162_ta77s_refuted.
Print Assumptions C162_ex.
