(** C161: the collisions of a round of the main loop. *)
From Coq Require Import ZifyBool Reals Lra Psatz Permutation String FunctionalExtensionality.
From Verif Require Import Base RndUtil PushModel CollModel CollOpModel CollPhaseModel CollPhaseProofs ThmPush ThmColl ThmColl2 CollOpProofs ThmColl3 ThmPhase ThmPhase2
  DecompModel CollectorModel ListUtil ParticleModel ParticleProofs StepModel ThmParticle YeeModel BeamModel RoundModel RoundProofs ThmRound ThmRoundGauss FullModel ThmFull CollRoundModel.
Open Scope Z_scope.

(** ** specification: sums over all particles of all species of a domain, with the mass of the species *)
Definition sum_all (mass : Z -> R) (f : R -> R -> v3 -> R) (d : domain pt) : R :=
  fold_right (fun s acc => fold_right (fun q acc => f (mass (fst s)) (ParticleModel.weight (now q)) (vel q) + acc) 0 (snd s) + acc)%R 0%R d.
(** momentum and energy (over c) of the macro particles *)
Definition all_momentum (c : R) (mass : Z -> R) (d : domain pt) : v3 :=
  V3 (sum_all mass (fun m w v => w * vx (lab_momentum c m v))%R d) (sum_all mass (fun m w v => w * vy (lab_momentum c m v))%R d) (sum_all mass (fun m w v => w * vz (lab_momentum c m v))%R d).
Definition all_energy (c : R) (mass : Z -> R) (d : domain pt) : R := sum_all mass (fun m w v => w * lab_energy c m v)%R d.
Definition everywhere (P : pt -> Prop) (d : domain pt) : Prop := Forall (fun s => Forall P (snd s)) d.

(** there are electrons and ions, and all other species have their masses (see C128_beam_refuted) *)
Definition masses_fit (info : Z -> string * R * R) (d : domain pt) : Prop := exists e i,
  find_last is_el (pointers info 0 d) = Some e /\ find_last is_ion (pointers info 0 d) = Some i /\ (0 < sp_mass e)%R /\ (0 < sp_mass i)%R /\
  forall s, In s (pointers info 0 d) -> sp_mass s = if is_ion s then sp_mass i else sp_mass e.
(** the way does not end on the axis *)
Definition misses_axis (dt : R) (q : pt) : Prop := off_axis (ParticleModel.mover dt (now q)).

(** ** the pointers *)
Section Pointers.
Variable info : Z -> string * R * R.
Let mass (sid : Z) : R := snd (fst (info sid)).
Lemma pointers_all d : forall n, all_ptrs (pointers info n d) = seq n (List.length (flat_map snd d)).
Proof using.
  induction d as [|s d IH]; intros n; [reflexivity|]. cbn [pointers flat_map]. destruct (info (fst s)) as [[nm m] e]. unfold all_ptrs in *. cbn [flat_map sp_ptrs].
  rewrite IH, app_length, seq_app. reflexivity.
Qed.
Lemma pointers_nodup d n : NoDup (all_ptrs (pointers info n d)).
Proof using. rewrite pointers_all. apply seq_NoDup. Qed.
(** the pointers hold the particles of the domain *)
Definition holds (h : heap) (n : nat) (l : list pt) : Prop :=
  forall j q, nth_error l j = Some q -> cp_part (h (n + j)%nat) = Part (ParticleModel.weight (now q)) (vel q).
Lemma holds_heap rest c l : holds (heap_of rest c l) 0 l.
Proof using. intros j q E. unfold heap_of. cbn [Nat.add]. now rewrite E. Qed.
Lemma holds_app h n l m : holds h n (l ++ m) -> holds h n l /\ holds h (n + List.length l) m.
Proof using.
  intros H. split; intros j q E.
  - apply H. rewrite nth_error_app1; [exact E|]. apply nth_error_Some. congruence.
  - replace (n + List.length l + j)%nat with (n + (List.length l + j))%nat by lia. apply H. rewrite nth_error_app2 by lia. now replace (List.length l + j - List.length l)%nat with j by lia.
Qed.
Lemma total_list f h l : forall n, holds h n l ->
  fold_right (fun p acc => f (cp_part (h p)) + acc)%R 0%R (seq n (List.length l)) = fold_right (fun q acc => f (Part (ParticleModel.weight (now q)) (vel q)) + acc)%R 0%R l.
Proof using.
  induction l as [|q l IH]; intros n H; [reflexivity|]. cbn [List.length seq fold_right]. rewrite IH.
  - f_equal. f_equal. rewrite <- (Nat.add_0_r n). now apply H.
  - intros j x E. replace (S n + j)%nat with (n + S j)%nat by lia. now apply H.
Qed.
Lemma total_all f h d : forall n, holds h n (flat_map snd d) ->
  ThmPhase.total f h (pointers info n d) = sum_all mass (fun m w v => f m (Part w v)) d.
Proof using.
  induction d as [|s d IH]; intros n H; [reflexivity|]. cbn [flat_map] in H. apply holds_app in H as [H1 H2]. cbn [pointers].
  destruct (info (fst s)) as [[nm m] e] eqn:E. unfold ThmPhase.total, sum_all in *. cbn [fold_right sp_mass sp_ptrs]. rewrite (IH _ H2), (total_list (f m) h _ n H1).
  unfold mass at 2. rewrite E. reflexivity.
Qed.
Lemma reread_length h l : forall n, List.length (reread h n l) = List.length l.
Proof using. induction l as [|q l IH]; intros n; [reflexivity|]. cbn. now rewrite IH. Qed.
Lemma reread_nth h l : forall n j q, nth_error l j = Some q -> nth_error (reread h n l) j = Some (mkPt (set_vel (now q) (velocity (cp_part (h (n + j)%nat)))) (old_r q) (old_z q)).
Proof using.
  induction l as [|x l IH]; intros n [|j] q E; try discriminate; cbn in *.
  - injection E as ->. now rewrite Nat.add_0_r.
  - rewrite (IH _ _ _ E). now replace (n + S j)%nat with (S n + j)%nat by lia.
Qed.
Lemma reread_flat h d : forall n, flat_map snd (reread_all h n d) = reread h n (flat_map snd d).
Proof using.
  assert (A : forall l m n, reread h n (l ++ m) = reread h n l ++ reread h (n + List.length l) m).
  { induction l as [|q l IH]; intros m n; [now rewrite Nat.add_0_r|]. cbn. rewrite IH. do 3 f_equal. lia. }
  induction d as [|s d IH]; intros n; [reflexivity|]. cbn [reread_all flat_map snd]. now rewrite IH, A.
Qed.
Lemma pointers_reread h d : forall n k, pointers info k (reread_all h n d) = pointers info k d.
Proof using.
  induction d as [|s d IH]; intros n k; [reflexivity|]. cbn [reread_all pointers fst snd]. now rewrite reread_length, IH.
Qed.
Lemma reread_holds h h' l n : holds h n l -> (forall p, CollOpModel.weight (cp_part (h' p)) = CollOpModel.weight (cp_part (h p))) -> holds h' n (reread h' n l).
Proof using.
  intros H W j q E. assert (L : (j < List.length (reread h' n l))%nat) by (apply nth_error_Some; congruence). rewrite reread_length in L. apply nth_error_Some in L.
  destruct (nth_error l j) as [x|] eqn:X; [|congruence]. rewrite (reread_nth h' l n j x X) in E. injection E as <-. specialize (H j x X). specialize (W (n + j)%nat). rewrite H in W.
  cbn [now set_vel vel vel_r vel_phi vel_z ParticleModel.weight CollOpModel.weight] in *. unfold vel. cbn [now set_vel vel_r vel_phi vel_z]. rewrite <- W.
  destruct (cp_part (h' (n + j)%nat)) as [w [a b c]]. reflexivity.
Qed.
Lemma reread_struck h l : forall n, Forall2 struck l (reread h n l).
Proof using. induction l as [|q l IH]; intros n; constructor; [|apply IH]. eexists. reflexivity. Qed.
Lemma reread_all_struck h d : forall n, Forall2 (fun s s' => fst s = fst s' /\ Forall2 struck (snd s) (snd s')) d (reread_all h n d).
Proof using. induction d as [|s d IH]; intros n; constructor; [|apply IH]. split; [reflexivity|apply reread_struck]. Qed.
Lemma holds_in h d P : holds h 0 (flat_map snd d) -> (everywhere (fun q => P (Part (ParticleModel.weight (now q)) (vel q))) d <-> forall p, In p (all_ptrs (pointers info 0 d)) -> P (cp_part (h p))).
Proof using.
  intros H. rewrite pointers_all. unfold everywhere. split.
  - intros F p I. apply in_seq in I. destruct (nth_error (flat_map snd d) p) as [q|] eqn:E; [|apply nth_error_None in E; lia].
    specialize (H p q E). cbn in H. rewrite H. apply nth_error_In, in_flat_map in E as (s & Hs & Hq). rewrite Forall_forall in F. specialize (F s Hs). rewrite Forall_forall in F. now apply F.
  - intros F. apply Forall_forall. intros s Hs. apply Forall_forall. intros q Hq. assert (X : In q (flat_map snd d)) by (apply in_flat_map; eauto).
    apply In_nth_error in X as [j E]. rewrite <- (H j q E). apply F. apply in_seq. assert (j < List.length (flat_map snd d))%nat by (apply nth_error_Some; congruence). cbn. lia.
Qed.
End Pointers.

Section C161.
Variable info : Z -> string * R * R.
Let mass (sid : Z) : R := snd (fst (info sid)).
Variable stored : Z -> Z -> nat -> Z * Z.
Variables (nr nz d0 d1 : Z -> Z -> Z) (dr dz ev : R).
Variable shuffle : Z -> Z -> kind -> Z -> Z -> list nat -> list nat.
Hypothesis Sh : forall i k kd x y l, Permutation (shuffle i k kd x y l) l.

(** The collisions of the code, with any of the operators, are collisions as C159 and C160 have them. *)
Theorem C161_velocities : forall co (D : Type) (single : (kind -> R) -> (kind -> R) -> kind -> kind -> CollOpModel.part -> CollOpModel.part -> R -> R -> R -> D -> coll) draw,
  velocities_only (collided info stored nr nz d0 d1 dr dz ev co D single draw shuffle).
Proof using. intros co D single draw i k d d' (rest & m0 & m & h' & _ & ->). apply reread_all_struck. Qed.

(** One domain: what the phase says about the particles *)
Lemma collided_heap co (D : Type) (single : (kind -> R) -> (kind -> R) -> kind -> kind -> CollOpModel.part -> CollOpModel.part -> R -> R -> R -> D -> coll) draw i k d d' :
  collided info stored nr nz d0 d1 dr dz ev co D single draw shuffle i k d d' -> exists m0 m h h',
  phase (nr i k) (nz i k) (d0 i k) (d1 i k) dr dz ev co single (draw i k) (shuffle i k) (pointers info 0 d) m0 h = Ok (Some (m, h')) /\
  holds h 0 (flat_map snd d) /\ holds h' 0 (flat_map snd d') /\ pointers info 0 d' = pointers info 0 d.
Proof using Sh.
  intros (rest & m0 & m & h' & E & ->). exists m0, m, (heap_of rest (stored i k) (flat_map snd d)), h'. split; [exact E|]. split; [apply holds_heap|].
  destruct (C128_velocities _ _ _ _ _ _ _ _ _ _ _ _ _ _ _ _ _ (Sh i k) (pointers_nodup info d 0) E) as [V _].
  split; [|apply pointers_reread]. rewrite reread_flat. apply (reread_holds (heap_of rest (stored i k) (flat_map snd d))); [apply holds_heap|]. intros p. now apply V.
Qed.
Lemma conserved_pts c h h' d d' : holds h 0 (flat_map snd d) -> holds h' 0 (flat_map snd d') -> pointers info 0 d' = pointers info 0 d ->
  rel_momentum c h' (pointers info 0 d) = rel_momentum c h (pointers info 0 d) /\ rel_energy c h' (pointers info 0 d) = rel_energy c h (pointers info 0 d) ->
  all_momentum c mass d' = all_momentum c mass d /\ all_energy c mass d' = all_energy c mass d.
Proof using.
  intros H H' E [A B]. assert (T := fun f => total_all info f h d 0%nat H). assert (T' := fun f => total_all info f h' d' 0%nat H'). cbv beta in T'. 
  assert (T1 : forall f, ThmPhase.total f h' (pointers info 0 d) = sum_all mass (fun m w v => f m (Part w v)) d') by (intros f; rewrite <- E; apply T').
  unfold rel_momentum, rel_energy in A, B. rewrite !T1, !T in A. rewrite T1, T in B. split; assumption.
Qed.

(** SK98 and P12: the particles of a domain keep their momentum and their energy.  Missing: particles of different weights (C129). *)
Theorem C161_sk98_partial : forall c eps0 hbar mnzl step draw i k d d' w, (0 <= d0 i k) -> (0 < dr)%R -> (0 < dz)%R -> (0 < w)%R -> (0 < c)%R -> masses_fit info d ->
  everywhere (fun q => subluminal c (vel q) /\ ParticleModel.weight (now q) = w) d ->
  collided info stored nr nz d0 d1 dr dz ev false _ (sk98 c eps0 hbar mnzl step) draw shuffle i k d d' ->
  everywhere (fun q => subluminal c (vel q)) d' /\ all_momentum c mass d' = all_momentum c mass d /\ all_energy c mass d' = all_energy c mass d.
Proof using Sh.
  intros c eps0 hbar mnzl step draw i k d d' w Hd0 Hdr Hdz Hw Hc (e & io & Fe & Fi & Me & Mi & Ms) Ev Co.
  destruct (collided_heap _ _ _ _ _ _ _ _ Co) as (m0 & m & h & h' & E & H & H' & Pe).
  pose proof (proj1 (holds_in info h d (fun p => subluminal c (velocity p) /\ CollOpModel.weight p = w) H) Ev) as Ev'. clear Ev. rename Ev' into Ev.
  destruct (C129_sk98_partial (nr i k) (nz i k) (d0 i k) (d1 i k) dr dz ev c eps0 hbar mnzl step (draw i k) (shuffle i k) (pointers info 0 d) e io m0 h w
    (Sh i k) (pointers_nodup info d 0) Fe Fi Me Mi Hd0 Hdr Hdz Hw Hc Ev) as [_ C]. destruct (C m h' E) as [S1 S2].
  split; [|exact (conserved_pts c h h' d d' H H' Pe (S2 Ms))]. refine (proj2 (holds_in info h' d' (fun p => subluminal c (velocity p)) H') _). rewrite Pe. exact S1.
Qed.
Theorem C161_p12_partial : forall c eps0 hbar mnzl lim step draw i k d d' w, (0 <= d0 i k) -> (0 < dr)%R -> (0 < dz)%R -> (1 <= w)%R -> (0 < c)%R -> (forall x y n, snd (draw i k x y n) < 1)%R -> masses_fit info d ->
  everywhere (fun q => subluminal c (vel q) /\ ParticleModel.weight (now q) = w) d ->
  collided info stored nr nz d0 d1 dr dz ev false _ (p12 c eps0 hbar mnzl lim step) draw shuffle i k d d' ->
  everywhere (fun q => subluminal c (vel q)) d' /\ all_momentum c mass d' = all_momentum c mass d /\ all_energy c mass d' = all_energy c mass d.
Proof using Sh.
  intros c eps0 hbar mnzl lim step draw i k d d' w Hd0 Hdr Hdz Hw Hc Hdw (e & io & Fe & Fi & Me & Mi & Ms) Ev Co.
  destruct (collided_heap _ _ _ _ _ _ _ _ Co) as (m0 & m & h & h' & E & H & H' & Pe).
  pose proof (proj1 (holds_in info h d (fun p => subluminal c (velocity p) /\ CollOpModel.weight p = w) H) Ev) as Ev'. clear Ev. rename Ev' into Ev.
  destruct (C129_p12_partial (nr i k) (nz i k) (d0 i k) (d1 i k) dr dz ev c eps0 hbar mnzl lim step (draw i k) (shuffle i k) (pointers info 0 d) e io m0 h w
    (Sh i k) (pointers_nodup info d 0) Fe Fi Me Mi Hd0 Hdr Hdz Hw Hc Hdw Ev) as [_ C]. destruct (C m h' E) as [S1 S2].
  split; [|exact (conserved_pts c h h' d d' H H' Pe (S2 Ms))]. refine (proj2 (holds_in info h' d' (fun p => subluminal c (velocity p)) H') _). rewrite Pe. exact S1.
Qed.
End C161.

(** ** the flight *)
Definition len (q : pt) : R := len2 (vel q).
Lemma loop_speed G fuel : forall pr pz vr vz pr' pz' vr' vz', refl_loop G fuel (pr, pz, vr, vz) = Some (pr', pz', vr', vz') -> (vr' * vr' = vr * vr /\ vz' * vz' = vz * vz)%R.
Proof.
  induction fuel as [|f IH]; intros pr pz vr vz pr' pz' vr' vz' E; cbn [refl_loop] in E; destruct (_ && _); try discriminate; try (injection E as <- <- <- <-; auto).
  destruct (refl_pass G (pr, pz, vr, vz)) as [[[a b] c] d] eqn:Ps. destruct (IH _ _ _ _ _ _ _ _ E) as [A B]. rewrite A, B. clear - Ps.
  unfold refl_pass, refl_rr, refl_zz, refl_r0, refl_z0 in Ps. repeat (match type of Ps with context [if ?x then _ else _] => destruct x end); injection Ps as _ _ <- <-; split; ring.
Qed.
Lemma back_speed q p : off_axis q -> p_sin p = (pos_phi q / dist q)%R ->
  len2 (V3 (vel_r (back_velocity p)) (vel_phi (back_velocity p)) (vel_z (back_velocity p))) = len2 (V3 (vel_r p) (vel_phi p) (vel_z p)).
Proof.
  intros H S. unfold len2, back_velocity. cbn [vx vy vz vel_r vel_phi vel_z]. rewrite S.
  set (s := (pos_phi q / dist q)%R). assert (Q : (0 <= 1 - s * s)%R).
  { pose proof (dist_pos q H) as P. pose proof (dist_sqr q) as D. assert (E : (s * s = pos_phi q ^ 2 / (dist q * dist q))%R) by (unfold s; field; lra). rewrite E.
    assert (0 < dist q * dist q)%R by nra. apply Rle_trans with ((dist q * dist q - pos_phi q ^ 2) / (dist q * dist q))%R; [|right; field; lra].
    apply Rmult_le_pos; [|left; now apply Rinv_0_lt_compat]. assert (Z := pow2_ge_0 (pos_r q)). lra. }
  pose proof (sqrt_sqrt _ Q) as C. set (c := sqrt (1 - s * s)) in *.
  replace ((c * vel_r p - s * vel_phi p) * (c * vel_r p - s * vel_phi p) + (s * vel_r p + c * vel_phi p) * (s * vel_r p + c * vel_phi p) + vel_z p * vel_z p)%R
    with ((c * c + s * s) * (vel_r p * vel_r p + vel_phi p * vel_phi p) + vel_z p * vel_z p)%R by ring. rewrite C. ring.
Qed.
Lemma flown_speed beams h G sid q q' : misses_axis (YeeModel.g_dt h) q -> flown beams h G sid q q' -> len q' = len q /\ ParticleModel.weight (now q') = ParticleModel.weight (now q).
Proof.
  intros Ms Fl. destruct (flown_remembers beams h G sid q q' Fl) as (W & _ & _). split; [|exact W]. destruct Fl as (M & _ & _).
  unfold len, vel. set (p0 := ParticleModel.mover (YeeModel.g_dt h) (now q)) in *. 
  assert (X : p_sin (back_position p0) = (pos_phi p0 / dist p0)%R) by (unfold back_position; cbn [p_sin]; now rewrite back_dist).
  change (len2 (V3 (vel_r (now q)) (vel_phi (now q)) (vel_z (now q)))) with (len2 (V3 (vel_r p0) (vel_phi p0) (vel_z p0))). destruct (beams sid) as [bn|].
  - rewrite M. rewrite (back_speed p0).
    + unfold beam_reflect. destruct (_ && _); unfold len2; cbn [vx vy vz vel_r vel_phi vel_z back_position]; ring.
    + exact Ms.
    + unfold beam_reflect. destruct (_ && _); exact X.
  - destruct M as [n M]. specialize (M n ltac:(lia)). unfold advance in M. fold p0 in M. destruct (reflect G n (back_position p0)) as [p1|] eqn:E; [|discriminate]. injection M as <-.
    unfold reflect in E. destruct (refl_loop G n _) as [[[[a b] c] d]|] eqn:L; [|discriminate]. injection E as <-. apply loop_speed in L as [A B].
    rewrite (back_speed p0); [|exact Ms|exact X].
    unfold len2. cbn [vx vy vz vel_r vel_phi vel_z back_position] in *. rewrite A, B. reflexivity.
Qed.
(** any sum of a function of the weight and the speed *)
Lemma sums_of_speed mass (P : Z -> pt -> pt -> Prop) f d d' : (forall m w v v', len2 v = len2 v' -> f m w v = f m w v') ->
  (forall sid q q', P sid q q' -> len q' = len q /\ ParticleModel.weight (now q') = ParticleModel.weight (now q)) -> each P d d' -> sum_all mass f d' = sum_all mass f d.
Proof.
  intros Hf HP. induction 1 as [|s s' d d' [E F] _ IH]; [reflexivity|]. unfold sum_all in *. cbn [fold_right]. rewrite IH. f_equal. rewrite <- E.
  clear - Hf HP F. induction F as [|q q' l l' Hq _ IH]; [reflexivity|]. cbn [fold_right]. rewrite IH. f_equal. destruct (HP _ _ _ Hq) as [A B]. rewrite B. now apply Hf.
Qed.
Lemma each_and (P : Z -> pt -> pt -> Prop) Q d d' : each P d d' -> everywhere Q d -> each (fun sid q q' => Q q /\ P sid q q') d d'.
Proof.
  intros F. induction F as [|s s' d d' [E G] _ IH]; intros Ev; inversion Ev; subst; constructor; [|now apply IH]. split; [exact E|].
  clear - G H1. induction G as [|q q' l l' Hq _ IH]; inversion H1; subst; constructor; auto.
Qed.
Lemma energy_speed c m w v v' : len2 v = len2 v' -> (w * lab_energy c m v = w * lab_energy c m v')%R.
Proof. intros E. unfold lab_energy, gam. now rewrite E. Qed.

(** Only the push changes the energy of the particles of a domain in a round: the flight does not, the collisions do not. *)
Theorem C161_flight : forall pusher beams impulse h G y x i k d d', advance_domain pusher beams impulse h G y x i k d d' ->
  exists d1 d2, each (kicked pusher h y x) d d1 /\ impulse i k d1 d2 /\ each (flown beams h G) d2 d' /\
    forall c mass, everywhere (misses_axis (YeeModel.g_dt h)) d2 -> all_energy c mass d' = all_energy c mass d2.
Proof.
  intros pusher beams impulse h G y x i k d d' (e1 & e2 & K & Co & F). exists e1, e2. split; [exact K|]. split; [exact Co|]. split; [exact F|].
  intros c mass Ms. apply (sums_of_speed mass (fun sid q q' => misses_axis (YeeModel.g_dt h) q /\ flown beams h G sid q q')).
  - intros; now apply energy_speed.
  - intros sid q q' [A B]. exact (flown_speed _ _ _ _ _ _ A B).
  - now apply each_and.
Qed.
Theorem C161_round_partial : forall pusher beams info stored nr nz d0 d1 dr dz ev shuffle c eps0 hbar mnzl step draw h G y x i k d d' w,
  (forall i k kd a b l, Permutation (shuffle i k kd a b l) l) -> 0 <= d0 i k -> (0 < dr)%R -> (0 < dz)%R -> (0 < w)%R -> (0 < c)%R ->
  let mass := fun sid => snd (fst (info sid)) in
  advance_domain pusher beams (collided info stored nr nz d0 d1 dr dz ev false _ (sk98 c eps0 hbar mnzl step) draw shuffle) h G y x i k d d' ->
  exists d1 d2, each (kicked pusher h y x) d d1 /\ each (fun _ => struck) d1 d2 /\ each (flown beams h G) d2 d' /\
    (masses_fit info d1 -> everywhere (fun q => subluminal c (vel q) /\ ParticleModel.weight (now q) = w) d1 -> everywhere (misses_axis (YeeModel.g_dt h)) d2 ->
     all_momentum c mass d2 = all_momentum c mass d1 /\ all_energy c mass d' = all_energy c mass d1).
Proof.
  intros pusher beams info stored nr nz d0 d1 dr dz ev shuffle c eps0 hbar mnzl step draw h G y x i k d d' w Sh Hd0 Hdr Hdz Hw Hc mass Ad.
  destruct (C161_flight _ _ _ _ _ _ _ _ _ _ _ Ad) as (e1 & e2 & K & Co & F & En).
  exists e1, e2. split; [exact K|]. split; [exact (C161_velocities _ _ _ _ _ _ _ _ _ _ _ _ _ _ _ _ _ _ Co)|]. split; [exact F|].
  intros Mf Ev Ms. destruct (C161_sk98_partial info stored nr nz d0 d1 dr dz ev shuffle Sh c eps0 hbar mnzl step draw i k e1 e2 w Hd0 Hdr Hdz Hw Hc Mf Ev Co) as (_ & A & B).
  split; [exact A|]. unfold mass. etransitivity; [now apply En|exact B].
Qed.

Theorem C161_p12_round_partial : forall pusher beams info stored nr nz d0 d1 dr dz ev shuffle c eps0 hbar mnzl lim step draw h G y x i k d d' w,
  (forall i k kd a b l, Permutation (shuffle i k kd a b l) l) -> 0 <= d0 i k -> (0 < dr)%R -> (0 < dz)%R -> (1 <= w)%R -> (0 < c)%R -> (forall x y n, snd (draw i k x y n) < 1)%R ->
  let mass := fun sid => snd (fst (info sid)) in
  advance_domain pusher beams (collided info stored nr nz d0 d1 dr dz ev false _ (p12 c eps0 hbar mnzl lim step) draw shuffle) h G y x i k d d' ->
  exists d1 d2, each (kicked pusher h y x) d d1 /\ each (fun _ => struck) d1 d2 /\ each (flown beams h G) d2 d' /\
    (masses_fit info d1 -> everywhere (fun q => subluminal c (vel q) /\ ParticleModel.weight (now q) = w) d1 -> everywhere (misses_axis (YeeModel.g_dt h)) d2 ->
     all_momentum c mass d2 = all_momentum c mass d1 /\ all_energy c mass d' = all_energy c mass d1).
Proof.
  intros pusher beams info stored nr nz d0 d1 dr dz ev shuffle c eps0 hbar mnzl lim step draw h G y x i k d d' w Sh Hd0 Hdr Hdz Hw Hc Hdw mass Ad.
  destruct (C161_flight _ _ _ _ _ _ _ _ _ _ _ Ad) as (e1 & e2 & K & Co & F & En).
  exists e1, e2. split; [exact K|]. split; [exact (C161_velocities _ _ _ _ _ _ _ _ _ _ _ _ _ _ _ _ _ _ Co)|]. split; [exact F|].
  intros Mf Ev Ms. destruct (C161_p12_partial info stored nr nz d0 d1 dr dz ev shuffle Sh c eps0 hbar mnzl lim step draw i k e1 e2 w Hd0 Hdr Hdz Hw Hc Hdw Mf Ev Co) as (_ & A & B).
  split; [exact A|]. unfold mass. etransitivity; [now apply En|exact B].
Qed.

(** ** an electron and an ion that meet *)
Definition thrown (v : v3) : pt := mkPt {| pos_r := 5 / 4; pos_phi := 0; pos_z := 5 / 4; vel_r := vx v; vel_phi := vy v; vel_z := vz v; p_sin := 0; weight := 1 |} 0 0.
Definition two_kinds : domain pt := [(5, [thrown fast]); (6, [thrown back])].
Definition names (sid : Z) : string * R * R := if sid =? 5 then ("electrons"%string, 1, -1)%R else ("ions"%string, 2, 1)%R.
Definition corner (i k : Z) (n : nat) : Z * Z := (0, 0).
Definition one (i k : Z) : Z := 1.
Definition zero (i k : Z) : Z := 0.
Definition clash := collided names corner one one zero zero 1 1 1 false _ (sk98 1 1 1 (1 / 10 ^ 15) 1) (fun _ _ => steady) (fun _ _ => keep_order).
Example C161_ex : masses_fit names two_kinds /\ everywhere (fun q => subluminal 1 (vel q) /\ ParticleModel.weight (now q) = 1%R) two_kinds /\
  exists d', clash 0 0 two_kinds d' /\ d' <> two_kinds /\ everywhere (misses_axis 1) d'.
Proof.
  assert (Mf : masses_fit names two_kinds).
  { exists (Specie "electrons" 1 (-1) [0]%nat), (Specie "ions" 2 1 [1]%nat). split; [reflexivity|]. split; [reflexivity|]. cbn [sp_mass]. split; [lra|]. split; [lra|].
    intros s [<-|[<-|[]]]; reflexivity. }
  assert (Ev : everywhere (fun q => subluminal 1 (vel q) /\ ParticleModel.weight (now q) = 1%R) two_kinds).
  { repeat constructor; [exact fast_slow|exact back_slow]. }
  split; [exact Mf|]. split; [exact Ev|]. destruct (meet_result 1 1) as (m & va' & vb' & E & Co & Ny); [lra|].
  set (h' := set_velocity (set_velocity (meeting 1 1) 0 va') 1 vb') in *. exists (reread_all h' 0 two_kinds).
  assert (Cl : clash 0 0 two_kinds (reread_all h' 0 two_kinds)).
  { exists (meeting 1 1), nothing, m, h'. split; [|reflexivity]. unfold meet_round in E. rewrite <- E. f_equal. apply functional_extensionality. intros [|[|[|n]]]; reflexivity. }
  split; [exact Cl|]. split.
  - intros F. apply (f_equal (fun d => map vel (flat_map snd d))) in F. change (V3 (vx va') (vy va') (vz va') :: V3 (vx vb') (vy vb') (vz vb') :: nil = fast :: back :: nil) in F.
    injection F as F1 F2 F3 _ _ _. apply Ny. assert (va' = fast). { destruct va' as [a b e]. cbn [vx vy vz] in *. unfold fast in *. congruence. }
    subst va'. rewrite ex_momentum_a. reflexivity.
  - destruct (C161_sk98_partial names corner one one zero zero 1 1 1 (fun _ _ => keep_order) ltac:(intros; apply Permutation_refl) 1 1 1 (1 / 10 ^ 15) 1 (fun _ _ => steady) 0 0 two_kinds _ 1
      ltac:(unfold zero; lia) ltac:(lra) ltac:(lra) ltac:(lra) ltac:(lra) Mf Ev Cl) as (S1 & _ & _).
    clear - S1. unfold everywhere, two_kinds in *. cbn [reread_all reread snd] in *. inversion S1 as [|? ? A S2]; subst. inversion S2 as [|? ? B S3]; subst. inversion A as [|? ? A1 _]; subst. inversion B as [|? ? B1 _]; subst.
    assert (L : forall v, subluminal 1 v -> (0 < 5 / 4 + vx v)%R). { intros [a b e] H. unfold subluminal, len2 in H. cbn in *. nra. }
    constructor; [|constructor; [|constructor]]; (constructor; [|constructor]); left; [apply L in A1|apply L in B1]; cbn in *; lra.
Qed.
(** weights 1 and 2: the momentum of the domain changes *)
Definition heavier (q : pt) : pt := mkPt {| pos_r := pos_r (now q); pos_phi := pos_phi (now q); pos_z := pos_z (now q); vel_r := vel_r (now q); vel_phi := vel_phi (now q); vel_z := vel_z (now q);
  p_sin := p_sin (now q); weight := 2 |} (old_r q) (old_z q).
Definition two_weights : domain pt := [(5, [thrown fast]); (6, [heavier (thrown back)])].
Theorem C161_weights_refuted : exists d', masses_fit names two_weights /\ everywhere (fun q => subluminal 1 (vel q)) two_weights /\ clash 0 0 two_weights d' /\
  all_momentum 1 (fun sid => snd (fst (names sid))) d' <> all_momentum 1 (fun sid => snd (fst (names sid))) two_weights.
Proof.
  destruct (meet_result 1 2) as (m & va' & vb' & E & Co & Ny); [lra|]. set (h' := set_velocity (set_velocity (meeting 1 2) 0 va') 1 vb') in *.
  exists (reread_all h' 0 two_weights). split.
  { exists (Specie "electrons" 1 (-1) [0]%nat), (Specie "ions" 2 1 [1]%nat). split; [reflexivity|]. split; [reflexivity|]. cbn [sp_mass]. split; [lra|]. split; [lra|].
    intros s [<-|[<-|[]]]; reflexivity. }
  split; [repeat constructor; [exact fast_slow|exact back_slow]|]. split.
  { exists (meeting 1 2), nothing, m, h'. split; [|reflexivity]. unfold meet_round in E. rewrite <- E. f_equal. apply functional_extensionality. intros [|[|[|n]]]; reflexivity. }
  set (mass := fun sid => snd (fst (names sid))). intros F.
  assert (A : vy (all_momentum 1 mass (reread_all h' 0 two_weights)) = (vy (lab_momentum 1 1 va') + 2 * vy (lab_momentum 1 2 vb'))%R).
  { transitivity (1 * vy (lab_momentum 1 1 (V3 (vx va') (vy va') (vz va'))) + 0 + (2 * vy (lab_momentum 1 2 (V3 (vx vb') (vy vb') (vz vb'))) + 0 + 0))%R; [reflexivity|].
    assert (Eta : forall v, V3 (vx v) (vy v) (vz v) = v) by (intros []; reflexivity). rewrite !Eta. ring. }
  assert (B : vy (all_momentum 1 mass two_weights) = (vy (lab_momentum 1 1 fast) + 2 * vy (lab_momentum 1 2 back))%R).
  { transitivity (1 * vy (lab_momentum 1 1 fast) + 0 + (2 * vy (lab_momentum 1 2 back) + 0 + 0))%R; [reflexivity|ring]. }
  apply (f_equal vy) in F. rewrite A, B in F.
  assert (X := C83_change 1 1 2 1 2 fast back va' vb' Co). unfold macro_momentum in X. apply (f_equal vy) in X. revert X Ny F. unfold vadd, vsub, vscale. cbn [vy]. rewrite ex_momentum_a.
  cbn [vy]. generalize (vy (lab_momentum 1 1 va')) (vy (lab_momentum 1 2 vb')) (vy (lab_momentum 1 2 back)). intros. lra.
Qed.
Print Assumptions C161_velocities. Print Assumptions C161_sk98_partial. Print Assumptions C161_p12_partial. Print Assumptions C161_flight. Print Assumptions C161_round_partial. Print Assumptions C161_ex. Print Assumptions C161_p12_round_partial. Print Assumptions C161_weights_refuted.
