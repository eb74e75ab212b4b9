(** C177: the numbers of a run that tools/parse_metadata.py shows are those of the program. *)
From Coq Require Import Reals Lra String.
From Verif Require Import Base RndUtil PushModel TimeModel CheckModel BeamModel ThmBeam2 CfgModel ThmCfg PhysInfoModel.
Open Scope R_scope.

(** * The same run for the program and for the tool *)
Definition as_kind (s : specie) : kind := mkKind (sp_name s) (sp_left s) (sp_right s) (sp_temp s).
Definition as_bunches (b : beam) (n : R) : bunches := mkBunches (b_velocity b) n (INR (b_bunches b)) (b_length b) (b_radius b) (b_distance b).
(** the species have the names the tool knows: who is an electron or an ion for the program is one for the tool *)
Definition plainly_named (l : list specie) : Prop := forall s, In s l ->
  (is_electron s = true <-> lower (sp_name s) = "electrons"%string) /\ (is_ion s = true <-> lower (sp_name s) = "ions"%string).
(** the last of a list with a property *)
Fixpoint last_such {A} (p : A -> bool) (l : list A) : option A :=
  match l with [] => None | x :: l => match last_such p l with Some y => Some y | None => if p x then Some x else None end end.
Definition mean (s : specie) : R := (sp_left s + sp_right s) / 2.

Lemma last_such_last {A} (p : A -> bool) l x : last_such p (l ++ [x]) = if p x then Some x else last_such p l.
Proof. induction l as [|y l IH]; cbn. { now destruct (p x). } rewrite IH. now destruct (p x). Qed.
Lemma last_such_none {A} (p : A -> bool) l : last_such p l = None <-> forall x, In x l -> p x = false.
Proof.
  induction l as [|y l IH]; cbn. { split; [intros _ x []|reflexivity]. }
  destruct (last_such p l) as [z|].
  - split; [discriminate|]. intros H. assert (@None A = Some z) as N by (symmetry; apply IH; intros x I; apply H; now right). discriminate.
  - destruct (p y) eqn:E; split; intros H; try discriminate; try reflexivity.
    + rewrite H in E; [discriminate|now left].
    + intros x [<-|I]; [exact E|]. now apply IH.
Qed.
Lemma last_such_in {A} (p : A -> bool) l x : last_such p l = Some x -> In x l /\ p x = true.
Proof.
  induction l as [|y l IH]; cbn; [discriminate|]. destruct (last_such p l) as [z|].
  - intros [= ->]. destruct (IH eq_refl). auto.
  - destruct (p y) eqn:E; [|discriminate]. intros [= ->]. auto.
Qed.
Lemma last_such_ext {A} (p q : A -> bool) l : (forall x, In x l -> p x = q x) -> last_such p l = last_such q l.
Proof. induction l as [|y l IH]; cbn; intros H; [reflexivity|]. rewrite IH by auto. now rewrite (H y) by auto. Qed.

(** what the program finds *)
Lemma searched : forall l,
  (match last_such is_electron l with Some s => n_el (search l) = mean s /\ t_el (search l) = sp_temp s | None => n_el (search l) = 0 /\ t_el (search l) = 0 end) /\
  (match last_such is_ion l with Some s => n_ion (search l) = mean s /\ t_ion (search l) = sp_temp s | None => n_ion (search l) = 0 /\ t_ion (search l) = 0 end).
Proof.
  intros l. induction l as [|x l IH] using rev_ind; [cbn; auto|].
  rewrite !last_such_last. unfold search in *. rewrite fold_left_app. cbn [fold_left]. unfold look at 1 3 5 7 9 11 13 15.
  destruct IH as [I1 I2]. set (f := fold_left look l _) in *. 
  destruct (is_electron x), (is_ion x); cbn; unfold mean; split; auto; assumption.
Qed.
(** what the tool finds *)
Definition named_electrons (s : specie) : bool := (lower (sp_name s) =? "electrons")%string.
Definition named_ions (s : specie) : bool := (lower (sp_name s) =? "ions")%string.
Lemma visited : forall l, visit_all (map as_kind l) =
  mkLocals (option_map mean (last_such named_electrons l)) (option_map sp_temp (last_such named_electrons l))
           (option_map mean (last_such named_ions l)) (option_map sp_temp (last_such named_ions l)).
Proof.
  intros l. induction l as [|x l IH] using rev_ind; [reflexivity|].
  rewrite !last_such_last. unfold visit_all in *. rewrite map_app, fold_left_app. cbn [fold_left map]. rewrite IH. unfold visit.
  cbn [as_kind k_name k_left k_right k_temp]. unfold named_electrons at 3 4 7 8, named_ions at 3 4 7 8. fold named_electrons named_ions.
  change (lower (sp_name x) =? "electrons")%string with (named_electrons x). change (lower (sp_name x) =? "ions")%string with (named_ions x).
  destruct (named_electrons x), (named_ions x); reflexivity.
Qed.
Lemma named_alike l : plainly_named l ->
  last_such is_electron l = last_such named_electrons l /\ last_such is_ion l = last_such named_ions l.
Proof.
  intros P. split; apply last_such_ext; intros x I; destruct (P x I) as [E N]; unfold named_electrons, named_ions.
  - destruct (is_electron x); [symmetry; apply String.eqb_eq, E, eq_refl|]. symmetry. apply Bool.not_true_iff_false.
    intros H. apply String.eqb_eq, E in H. discriminate.
  - destruct (is_ion x); [symmetry; apply String.eqb_eq, N, eq_refl|]. symmetry. apply Bool.not_true_iff_false.
    intros H. apply String.eqb_eq, N in H. discriminate.
Qed.

(** * The formulas *)
Lemma divides a b : b <> 0 -> divide a b = Done (a / b).
Proof. intros H. unfold divide, req. destruct (Req_EM_T b 0); [contradiction|reflexivity]. Qed.
Lemma roots a : 0 <= a -> root a = Done (sqrt a).
Proof. intros H. unfold root, rlt. destruct (Rlt_dec a 0); [lra|reflexivity]. Qed.

Lemma debyes n_e n_i t_e t_i : 0 < n_e -> 0 < n_i -> 0 < t_e -> 0 < t_i ->
  exists d, debye n_e n_i t_e t_i = Done d /\ debye_length n_e n_i t_e t_i = Ok d /\ 0 < d.
Proof.
  intros H1 H2 H3 H4. assert (0 < n_e / t_e + n_i / t_i) as S by (pose proof (Rdiv_lt_0_compat _ _ H1 H3); pose proof (Rdiv_lt_0_compat _ _ H2 H4); lra).
  pose proof (sqrt_lt_R0 _ S) as Q. exists (7433944 / 1000 / sqrt (n_e / t_e + n_i / t_i)). split; [|split].
  - unfold debye. rewrite !divides by lra. cbn [tbind]. rewrite roots by lra. cbn [tbind]. apply divides. lra.
  - unfold debye_length, rlt, req. destruct (Rlt_dec 0 n_e); [|lra]. destruct (Rlt_dec 0 n_i); [|lra].
    destruct (Req_EM_T t_e 0); [lra|]. destruct (Req_EM_T t_i 0); [lra|]. reflexivity.
  - apply Rdiv_lt_0_compat; lra.
Qed.

(** [k]: the square of the constant of the tool *)
Lemma langmur n : 0 < n -> langmur_freq n = Done (sqrt (n * (25600000 / 8008))).
Proof.
  intros H. unfold langmur_freq. rewrite divides.
  2:{ apply Rmult_integral_contrapositive_currified; apply Rmult_integral_contrapositive_currified; try lra; apply Rinv_neq_0_compat, pow_nonzero; lra. }
  cbn [tbind].
  replace (n * (- (16 / 10) * / 10 ^ 19) ^ 2 / (91 / 10 * / 10 ^ 31 * (88 / 10 * / 10 ^ 12))) with (n * (25600000 / 8008)).
  2:{ field. }
  apply roots. nra.
Qed.
Lemma close n : 0 < n -> Rabs (sqrt (n * (25600000 / 8008)) - plasma_frequency n) <= 3 / 1000 * plasma_frequency n.
Proof.
  intros H. unfold plasma_frequency. rewrite sqrt_mult by lra. pose proof (sqrt_lt_R0 n H) as P.
  assert (563803 / 10000 <= sqrt (25600000 / 8008) <= 563803 / 10000 * (1003 / 1000)) as B.
  { split.
    - rewrite <- (sqrt_square (563803 / 10000)) by lra. apply sqrt_le_1; lra.
    - rewrite <- (sqrt_square (563803 / 10000 * (1003 / 1000))) by lra. apply sqrt_le_1; lra. }
  rewrite Rabs_pos_eq by nra. nra.
Qed.

(** * The claim *)
(** what the numbers shown mean for the program, for a beam [b] of density [n] *)
Record meant (l : list specie) (b : beam) (n size finish step : R) (w : shown) : Prop := {
  (** the frequency of the check of the configuration, up to the rounding of the constants in the tool *)
  me_frequency : Rabs (2 * PI * w_frequency w - plasma_frequency (n_el (search l))) <= 3 / 1000 * plasma_frequency (n_el (search l));
  (** the length of the wave that goes with the beam *)
  me_wake : w_wake w * w_frequency w = b_velocity b;
  me_debye : debye_length (n_el (search l)) (n_ion (search l)) (t_el (search l)) (t_ion (search l)) = Ok (w_debye w);
  (** from the start of the injection until the last injected particle, undisturbed, has gone through the area *)
  me_passage : w_passage w = bunch_finish b (pred (b_bunches b)) + size / b_velocity b - b_start b;
  (** the passes of the main loop *)
  me_steps : 0 < step -> 0 <= finish -> INR (steps_exact finish step) - 1 <= w_steps w < INR (steps_exact finish step);
  me_velocity : w_velocity w = b_velocity b;
  me_bunch_duration : forall k, w_bunch_duration w = bunch_finish b k - bunch_start b k;
  me_beam_duration : w_beam_duration w = bunch_finish b (pred (b_bunches b)) - bunch_start b 0;
  me_bunch_length : w_bunch_length w = b_length b;
  me_beam_length : w_beam_length w = b_velocity b * (bunch_finish b (pred (b_bunches b)) - bunch_start b 0);
  me_radius : w_radius w = b_radius b;
  me_spacing : forall k, w_spacing w = b_velocity b * (bunch_start b (S k) - bunch_start b k);
  me_amount : w_amount w = INR (b_bunches b);
  me_bunch_particles : w_bunch_particles w = configured b n 0 (b_radius b);
  me_particles : w_particles w = INR (b_bunches b) * configured b n 0 (b_radius b) }.

(** ** Names the tool knows, warm particles, a beam, a run from time 0: the numbers of the program *)
Theorem C177_numbers : forall l b n bs size finish step, plainly_named l ->
  0 < n_el (search l) -> 0 < n_ion (search l) -> 0 < t_el (search l) -> 0 < t_ion (search l) ->
  b_velocity b <> 0 -> step <> 0 -> (0 < b_bunches b)%nat ->
  exists w, phys_info (map as_kind l) (as_bunches b n :: bs) size 0 finish step = Done (Shown w) /\ meant l b n size finish step w.
Proof.
  intros l b n bs size finish step P H1 H2 H3 H4 V S B. destruct (named_alike l P) as [E1 E2]. pose proof (searched l) as [Q1 Q2].
  rewrite E1 in Q1. rewrite E2 in Q2.
  destruct (last_such named_electrons l) as [e|] eqn:L1; [|lra]. destruct (last_such named_ions l) as [i|] eqn:L2; [|lra].
  destruct Q1 as [Q1 Q3]. destruct Q2 as [Q2 Q4].
  unfold phys_info. rewrite visited, L1, L2. cbn [option_map local el_density el_temperature ion_density ion_temperature tbind].
  rewrite <- Q1, <- Q2, <- Q3, <- Q4. unfold req. destruct (Req_EM_T (n_el (search l)) 0); [lra|]. destruct (Req_EM_T (n_ion (search l)) 0); [lra|].
  cbn [as_bunches u_velocity u_density u_amount u_length u_radius u_distance].
  rewrite !(divides _ (b_velocity b)) by exact V. cbn [tbind]. unfold wake_length. rewrite langmur by exact H1. cbn [tbind].
  assert (0 < sqrt (n_el (search l) * (25600000 / 8008))) as W by (apply sqrt_lt_R0; nra).
  rewrite divides by lra. cbn [tbind].
  destruct (debyes _ _ _ _ H1 H2 H3 H4) as (d & D1 & D2 & D3). rewrite D1. cbn [tbind]. rewrite divides by exact S. cbn [tbind].
  pose proof PI_RGT_0 as PP.
  assert (INR (b_bunches b) = INR (pred (b_bunches b)) + 1) as BB by (rewrite <- S_INR; f_equal; lia).
  eexists. split; [reflexivity|]. constructor; cbn [w_frequency w_wake w_debye w_passage w_steps w_velocity w_bunch_duration w_beam_duration
    w_bunch_length w_radius w_beam_length w_spacing w_amount w_bunch_particles w_particles].
  - match goal with |- Rabs (?a - _) <= _ => replace a with (sqrt (n_el (search l) * (25600000 / 8008))) by (field; lra) end. now apply close.
  - field. split; lra.
  - exact D2.
  - unfold bunch_finish, bunch_start. rewrite BB. field. exact V.
  - intros S0 F. unfold steps_exact. replace ((finish - 0) / step) with (finish / step) by (field; exact S).
    set (q := finish / step). assert (0 <= q) as Q0 by (apply Rmult_le_pos; [lra|apply Rlt_le, Rinv_0_lt_compat; lra]).
    pose proof (base_Int_part q) as [A1 A2]. assert (0 <= Int_part q)%Z as A3.
    { apply Z.lt_succ_r, lt_IZR. rewrite succ_IZR. lra. }
    rewrite INR_IZR_INZ, Z2Nat.id by lia. rewrite plus_IZR. lra.
  - reflexivity.
  - intros k. unfold bunch_finish. lra.
  - unfold bunch_finish, bunch_start. cbn [INR]. rewrite BB. field. exact V.
  - reflexivity.
  - unfold bunch_finish, bunch_start. cbn [INR]. rewrite BB. field. exact V.
  - reflexivity.
  - intros k. unfold bunch_start. rewrite S_INR. field. exact V.
  - reflexivity.
  - unfold configured. field. exact V.
  - unfold configured. field. exact V.
Qed.

(** ** The Debye length of the check of the configuration (cfg.cpp:655), with the temperatures swapped, is the one shown when
    the densities are equal *)
Theorem C177_check : forall l d, n_el (search l) = n_ion (search l) ->
  debye_length (n_el (search l)) (n_ion (search l)) (t_el (search l)) (t_ion (search l)) = Ok d ->
  debye_length (n_el (search l)) (n_ion (search l)) (t_ion (search l)) (t_el (search l)) = Ok d.
Proof.
  intros l d E. rewrite E. unfold debye_length. destruct (rlt 0 _); [|discriminate]. rewrite orb_comm. intros <-. f_equal.
  destruct (_ || _); [reflexivity|]. now rewrite Rplus_comm.
Qed.

(** ** When the tool shows nothing *)
Theorem C177_no_electrons : forall l bs size start finish step,
  phys_info (map as_kind l) bs size start finish step = Raised Unbound <->
  (forall s, In s l -> lower (sp_name s) <> "electrons"%string) \/
  (exists e, last_such named_electrons l = Some e /\ mean e <> 0) /\ (forall s, In s l -> lower (sp_name s) <> "ions"%string).
Proof.
  assert (forall l, (forall s, In s l -> lower (sp_name s) <> "electrons"%string) <-> last_such named_electrons l = None) as X1.
  { intros l. rewrite last_such_none. unfold named_electrons. split; intros H x I; specialize (H x I).
    - now apply String.eqb_neq. - now apply String.eqb_neq in H. }
  assert (forall l, (forall s, In s l -> lower (sp_name s) <> "ions"%string) <-> last_such named_ions l = None) as X2.
  { intros l. rewrite last_such_none. unfold named_ions. split; intros H x I; specialize (H x I).
    - now apply String.eqb_neq. - now apply String.eqb_neq in H. }
  assert (forall a b, divide a b <> Raised Unbound) as D1 by (intros; unfold divide; destruct (req _ _); discriminate).
  assert (forall a, root a <> Raised Unbound) as D2 by (intros; unfold root; destruct (rlt _ _); discriminate).
  assert (forall n, langmur_freq n <> Raised Unbound) as D3.
  { intros. unfold langmur_freq, tbind. destruct (divide _ _) eqn:E; [apply D2|]. intros [= ->]. now apply D1 in E. }
  assert (forall n v, wake_length n v <> Raised Unbound) as D4.
  { intros. unfold wake_length, tbind. destruct (langmur_freq _) eqn:E; [apply D1|]. intros [= ->]. now apply D3 in E. }
  assert (forall a b c d, debye a b c d <> Raised Unbound) as D5.
  { intros. unfold debye, tbind. destruct (divide a c) eqn:E; [|intros [= ->]; now apply D1 in E].
    destruct (divide b d) eqn:F; [|intros [= ->]; now apply D1 in F]. destruct (root _) eqn:G; [apply D1|intros [= ->]; now apply D2 in G]. }
  intros l bs size start finish step. rewrite X1, X2. unfold phys_info. rewrite visited. cbn [el_density el_temperature ion_density ion_temperature].
  destruct (last_such named_electrons l) as [e|] eqn:L1; cbn [option_map local tbind]; [|split; auto].
  unfold req at 1. destruct (Req_EM_T (mean e) 0) as [Z|Z].
  { split; [discriminate|]. intros [H|[(e' & [= <-] & N) _]]; [discriminate|contradiction]. }
  destruct (last_such named_ions l) as [i|] eqn:L2; cbn [option_map local tbind].
  - split; [|intros [H|[_ H]]; discriminate]. intros H. exfalso. revert H. destruct (req (mean i) 0); [discriminate|].
    destruct bs as [|b bs]; [discriminate|]. unfold tbind.
    repeat (match goal with |- context [match ?x with Done _ => _ | Raised _ => _ end] =>
      let E := fresh in destruct x eqn:E;
      [|intros [= ->]; first [now apply D1 in E | now apply D3 in E | now apply D4 in E | now apply D5 in E]] end). discriminate.
  - split; [|reflexivity]. intros _. right. split; [exists e; auto|reflexivity].
Qed.
(** the messages are for densities of zero *)
Theorem C177_message : forall l bs size start finish step,
  phys_info (map as_kind l) bs size start finish step = Done NoElectrons <-> exists e, last_such named_electrons l = Some e /\ mean e = 0.
Proof.
  intros l bs size start finish step. unfold phys_info. rewrite visited. cbn [el_density el_temperature ion_density ion_temperature].
  destruct (last_such named_electrons l) as [e|] eqn:L1; cbn [option_map local tbind].
  2:{ split; [discriminate|]. intros (e & H & _). discriminate. }
  unfold req at 1. destruct (Req_EM_T (mean e) 0) as [Z|Z]. { split; [intros _; eauto|reflexivity]. }
  split; [|intros (e' & [= <-] & N); contradiction]. intros H. exfalso. revert H.
  destruct (last_such named_ions l) as [i|]; cbn [option_map local tbind]; [|discriminate]. destruct (req (mean i) 0); [discriminate|].
  destruct bs as [|b bs]; [discriminate|]. unfold tbind. 
  repeat (match goal with |- context [match ?x with Done _ => _ | Raised _ => _ end] => destruct x; [|discriminate] end). discriminate.
Qed.
(** a run without a beam *)
Theorem C177_no_beam : forall l size start finish step e i, last_such named_electrons l = Some e -> last_such named_ions l = Some i ->
  mean e <> 0 -> mean i <> 0 -> phys_info (map as_kind l) [] size start finish step = Raised NoItem.
Proof.
  intros l size start finish step e i L1 L2 H1 H2. unfold phys_info. rewrite visited, L1, L2. cbn [option_map local tbind el_density ion_density].
  unfold req. destruct (Req_EM_T (mean e) 0); [contradiction|]. destruct (Req_EM_T (mean i) 0); [contradiction|]. reflexivity.
Qed.

(** ** Examples *)
Definition sp name mass charge n t : specie :=
  {| sp_name := name; sp_mass := mass; sp_charge := charge; sp_macro := 1000; sp_left := n; sp_right := n; sp_temp := t |}.
Definition duo : list specie := [sp "Electrons" 1 (-1) 4 1; sp "ions" 1836 1 1 4].
Definition pulse : beam :=
  {| b_start := 1; b_length := 3; b_distance := 2; b_velocity := 5; b_radius := 2; b_bunches := 2; b_macro := 100 |}.
Lemma duo_found : n_el (search duo) = 4 /\ n_ion (search duo) = 1 /\ t_el (search duo) = 1 /\ t_ion (search duo) = 4.
Proof. cbn. repeat split; lra. Qed.
Lemma duo_named : plainly_named duo.
Proof. intros s [<-|[<-|[]]]; cbn; split; split; intros H; try reflexivity; try discriminate. Qed.

Example C177_ex : exists w, phys_info (map as_kind duo) [as_bunches pulse 7] 10 0 3 1 = Done (Shown w) /\ meant duo pulse 7 10 3 1 w /\
  w_beam_duration w = 8 / 5 /\ w_passage w = 18 / 5 /\ w_steps w = 3 /\ steps_exact 3 1 = 4%nat /\ w_particles w = 168 * PI.
Proof.
  destruct duo_found as (F1 & F2 & F3 & F4).
  destruct (C177_numbers duo pulse 7 [] 10 3 1 duo_named) as (w & E & M); try lra; try (cbn; lra); try (cbn; lia).
  exists w. split; [exact E|]. split; [exact M|].
  rewrite (me_beam_duration _ _ _ _ _ _ _ M), (me_passage _ _ _ _ _ _ _ M), (me_particles _ _ _ _ _ _ _ M).
  assert (w_steps w = 3) as W.
  { revert E. unfold phys_info. rewrite visited. cbn [last_such named_electrons named_ions duo sp sp_name sp_left sp_right sp_temp].
    cbn [lower low String.eqb Ascii.eqb]. intros E. 
    revert E. unfold tbind. repeat match goal with
      | |- context [match ?x with Done _ => _ | Raised _ => _ end] => destruct x eqn:?; [|discriminate]
      | |- context [if ?x then _ else _] => destruct x; [discriminate|] end.
    intros [= <-]. cbn. match goal with H : divide (3 - 0) 1 = Done ?a |- _ => rewrite divides in H by lra; injection H as <- end. lra. }
  split; [|split; [|split; [exact W|split]]].
  - unfold bunch_finish, bunch_start. cbn. lra.
  - unfold bunch_finish, bunch_start. cbn. lra.
  - unfold steps_exact. replace (3 / 1) with (IZR 3) by lra. now rewrite Int_part_IZR.
  - unfold configured. cbn. lra.
Qed.

(** the check of the configuration takes another Debye length (cfg.cpp:655) *)
Theorem C177_check_refuted : plainly_named duo /\ exists w d,
  phys_info (map as_kind duo) [as_bunches pulse 7] 10 0 3 1 = Done (Shown w) /\
  debye_length (n_el (search duo)) (n_ion (search duo)) (t_ion (search duo)) (t_el (search duo)) = Ok d /\ w_debye w < d.
Proof.
  split; [exact duo_named|]. destruct C177_ex as (w & E & M & _). pose proof (me_debye _ _ _ _ _ _ _ M) as D.
  destruct duo_found as (F1 & F2 & F3 & F4). rewrite F1, F2, F3, F4 in *.
  exists w. eexists. split; [exact E|]. unfold debye_length, rlt, req in *.
  destruct (Rlt_dec 0 4); [|lra]. destruct (Rlt_dec 0 1); [|lra]. destruct (Req_EM_T 1 0); [lra|]. destruct (Req_EM_T 4 0); [lra|].
  cbn [orb] in *. split; [reflexivity|]. injection D as <-.
  apply Rmult_lt_compat_l; [lra|]. apply Rinv_lt_contravar.
  - apply Rmult_lt_0_compat; apply sqrt_lt_R0; lra.
  - apply sqrt_lt_1; lra.
Qed.
(** a start other than 0 is subtracted by the tool and ignored by the program (cfg.cpp:435-438) *)
Theorem C177_start_refuted : exists w, phys_info (map as_kind duo) [as_bunches pulse 7] 10 2 3 1 = Done (Shown w) /\
  w_steps w = 1 /\ steps_exact 3 1 = 4%nat.
Proof.
  destruct C177_ex as (w0 & E0 & _). unfold phys_info in *. rewrite visited in *.
  revert E0. unfold tbind. repeat match goal with
    | |- context [match ?x with Done _ => _ | Raised _ => _ end] =>
      lazymatch x with divide (3 - _) 1 => rewrite (divides (3 - 0) 1), (divides (3 - 2) 1) by lra | _ => destruct x eqn:?; [|discriminate] end
    | |- context [if ?x then _ else _] => destruct x; [discriminate|] end.
  intros _. eexists. split; [reflexivity|]. cbn. split; [lra|].
  unfold steps_exact. replace (3 / 1) with (IZR 3) by lra. now rewrite Int_part_IZR.
Qed.
(** names the program knows and the tool does not *)
Theorem C177_names_refuted : exists l, 0 < n_el (search l) /\ 0 < n_ion (search l) /\ 0 < t_el (search l) /\ 0 < t_ion (search l) /\
  phys_info (map as_kind l) [as_bunches pulse 7] 10 0 3 1 = Raised Unbound.
Proof.
  exists [sp "electron" 1 (-1) 4 1; sp "ion" 1836 1 1 4]. cbn. repeat split; lra.
Qed.
(** cold ions, which the program accepts *)
Theorem C177_cold_refuted : exists l d, plainly_named l /\ 0 < n_el (search l) /\ 0 < n_ion (search l) /\ 0 < t_el (search l) /\
  debye_length (n_el (search l)) (n_ion (search l)) (t_ion (search l)) (t_el (search l)) = Ok d /\
  phys_info (map as_kind l) [as_bunches pulse 7] 10 0 3 1 = Raised ZeroDivision.
Proof.
  exists [sp "electrons" 1 (-1) 4 1; sp "ions" 1836 1 1 0]. eexists. split.
  { intros s [<-|[<-|[]]]; cbn; split; split; intros H; try reflexivity; try discriminate. }
  cbn [search fold_left look sp is_electron is_ion sp_name sp_mass String.eqb Ascii.eqb Bool.eqb orb Z.eqb Pos.eqb n_el n_ion t_el t_ion sp_left sp_right sp_temp f_macro].
  split; [lra|]. split; [lra|]. split; [lra|]. split.
  - unfold debye_length, rlt. destruct (Rlt_dec 0 _); [|lra]. destruct (Rlt_dec 0 _); [|lra]. reflexivity.
  - unfold phys_info. rewrite visited.
    change (last_such named_electrons [sp "electrons" 1 (-1) 4 1; sp "ions" 1836 1 1 0]) with (Some (sp "electrons" 1 (-1) 4 1)).
    change (last_such named_ions [sp "electrons" 1 (-1) 4 1; sp "ions" 1836 1 1 0]) with (Some (sp "ions" 1836 1 1 0)).
    cbn [option_map local el_density el_temperature ion_density ion_temperature tbind sp sp_temp].
    unfold mean, sp. cbn [sp_left sp_right sp_temp]. unfold req.
    destruct (Req_EM_T ((4 + 4) / 2) 0); [lra|]. destruct (Req_EM_T ((1 + 1) / 2) 0); [lra|].
    cbn [as_bunches pulse u_velocity u_density u_amount u_length u_radius u_distance b_velocity b_bunches b_length b_radius b_distance].
    rewrite !(divides _ 5) by lra. cbn [tbind]. unfold wake_length. rewrite (langmur ((4 + 4) / 2)) by lra. cbn [tbind].
    rewrite divides. 2:{ apply Rgt_not_eq, sqrt_lt_R0. lra. }
    cbn [tbind]. unfold debye. rewrite (divides _ 1) by lra. cbn [tbind]. unfold divide, req. destruct (Req_EM_T 0 0); [reflexivity|contradiction].
Qed.

Print Assumptions C177_numbers.
Print Assumptions C177_check.
Print Assumptions C177_no_electrons.
Print Assumptions C177_message.
Print Assumptions C177_no_beam.
Print Assumptions C177_check_refuted.
Print Assumptions C177_start_refuted.
Print Assumptions C177_names_refuted.
Print Assumptions C177_cold_refuted.
