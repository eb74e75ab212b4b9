(** Theorems about the injection of beams: properties C57, C58, C62, C63, C64. *)
From Verif Require Import Base RndUtil TimeModel ThmTime ParticleModel ParticleProofs BeamModel.
From Coq Require Import Reals Lra Psatz.
Open Scope R_scope.

(** ** specification: the time window of bunch k *)
Definition in_window (b : beam) (k : nat) (t : R) : Prop :=
  b_start b + INR k * ((b_length b + b_distance b) / b_velocity b) <= t /\
  t < b_start b + INR k * ((b_length b + b_distance b) / b_velocity b) + b_length b / b_velocity b.
(** a physically meaningful beam that puts at least one particle per step into domain [d] *)
Definition sane (b : beam) : Prop :=
  0 <= b_start b /\ 0 < b_length b /\ 0 <= b_distance b /\ 0 < b_velocity b /\ 0 < b_radius b /\ (b_bunches b <= b_macro b)%nat /\ (1 <= b_bunches b)%nat.
Definition reaches (b : beam) (d : bdom) : Prop :=
  d_left d = 0%Z /\ 0 < d_dr d /\ 0 < d_size d /\ IZR (d_bot d) * d_dr d < b_radius b.

Lemma window_iff b k t : in_window b k t <-> bunch_start b k <= t < bunch_finish b k.
Proof. unfold in_window, bunch_finish, bunch_start. rewrite (Rmult_comm (INR k)). tauto. Qed.

Lemma sane_step b : sane b -> 0 < b_length b / b_velocity b /\ 0 <= b_distance b / b_velocity b /\
  (b_length b + b_distance b) / b_velocity b = b_length b / b_velocity b + b_distance b / b_velocity b.
Proof.
  intros (A & B & C & D & _). pose proof (Rinv_0_lt_compat _ D).
  split; [now apply Rmult_lt_0_compat|]. split; [apply Rmult_le_pos; lra|]. field. lra.
Qed.
Lemma bunch_start_mono b j k : sane b -> (j <= k)%nat -> bunch_start b j <= bunch_start b k.
Proof.
  intros H Hjk. destruct (sane_step b H) as (A & B & C). unfold bunch_start. apply le_INR in Hjk.
  rewrite C. apply Rplus_le_compat_l. apply Rmult_le_compat_l; lra.
Qed.
Lemma bunch_start_S b k : sane b -> bunch_start b (S k) = bunch_finish b k + b_distance b / b_velocity b.
Proof. intros H. destruct (sane_step b H) as (A & B & C). unfold bunch_finish, bunch_start. rewrite S_INR, C. ring. Qed.

(** windows do not overlap *)
Theorem C57_windows_disjoint : forall b j k t, sane b -> in_window b j t -> in_window b k t -> j = k.
Proof.
  intros b j k t H. rewrite !window_iff. intros [A1 A2] [B1 B2]. destruct (sane_step b H) as (P & Q & _).
  destruct (Nat.lt_trichotomy j k) as [L|[L|L]]; auto; exfalso.
  - pose proof (bunch_start_mono b (S j) k H L). rewrite (bunch_start_S b j H) in *. lra.
  - pose proof (bunch_start_mono b (S k) j H L). rewrite (bunch_start_S b k H) in *. lra.
Qed.

(** Whatever is injected is injected inside the window of the current bunch, which is an existing one. *)
Theorem C57_only_in_window : forall b d dt n, injected b d dt n <> O ->
  (bunch_no b d dt n < b_bunches b)%nat /\ in_window b (bunch_no b d dt n) (INR n * dt).
Proof.
  intros b d dt n. unfold injected, manage_beam, inject. set (k := bunch_no b d dt n).
  destruct (d_left d =? 0)%Z; [|intros X; exfalso; now apply X].
  destruct (k <? b_bunches b)%nat eqn:E; [|intros X; exfalso; now apply X]. cbn [fst].
  destruct (Rltb (IZR (d_bot d) * d_dr d) (b_radius b) && Rleb (bunch_start b k) (INR n * dt) && Rltb (INR n * dt) (bunch_finish b k)) eqn:F;
    [|intros X; exfalso; now apply X].
  intros _. apply andb_true_iff in F. destruct F as [F F3]. apply andb_true_iff in F. destruct F as [_ F2].
  apply Rleb_true in F2. apply Rltb_true in F3. apply Nat.ltb_lt in E. split; [exact E|]. apply window_iff. lra.
Qed.

(** the counter of the domain at the origin *)
Section Origin.
Variable b : beam.
Variable d : bdom.
Variable dt : R.
Hypothesis Hs : sane b.
Hypothesis Hd : reaches b d.
Hypothesis H0 : d_bot d = 0%Z.
Hypothesis Hdt : 0 < dt.

Lemma manage_origin t k : snd (manage_beam b d dt t k) =
  if ((k <? b_bunches b)%nat && Rltb (bunch_finish b k) t)%bool then S k else k.
Proof.
  unfold manage_beam, inject. destruct Hd as (E & _). rewrite E, H0. cbn [Z.eqb].
  destruct (k <? b_bunches b)%nat; [|reflexivity]. cbn [snd andb]. rewrite !andb_true_r. reflexivity.
Qed.

Hypothesis Hgap : dt < b_distance b / b_velocity b.
Lemma bunch_no_inv n :
  (bunch_no b d dt n = O \/ exists k, bunch_no b d dt n = S k /\ bunch_finish b k < INR n * dt) /\
  ((b_bunches b <= bunch_no b d dt n)%nat \/ INR n * dt <= bunch_finish b (bunch_no b d dt n) + dt).
Proof.
  destruct (sane_step b Hs) as (A & B & C).
  induction n as [|n [IH1 IH2]].
  - split; [now left|]. right. cbn [bunch_no INR]. unfold bunch_finish, bunch_start. cbn [INR].
    destruct Hs as (S0 & _). lra.
  - assert (E := manage_origin (INR n * dt) (bunch_no b d dt n)).
    change (snd (manage_beam b d dt (INR n * dt) (bunch_no b d dt n))) with (bunch_no b d dt (S n)) in E.
    set (k := bunch_no b d dt n) in *. rewrite S_INR.
    destruct (k <? b_bunches b)%nat eqn:K; cbn [andb] in E.
    + apply Nat.ltb_lt in K. destruct (Rltb (bunch_finish b k) (INR n * dt)) eqn:F.
      * apply Rltb_true in F. rewrite E. split; [right; exists k; split; [reflexivity|lra]|].
        destruct IH2 as [IH2|IH2]; [lia|]. right.
        pose proof (bunch_start_S b k Hs). unfold bunch_finish at 1. lra.
      * apply Rltb_false in F. rewrite E. split.
        -- destruct IH1 as [IH1|(j & J1 & J2)]; [now left|]. right. exists j. split; auto. lra.
        -- right. lra.
    + apply Nat.ltb_ge in K. rewrite E. split; [|now left].
      destruct IH1 as [IH1|(j & J1 & J2)]; [now left|]. right. exists j. split; auto. lra.
Qed.
Lemma bunch_no_current n k : (k < b_bunches b)%nat -> in_window b k (INR n * dt) -> bunch_no b d dt n = k.
Proof.
  intros Hk. rewrite window_iff. intros [W1 W2]. destruct (bunch_no_inv n) as [I1 I2].
  destruct (sane_step b Hs) as (A & B & C).
  destruct (Nat.lt_trichotomy (bunch_no b d dt n) k) as [L|[L|L]]; auto; exfalso.
  - destruct I2 as [I2|I2]; [lia|].
    pose proof (bunch_start_mono b _ k Hs L). rewrite (bunch_start_S b _ Hs) in *. lra.
  - destruct I1 as [I1|(j & J1 & J2)]; [lia|]. rewrite J1 in L.
    pose proof (bunch_start_mono b k j Hs ltac:(lia)). unfold bunch_finish in *. lra.
Qed.
End Origin.

Lemma per_step_pos b d dt : sane b -> reaches b d -> (0 <= d_bot d)%Z -> 0 < dt -> 0 < macro_per_step b d dt.
Proof.
  intros (A & B & C & D & E & F & G) (H1 & H2 & H3 & H4) Hb Hdt.
  unfold macro_per_step, bunch_macro_amount.
  assert (0 < INR (b_macro b / b_bunches b)) by (apply lt_0_INR; apply Nat.div_str_pos; lia).
  assert (0 < domain_radius b d).
  { unfold domain_radius. rewrite H1. cbn [Z.ltb Z.compare].
    destruct (Rltb (IZR (d_top d) * d_dr d) (b_radius b)); [exact H3|].
    replace (Rltb (IZR (d_bot d) * d_dr d) (b_radius b)) with true by (symmetry; now apply Rltb_true). lra. }
  unfold Rdiv. repeat apply Rmult_lt_0_compat; auto; now apply Rinv_0_lt_compat.
Qed.
Lemma loop_count_pos x : 0 < x -> (loop_count x <> 0)%nat /\ x <= INR (loop_count x) < x + 1.
Proof.
  intros H. unfold loop_count. destruct (ceilR_bounds x) as [A B].
  assert (P : (0 < ceilR x)%Z) by (apply lt_IZR; lra).
  split; [lia|]. rewrite INR_IZR_INZ, Z2Nat.id by lia. lra.
Qed.

(** With a pause between the bunches longer than a step, the domain at the origin injects at a step exactly when
    the time is inside one of the windows. *)
Theorem C57_exact_partial : forall b d dt n, sane b -> reaches b d -> d_bot d = 0%Z -> 0 < dt ->
  dt < b_distance b / b_velocity b ->
  (injected b d dt n <> O <-> exists k, (k < b_bunches b)%nat /\ in_window b k (INR n * dt)).
Proof.
  intros b d dt n Hs Hd H0 Hdt Hgap. split.
  - intros H. exists (bunch_no b d dt n). now apply C57_only_in_window.
  - intros (k & Hk & Hw). pose proof (bunch_no_current b d dt Hs Hd H0 Hdt Hgap n k Hk Hw) as E.
    unfold injected, manage_beam, inject. rewrite E.
    assert (Hp := per_step_pos b d dt Hs Hd ltac:(lia) Hdt).
    destruct Hd as (D1 & D2 & D3 & D4). rewrite D1. cbn [Z.eqb].
    replace (k <? b_bunches b)%nat with true by (symmetry; now apply Nat.ltb_lt). cbn [fst].
    rewrite window_iff in Hw.
    replace (Rltb (IZR (d_bot d) * d_dr d) (b_radius b)) with true by (symmetry; now apply Rltb_true).
    replace (Rleb (bunch_start b k) (INR n * dt)) with true by (symmetry; now apply Rleb_true).
    replace (Rltb (INR n * dt) (bunch_finish b k)) with true by (symmetry; now apply Rltb_true).
    cbn [andb]. now apply loop_count_pos.
Qed.
(** Bunches without a pause: the step on the border of two windows injects nothing, and so does the next one. *)
Definition b_ex (dist : R) (bunches : nat) : beam :=
  {| b_start := 0; b_length := 2; b_distance := dist; b_velocity := 1; b_radius := 4; b_bunches := bunches; b_macro := 12 |}.
Definition d_ex (bot : Z) : bdom := {| d_bot := bot; d_left := 0; d_top := bot + 2; d_size := 2; d_dr := 1 |}.
Lemma inject_ex dist bunches bot t k : manage_beam (b_ex dist bunches) (d_ex bot) 1 t k =
  if (k <? bunches)%nat then
    ((if Rltb (IZR bot * 1) 4 && Rleb (0 + (2 + dist) / 1 * INR k) t && Rltb t (0 + (2 + dist) / 1 * INR k + 2 / 1)
      then loop_count (macro_per_step (b_ex dist bunches) (d_ex bot) 1) else O),
     (if Rltb (0 + (2 + dist) / 1 * INR k + 2 / 1) t && true && (bot =? 0)%Z then S k else k))
  else (O, k).
Proof. reflexivity. Qed.
Ltac rb := repeat first [ rewrite (proj2 (Rltb_true _ _)) by lra | rewrite (proj2 (Rltb_false _ _)) by lra
                        | rewrite (proj2 (Rleb_true _ _)) by lra | rewrite (proj2 (Rleb_false _ _)) by lra ].
Theorem C57_missed_refuted : sane (b_ex 0 2) /\ reaches (b_ex 0 2) (d_ex 0) /\
  in_window (b_ex 0 2) 1 (INR 2 * 1) /\ in_window (b_ex 0 2) 1 (INR 3 * 1) /\
  injected (b_ex 0 2) (d_ex 0) 1 2 = O /\ injected (b_ex 0 2) (d_ex 0) 1 3 = O /\ bunch_no (b_ex 0 2) (d_ex 0) 1 4 = 1%nat.
Proof.
  assert (K0 : bunch_no (b_ex 0 2) (d_ex 0) 1 0 = 0%nat) by reflexivity.
  assert (K1 : bunch_no (b_ex 0 2) (d_ex 0) 1 1 = 0%nat).
  { cbn [bunch_no]. rewrite inject_ex. cbn [Nat.ltb Nat.leb snd INR]. rb. reflexivity. }
  assert (K2 : bunch_no (b_ex 0 2) (d_ex 0) 1 2 = 0%nat).
  { change (bunch_no (b_ex 0 2) (d_ex 0) 1 2) with (snd (manage_beam (b_ex 0 2) (d_ex 0) 1 (INR 1 * 1) (bunch_no (b_ex 0 2) (d_ex 0) 1 1))).
    rewrite K1, inject_ex. cbn [Nat.ltb Nat.leb snd INR]. rb. reflexivity. }
  assert (K3 : bunch_no (b_ex 0 2) (d_ex 0) 1 3 = 0%nat).
  { change (bunch_no (b_ex 0 2) (d_ex 0) 1 3) with (snd (manage_beam (b_ex 0 2) (d_ex 0) 1 (INR 2 * 1) (bunch_no (b_ex 0 2) (d_ex 0) 1 2))).
    rewrite K2, inject_ex. cbn [Nat.ltb Nat.leb snd INR]. rb. reflexivity. }
  assert (K4 : bunch_no (b_ex 0 2) (d_ex 0) 1 4 = 1%nat).
  { change (bunch_no (b_ex 0 2) (d_ex 0) 1 4) with (snd (manage_beam (b_ex 0 2) (d_ex 0) 1 (INR 3 * 1) (bunch_no (b_ex 0 2) (d_ex 0) 1 3))).
    rewrite K3, inject_ex. cbn [Nat.ltb Nat.leb snd INR]. rb. reflexivity. }
  split; [unfold sane, b_ex; cbn; repeat split; lra || lia|].
  split; [unfold reaches, b_ex, d_ex; cbn; repeat split; lra|].
  split; [unfold in_window, b_ex; cbn; lra|]. split; [unfold in_window, b_ex; cbn; lra|].
  split; [unfold injected; rewrite K2, inject_ex; cbn [Nat.ltb Nat.leb fst INR]; rb; reflexivity|].
  split; [unfold injected; rewrite K3, inject_ex; cbn [Nat.ltb Nat.leb fst INR]; rb; reflexivity|exact K4].
Qed.
Example C57_example : sane (b_ex 2 3) /\ reaches (b_ex 2 3) (d_ex 0) /\ 1 < b_distance (b_ex 2 3) / b_velocity (b_ex 2 3) /\
  in_window (b_ex 2 3) 2 (INR 9 * 1).
Proof.
  split; [unfold sane, b_ex; cbn; repeat split; lra || lia|].
  split; [unfold reaches, b_ex, d_ex; cbn; repeat split; lra|].
  split; [unfold b_ex; cbn; lra|]. unfold in_window, b_ex; cbn; lra.
Qed.

(** * C58: all domains inject all bunches *)
(** A domain away from the axis never leaves its first bunch. *)
Theorem C58_stuck : forall b d dt n, d_bot d <> 0%Z -> bunch_no b d dt n = O.
Proof.
  intros b d dt n H. induction n as [|n IH]; [reflexivity|]. cbn [bunch_no]. rewrite IH.
  unfold manage_beam, inject. destruct (d_left d =? 0)%Z; [|reflexivity].
  destruct (0 <? b_bunches b)%nat; [|reflexivity]. cbn [snd].
  replace (d_bot d =? 0)%Z with false by (symmetry; now apply Z.eqb_neq). now rewrite andb_false_r.
Qed.
Theorem C58_refuted : forall b d dt n k, sane b -> d_bot d <> 0%Z -> (1 <= k)%nat ->
  in_window b k (INR n * dt) -> injected b d dt n = O.
Proof.
  intros b d dt n k Hs H Hk Hw. destruct (injected b d dt n) eqn:E; [reflexivity|]. exfalso.
  assert (X : injected b d dt n <> O) by lia. apply C57_only_in_window in X. rewrite (C58_stuck b d dt n H) in X.
  pose proof (C57_windows_disjoint b 0 k _ Hs (proj2 X) Hw). lia.
Qed.
(** The first bunch is injected by every domain it reaches; so a beam of one bunch is complete. *)
Theorem C58_first_bunch_partial : forall b d dt n, sane b -> reaches b d -> (0 < d_bot d)%Z -> 0 < dt ->
  (injected b d dt n <> O <-> in_window b 0 (INR n * dt)).
Proof.
  intros b d dt n Hs Hd Hb Hdt. split.
  - intros H. apply C57_only_in_window in H. now rewrite (C58_stuck b d dt n) in H by lia.
  - intros Hw. unfold injected, manage_beam, inject. rewrite (C58_stuck b d dt n) by lia.
    assert (Hp := per_step_pos b d dt Hs Hd ltac:(lia) Hdt).
    destruct Hd as (D1 & D2 & D3 & D4). rewrite D1. cbn [Z.eqb].
    destruct Hs as (S1 & S2 & S3 & S4 & S5 & S6 & S7).
    replace (0 <? b_bunches b)%nat with true by (symmetry; apply Nat.ltb_lt; lia). cbn [fst].
    rewrite window_iff in Hw.
    replace (Rltb (IZR (d_bot d) * d_dr d) (b_radius b)) with true by (symmetry; now apply Rltb_true).
    replace (Rleb (bunch_start b 0) (INR n * dt)) with true by (symmetry; now apply Rleb_true).
    replace (Rltb (INR n * dt) (bunch_finish b 0)) with true by (symmetry; now apply Rltb_true).
    cbn [andb]. now apply loop_count_pos.
Qed.
Example C58_example : sane (b_ex 2 3) /\ reaches (b_ex 2 3) (d_ex 2) /\ in_window (b_ex 2 3) 1 (INR 4 * 1).
Proof.
  split; [unfold sane, b_ex; cbn; repeat split; lra || lia|].
  split; [unfold reaches, b_ex, d_ex; cbn; repeat split; lra|]. unfold in_window, b_ex; cbn; lra.
Qed.

(** * C62: a bunch gets the macro-particles assigned to it *)
(** total number injected in the first n steps *)
Fixpoint injected_total (b : beam) (d : bdom) (dt : R) (n : nat) : nat :=
  match n with O => O | S m => (injected_total b d dt m + injected b d dt m)%nat end.
(** the number of steps among the first n with the time in the window of bunch 0 (window [0, L)) *)
Lemma injected_single b d dt n : sane b -> reaches b d -> (0 <= d_bot d)%Z -> 0 < dt -> b_bunches b = 1%nat ->
  injected b d dt n = if Rleb (b_start b) (INR n * dt) && Rltb (INR n * dt) (b_start b + b_length b / b_velocity b)
                      then loop_count (macro_per_step b d dt) else O.
Proof.
  intros Hs Hd Hb Hdt H1.
  assert (K : forall m, INR m * dt <= b_start b + b_length b / b_velocity b + dt -> bunch_no b d dt m = O).
  { induction m as [|m IH]; intros Hm; [reflexivity|]. rewrite S_INR in Hm. cbn [bunch_no]. rewrite IH by lra.
    unfold manage_beam, inject. destruct (d_left d =? 0)%Z; [|reflexivity]. rewrite H1. cbn [Nat.ltb Nat.leb snd].
    replace (Rltb (bunch_finish b 0) (INR m * dt)) with false; [reflexivity|].
    symmetry; apply Rltb_false. unfold bunch_finish, bunch_start. cbn [INR]. lra. }
  destruct (Rltb (INR n * dt) (b_start b + b_length b / b_velocity b)) eqn:E.
  - apply Rltb_true in E. unfold injected. rewrite K by lra.
    unfold manage_beam, inject. destruct Hd as (D1 & D2 & D3 & D4). rewrite D1, H1. cbn [Z.eqb Nat.ltb Nat.leb fst].
    replace (Rltb (IZR (d_bot d) * d_dr d) (b_radius b)) with true by (symmetry; now apply Rltb_true).
    unfold bunch_finish, bunch_start. cbn [INR]. rewrite !Rmult_0_r, Rplus_0_r.
    replace (Rltb (INR n * dt) (b_start b + b_length b / b_velocity b)) with true by (symmetry; now apply Rltb_true).
    now rewrite !andb_true_r.
  - rewrite andb_false_r. destruct (injected b d dt n) eqn:F; [reflexivity|]. exfalso.
    assert (X : injected b d dt n <> O) by lia. apply C57_only_in_window in X. rewrite H1 in X.
    destruct X as [X1 X2]. replace (bunch_no b d dt n) with O in X2 by lia.
    apply Rltb_false in E. unfold in_window in X2. cbn [INR] in X2. lra.
Qed.
(** For a beam starting at 0 of one bunch that lasts [m] steps, the domain injects [m] times the rounded-up number
    per step: exact if that number is whole, otherwise up to one particle per step too many. *)
Theorem C62_bunch_total_partial : forall b d dt (m : nat), sane b -> reaches b d -> (0 <= d_bot d)%Z -> 0 < dt ->
  b_bunches b = 1%nat -> b_start b = 0 -> b_length b / b_velocity b = INR m * dt ->
  forall n, (m <= n)%nat ->
  injected_total b d dt n = (m * loop_count (macro_per_step b d dt))%nat /\
  bunch_macro_amount b d <= INR (injected_total b d dt n) < bunch_macro_amount b d + INR m /\
  (forall c : nat, macro_per_step b d dt = INR c -> INR (injected_total b d dt n) = bunch_macro_amount b d).
Proof.
  intros b d dt m Hs Hd Hb Hdt H1 H2 H3 n Hn.
  assert (T : forall j, injected_total b d dt j = (Nat.min j m * loop_count (macro_per_step b d dt))%nat).
  { induction j as [|j IH]; [reflexivity|]. cbn [injected_total]. rewrite IH, injected_single by auto.
    rewrite H2, H3, Rplus_0_l.
    assert (0 <= INR j) by apply pos_INR.
    replace (Rleb 0 (INR j * dt)) with true by (symmetry; apply Rleb_true; apply Rmult_le_pos; lra). cbn [andb].
    destruct (Nat.lt_ge_cases j m) as [L|L].
    - replace (Rltb (INR j * dt) (INR m * dt)) with true.
      + rewrite !Nat.min_l by lia. lia.
      + symmetry. apply Rltb_true. apply Rmult_lt_compat_r; auto. now apply lt_INR.
    - replace (Rltb (INR j * dt) (INR m * dt)) with false.
      + rewrite !Nat.min_r by lia. lia.
      + symmetry. apply Rltb_false. apply Rmult_le_compat_r; [lra|]. now apply le_INR. }
  rewrite (T n), Nat.min_r by auto.
  pose proof (per_step_pos b d dt Hs Hd Hb Hdt) as Hp. destruct (loop_count_pos _ Hp) as [_ [C1 C2]].
  assert (HL : 0 < b_length b / b_velocity b) by (destruct (sane_step b Hs); auto).
  assert (Hm : 0 < INR m) by (destruct (Nat.eq_dec m 0) as [->|]; [cbn [INR] in H3; lra|apply lt_0_INR; lia]).
  assert (E : INR m * macro_per_step b d dt = bunch_macro_amount b d).
  { unfold macro_per_step. destruct Hs as (_ & S2 & _ & S4 & _).
    replace (INR m) with (b_length b / b_velocity b / dt) by (rewrite H3; field; lra). field. lra. }
  split; [reflexivity|]. rewrite mult_INR. split.
  - rewrite <- E. split; [apply Rmult_le_compat_l; lra|].
    replace (INR m * macro_per_step b d dt + INR m) with (INR m * (macro_per_step b d dt + 1)) by ring.
    apply Rmult_lt_compat_l; lra.
  - intros c Hc. assert (L : loop_count (macro_per_step b d dt) = c).
    { apply INR_eq. rewrite Hc in *. apply Rle_antisym; [|lra].
      assert (X : INR (loop_count (INR c)) < INR (S c)) by (rewrite S_INR; lra). apply INR_lt in X. apply le_INR. lia. }
    rewrite L, <- Hc. exact E.
Qed.
(** A bunch assigned 1 macro-particle that takes 10 steps to enter gets 10 of them, with 10 times the charge. *)
Definition b_ex10 : beam :=
  {| b_start := 0; b_length := 10; b_distance := 0; b_velocity := 1; b_radius := 2; b_bunches := 1; b_macro := 1 |}.
Theorem C62_bunch_total_refuted : bunch_macro_amount b_ex10 (d_ex 0) = 1 /\ injected_total b_ex10 (d_ex 0) 1 10 = 10%nat.
Proof.
  assert (R0 : domain_radius b_ex10 (d_ex 0) = 2).
  { unfold domain_radius, b_ex10, d_ex. cbn [d_left d_top d_bot d_dr d_size b_radius Z.ltb Z.compare].
    rewrite (proj2 (Rltb_false _ _)) by (change (0 + 2)%Z with 2%Z; lra).
    rewrite (proj2 (Rltb_true _ _)) by lra. cbn. lra. }
  assert (E : bunch_macro_amount b_ex10 (d_ex 0) = 1).
  { unfold bunch_macro_amount. rewrite R0. unfold b_ex10. cbn [b_macro b_bunches b_radius]. change (1 / 1)%nat with 1%nat. cbn [INR]. field. }
  split; [exact E|].
  assert (Hs : sane b_ex10) by (unfold sane, b_ex10; cbn; repeat split; lra || lia).
  assert (Hd : reaches b_ex10 (d_ex 0)) by (unfold reaches, b_ex10, d_ex; cbn; repeat split; lra).
  assert (L : b_length b_ex10 / b_velocity b_ex10 = INR 10 * 1) by (unfold b_ex10; cbn [b_length b_velocity INR]; lra).
  destruct (C62_bunch_total_partial b_ex10 (d_ex 0) 1 10 Hs Hd ltac:(cbn; lia) ltac:(lra) eq_refl eq_refl L 10 ltac:(lia)) as [-> _].
  assert (P : macro_per_step b_ex10 (d_ex 0) 1 = / 10).
  { unfold macro_per_step. rewrite E. unfold b_ex10. cbn [b_velocity b_length]. field. }
  rewrite P. unfold loop_count. rewrite (ceilR_spec (/ 10) 1) by lra. reflexivity.
Qed.

(** The division of the macro-particles among the bunches is a whole number division: with fewer macro-particles than
    bunches nothing is ever injected. *)
Theorem C62_no_particles_refuted : forall b d dt n, (b_macro b < b_bunches b)%nat -> injected b d dt n = O.
Proof.
  intros b d dt n H. unfold injected, manage_beam, inject.
  destruct (d_left d =? 0)%Z; [|reflexivity]. destruct (_ <? b_bunches b)%nat; [|reflexivity]. cbn [fst].
  destruct (_ && _ && _)%bool; [|reflexivity].
  unfold loop_count, macro_per_step, bunch_macro_amount. rewrite Nat.div_small by exact H. cbn [INR].
  replace (0 * (domain_radius b d / b_radius b) * b_velocity b * dt / b_length b) with 0 by (unfold Rdiv; ring).
  rewrite (ceilR_spec 0 0) by lra. reflexivity.
Qed.

(** * C63: the radial shares of the domains add up to the bunch *)
Section Shares.
Variable b : beam.
(** [n] domains of [c] cells each on top of each other *)
Variable c : Z.
Variable dr : R.
Definition column_dom (i : nat) : bdom :=
  {| d_bot := Z.of_nat i * c; d_left := 0; d_top := (Z.of_nat i + 1) * c; d_size := IZR c * dr; d_dr := dr |}.
Fixpoint shares_sum (n : nat) : R :=
  match n with O => 0 | S m => shares_sum m + bunch_macro_amount b (column_dom m) end.
End Shares.
Theorem C63_shares : forall b c dr n, sane b -> (0 < c)%Z -> 0 < dr -> b_radius b <= INR n * IZR c * dr ->
  shares_sum b c dr n = INR (b_macro b / b_bunches b).
Proof.
  intros b c dr n Hs Hc Hdr Hr. apply IZR_lt in Hc.
  destruct Hs as (_ & _ & _ & _ & Hrad & _ & Hb).
  assert (G : forall m, shares_sum b c dr m = INR (b_macro b / b_bunches b) * (Rmin (b_radius b) (INR m * IZR c * dr) / b_radius b)).
  { induction m as [|m IH].
    - cbn [shares_sum INR]. rewrite !Rmult_0_l, Rmin_right by lra. field. lra.
    - cbn [shares_sum]. rewrite IH. unfold bunch_macro_amount.
      rewrite <- Rmult_plus_distr_l. f_equal. unfold Rdiv at 1 2 3. rewrite <- Rmult_plus_distr_r. f_equal.
      unfold domain_radius, column_dom. cbn [d_left d_top d_bot d_dr d_size Z.ltb Z.compare].
      rewrite !mult_IZR, plus_IZR, <- INR_IZR_INZ, S_INR.
      assert (C0 : 0 < IZR c * dr) by (apply Rmult_lt_0_compat; lra).
      assert (M0 : 0 <= INR m) by apply pos_INR.
      destruct (Rltb ((INR m + 1) * IZR c * dr) (b_radius b)) eqn:E1; [apply Rltb_true in E1|apply Rltb_false in E1].
      + rewrite !Rmin_right by lra. ring.
      + rewrite (Rmin_left (b_radius b) ((INR m + 1) * IZR c * dr)) by lra.
        destruct (Rltb (INR m * IZR c * dr) (b_radius b)) eqn:E2; [apply Rltb_true in E2|apply Rltb_false in E2].
        * rewrite Rmin_right by lra. ring.
        * rewrite Rmin_left by lra. ring. }
  rewrite G, Rmin_left by lra. field. lra.
Qed.
Example C63_example : sane (b_ex 2 3) /\ b_radius (b_ex 2 3) <= INR 3 * IZR 2 * 1.
Proof. split; [unfold sane, b_ex; cbn; repeat split; lra || lia|unfold b_ex; cbn; lra]. Qed.

(** * C64: cell numbers of injected particles *)
(** specification: the cell numbers are those of the position *)
Theorem C64_cell_r_partial : forall b d dz dt u v, let '(r, z, i, k) := injected_particle b d dz dt u v in
  0 < d_dr d -> IZR i * d_dr d <= r < (IZR i + 1) * d_dr d.
Proof.
  intros. unfold injected_particle. intros H. unfold cell_number.
  set (r := _ + _). destruct (Int_part_bounds (r / d_dr d)) as [A B].
  replace r with (r / d_dr d * d_dr d) at 2 3 by (field; lra). split.
  - apply Rmult_le_compat_r; lra.
  - apply Rmult_lt_compat_r; lra.
Qed.
(** The z cell number is computed from the radius. *)
Theorem C64_cell_z_refuted : exists b d dz dt u v, 0 < dz /\ 0 < d_dr d /\ sane b /\ reaches b d /\ 0 <= u < 1 /\ 0 <= v < 1 /\
  let '(r, z, i, k) := injected_particle b d dz dt u v in ~ (IZR k * dz <= z < (IZR k + 1) * dz).
Proof.
  exists (b_ex 2 3), (d_ex 2), 1, (1/4), (1/2), (1/2).
  split; [lra|]. split; [cbn; lra|]. split; [unfold sane, b_ex; cbn; repeat split; lra || lia|].
  split; [unfold reaches, b_ex, d_ex; cbn; repeat split; lra|]. split; [lra|]. split; [lra|].
  unfold injected_particle.
  assert (E : domain_radius (b_ex 2 3) (d_ex 2) = 2).
  { unfold domain_radius, b_ex, d_ex. cbn [d_left d_top d_bot d_dr d_size b_radius Z.ltb Z.compare].
    rewrite (proj2 (Rltb_false _ _)) by (change (2 + 2)%Z with 4%Z; lra). rewrite (proj2 (Rltb_true _ _)) by lra. lra. }
  rewrite E. cbn [b_ex d_ex b_velocity d_dr d_bot].
  replace (cell_number (2 * (1 / 2) + 1 / 2 + 2 * 1) 1) with 3%Z; [lra|].
  symmetry. apply Int_part_unique. lra.
Qed.

Print Assumptions C57_windows_disjoint.
Print Assumptions C57_only_in_window.
Print Assumptions C57_exact_partial.
Print Assumptions C57_missed_refuted.
Print Assumptions C58_stuck.
Print Assumptions C58_refuted.
Print Assumptions C58_first_bunch_partial.
Print Assumptions C62_bunch_total_partial.
Print Assumptions C62_bunch_total_refuted.
Print Assumptions C62_no_particles_refuted.
Print Assumptions C63_shares.
Print Assumptions C64_cell_r_partial.
Print Assumptions C64_cell_z_refuted.
