(** Theorems about signals: properties C22, C23. *)
From Verif Require Import Base SigModel.

Lemma run_app N due h1 h2 s : run N due (h1 ++ h2) s = (do s' <- run N due h1 s; run N due h2 s').
Proof.
  revert s. induction h1 as [|e h1 IH]; intros s; [reflexivity|]. cbn [run app].
  destruct (step N due e s); cbn [bind]; auto.
Qed.

Ltac unst := cbn [at_ file writer_file alive next lock recr started done_ goto bind] in *.

(** * C22 *)
(** without a pause the file is released once and used only while open, unless the program is told to
    terminate after it has released the file at its regular end *)
Definition inv_nopause (s : st) : Prop :=
  lock s = false /\ recr s = false /\
  match at_ s with
  | PInit => file s = None
  | PDone | PExit => True
  | PWait | PNew | PUnlock | PClear => False
  | _ => file s = Some (writer_file s) /\ alive s (writer_file s) = true
  end.

Lemma set_alive_same a h b : set_alive a h b h = b.
Proof. unfold set_alive. now rewrite Nat.eqb_refl. Qed.

Lemma step_nopause N due e s : inv_nopause s -> e <> Usr1 -> (e = Term -> at_ s <> PDone) ->
  exists s', step N due e s = Ok s' /\ inv_nopause s'.
Proof.
  intros (L & R & H) H1 HT. unfold step, ended, inv_nopause.
  destruct s as [p f w a n l r c d]. unst. subst l r.
  destruct e; [|congruence| |].
  - destruct p; cbn [tick] in *; unfold tick, use_file; unst; try contradiction; try (eexists; split; [reflexivity|]; unst; auto; fail).
    + eexists. split; [reflexivity|]. unst. rewrite set_alive_same. auto.
    + destruct (Nat.ltb c N); eexists; (split; [reflexivity|]; unst; auto).
    + destruct H as [Hf Ha]. rewrite Ha. destruct (due d); eexists; (split; [reflexivity|]; unst; auto).
    + destruct H as [Hf Ha]. rewrite Ha. destruct (due d); unst; eexists; (split; [reflexivity|]; unst; auto).
    + destruct H as [Hf Ha]. unfold delete_file. unst. rewrite Hf, Ha. unst. eexists; split; [reflexivity|]; unst; auto.
  - destruct p; eexists; (split; [reflexivity|]; unst; auto).
  - destruct p; try contradiction; unfold delete_file; unst; try (specialize (HT eq_refl); congruence);
      try (destruct H as [Hf Ha]; rewrite Hf, Ha); try rewrite H; unst; eexists; (split; [reflexivity|]; unst; auto).
Qed.

Theorem C22_no_pause_partial : forall N due h, ~ In Usr1 h ->
  (forall h1 h2 s1, h = h1 ++ Term :: h2 -> run N due h1 st0 = Ok s1 -> at_ s1 <> PDone) ->
  exists s, run N due h st0 = Ok s.
Proof.
  intros N due h HU HT.
  assert (G : forall h2 h1 s1, h = h1 ++ h2 -> run N due h1 st0 = Ok s1 -> inv_nopause s1 -> exists s, run N due h2 s1 = Ok s).
  { induction h2 as [|e h2 IH]; intros h1 s1 E R I; [now exists s1|]. cbn [run].
    destruct (step_nopause N due e s1 I) as (s2 & E2 & I2).
    - intros ->. apply HU. rewrite E. apply in_or_app. right. now left.
    - intros ->. apply (HT h1 h2 s1 E R).
    - rewrite E2. cbn [bind]. apply (IH (h1 ++ [e]) s2); auto.
      + now rewrite <- app_assoc.
      + rewrite run_app, R. cbn [bind run]. now rewrite E2. }
  apply (G h [] st0); auto. repeat split.
Qed.
Example ex_C22_no_pause : match run 2 (fun _ => true) ([Tick; Tick; Usr2; Tick; Tick; Tick] ++ repeat Tick 10) st0 with
  | Ok s => at_ s = PExit /\ done_ s = 2%nat | _ => False end.
Proof. vm_compute. split; reflexivity. Qed.

(** after a pause has released the file, no due output is ever performed again: the next one is undefined *)
Definition inv_dead (s : st) : Prop :=
  at_ s <> PInit /\ alive s (writer_file s) = false /\ (writer_file s < next s)%nat.

Lemma step_dead N due e s s' : inv_dead s -> step N due e s = Ok s' ->
  inv_dead s' /\ (done_ s <= done_ s')%nat /\ forall n, (done_ s <= n < done_ s')%nat -> due n = false.
Proof.
  intros (HI & HA & HN). unfold step, ended, inv_dead. destruct s as [p f w a n l r c d]. unst.
  assert (Del : forall b h, alive (mkSt p f w (set_alive a h false) b l r c d) w = false).
  { intros b h. unst. unfold set_alive. destruct (Nat.eqb w h); auto. }
  unst.
  destruct e.
  - destruct p; cbn [tick]; unfold tick, use_file; unst; try congruence.
    + destruct (Nat.ltb c N); intros [= <-]; unst; repeat split; auto; try discriminate; lia.
    + intros [= <-]; unst; repeat split; auto; try discriminate; lia.
    + rewrite HA. destruct (due d); intros [= <-]; unst; repeat split; auto; try discriminate; lia.
    + rewrite HA. destruct (due d) eqn:E; [discriminate|]. unst. intros [= <-]. unst. repeat split; auto; try discriminate; try lia.
      intros k Hk. assert (k = d) as -> by lia. exact E.
    + destruct l; intros [= <-]; unst; repeat split; auto; try discriminate; lia.
    + destruct r; intros [= <-]; unst; repeat split; auto; try discriminate; lia.
    + intros [= <-]; unst; repeat split; auto; try discriminate; try lia.
      unfold set_alive. destruct (Nat.eqb w n) eqn:E; [apply Nat.eqb_eq in E; lia|auto].
    + intros [= <-]; unst; repeat split; auto; try discriminate; lia.
    + intros [= <-]; unst; repeat split; auto; try discriminate; lia.
    + unfold delete_file. unst. destruct f as [h|]; [destruct (a h)|]; unst; try discriminate;
        intros [= <-]; unst; repeat split; auto; try discriminate; lia.
    + intros [= <-]; unst; repeat split; auto; try discriminate; lia.
    + intros [= <-]; unst; repeat split; auto; try discriminate; lia.
  - destruct p, l; unfold delete_file; unst; try congruence; try (destruct f as [h|]; [destruct (a h)|]; unst; try discriminate);
        intros [= <-]; unst; repeat split; auto; try discriminate; lia.
  - destruct p, l; unst; try congruence;
        intros [= <-]; unst; repeat split; auto; try discriminate; lia.
  - destruct p; unfold delete_file; unst; try congruence; try (destruct f as [h|]; [destruct (a h)|]; unst; try discriminate);
        intros [= <-]; unst; repeat split; auto; try discriminate; lia.
Qed.
Lemma run_dead N due h : forall s s', inv_dead s -> run N due h s = Ok s' ->
  (done_ s <= done_ s')%nat /\ forall n, (done_ s <= n < done_ s')%nat -> due n = false.
Proof.
  induction h as [|e h IH]; intros s s' I; cbn [run]; [intros [= <-]; split; [lia|intros; lia]|].
  destruct (step N due e s) as [s1| |] eqn:E; try discriminate. cbn [bind]. intros R.
  destruct (step_dead N due e s s1 I E) as (I1 & M1 & D1). destruct (IH s1 s' I1 R) as (M2 & D2).
  split; [lia|]. intros n Hn. destruct (Nat.lt_ge_cases n (done_ s1)); [apply D1|apply D2]; lia.
Qed.

(** reachability facts without a pause, also after the regular end *)
Definition inv_hist (s : st) : Prop :=
  lock s = false /\ recr s = false /\
  match at_ s with
  | PInit => file s = None /\ next s = O
  | PWait | PNew | PUnlock | PClear => False
  | PDone => file s = Some (writer_file s) /\ alive s (writer_file s) = false /\ next s = S (writer_file s)
  | PExit => True
  | _ => file s = Some (writer_file s) /\ alive s (writer_file s) = true /\ next s = S (writer_file s)
  end.
Lemma step_hist N due e s s' : inv_hist s -> e <> Usr1 -> step N due e s = Ok s' -> inv_hist s'.
Proof.
  intros (L & R & H) HU. unfold step, ended, inv_hist. destruct s as [p f w a n l r c d]. unst. subst l r.
  destruct e; [|congruence| |]; destruct p; cbn [tick]; unfold tick, use_file, delete_file; unst; try contradiction;
    try (destruct H as (Hf & Ha & Hn)); try (destruct H as (Hf & Hn)); try (intros [= <-]; unst; auto; fail); try rewrite Ha; try rewrite Hf; try rewrite Ha; unst;
    try discriminate; try (intros [= <-]; unst; rewrite ?set_alive_same; auto; fail).
  - destruct (Nat.ltb c N); intros [= <-]; unst; auto.
  - destruct (due d); intros [= <-]; unst; auto.
  - destruct (due d); unst; intros [= <-]; unst; auto.
Qed.
Lemma run_hist N due h : forall s s', inv_hist s -> ~ In Usr1 h -> run N due h s = Ok s' -> inv_hist s'.
Proof.
  induction h as [|e h IH]; intros s s' I HU; cbn [run]; [now intros [= <-]|].
  destruct (step N due e s) as [s1| |] eqn:E; try discriminate. cbn [bind]. intros R.
  apply (IH s1 s'); auto; [|intros Q; apply HU; now right].
  apply (step_hist N due e s s1); auto. intros ->. apply HU. now left.
Qed.

Theorem C22_output_after_pause_refuted : forall N due h1 s1, ~ In Usr1 h1 ->
  run N due h1 st0 = Ok s1 -> at_ s1 <> PInit -> at_ s1 <> PExit ->
  forall h2 s2, run N due (Usr1 :: h2) s1 = Ok s2 ->
    forall n, (done_ s1 <= n < done_ s2)%nat -> due n = false.
Proof.
  intros N due h1 s1 HU R1 HI HE h2 s2. cbn [run].
  assert (I : inv_hist s1) by (apply (run_hist N due h1 st0); auto; repeat split).
  destruct (step N due Usr1 s1) as [s'| |] eqn:E; try discriminate. cbn [bind]. intros R2.
  destruct I as (L & R & H). unfold step, ended in E. destruct s1 as [p f w a n l r c d]. unst. subst l r.
  unfold delete_file in E. unst.
  assert (I' : inv_dead s' /\ done_ s' = d).
  { destruct p; try contradiction; try congruence; destruct H as (Hf & Ha & Hn); rewrite Hf, Ha in E; unst; try discriminate;
      injection E as <-; unfold inv_dead; unst; rewrite set_alive_same; repeat split; auto; try discriminate; lia. }
  destruct I' as [I' ED]. destruct (run_dead N due h2 s' s2 I' R2) as (_ & D). rewrite ED in D. exact D.
Qed.

(** the usual use: pause between two outputs, resume, and the next output uses the released file *)
Theorem C22_pause_resume_refuted : exists h1 h2,
  (exists s, run 5 (fun _ => true) h1 st0 = Ok s /\ at_ s = PCheck /\ done_ s = 1%nat) /\
  run 5 (fun _ => true) (h1 ++ [Usr1; Tick; Tick; Tick; Usr2] ++ h2) st0 = UB /\
  ~ In Usr1 (h1 ++ h2) /\ ~ In Term (h1 ++ h2).
Proof.
  exists (repeat Tick 5), (repeat Tick 20). split; [|split; [vm_compute; reflexivity|]].
  - eexists. split; [vm_compute; reflexivity|]. split; reflexivity.
  - split; cbn; intros H; repeat (destruct H as [H|H]; [discriminate|]); exact H.
Qed.
(** terminating a paused program releases the file a second time *)
Theorem C22_terminate_while_paused_refuted : forall N due h1 s1, ~ In Usr1 h1 ->
  run N due h1 st0 = Ok s1 -> at_ s1 <> PInit -> at_ s1 <> PExit ->
  run N due [Usr1; Term] s1 = UB.
Proof.
  intros N due h1 s1 HU R1 HI HE.
  assert (I : inv_hist s1) by (apply (run_hist N due h1 st0); auto; repeat split).
  destruct I as (L & R & H). destruct s1 as [p f w a n l r c d]. unst. subst l r. cbn [run]. unfold step, ended, delete_file. unst.
  destruct p; try contradiction; try congruence; destruct H as (Hf & Ha & Hn); subst f; rewrite Ha; unst; rewrite ?set_alive_same; reflexivity.
Qed.
(** so does terminating it between the regular release and the end of the process *)
Theorem C22_terminate_at_end_refuted : exists h s, ~ In Usr1 h /\ run 1 (fun _ => true) h st0 = Ok s /\
  at_ s = PDone /\ run 1 (fun _ => true) (h ++ [Term]) st0 = UB.
Proof.
  exists (repeat Tick 8). eexists. split; [|split; [vm_compute; reflexivity|split; [reflexivity|vm_compute; reflexivity]]].
  cbn. intros H. repeat (destruct H as [H|H]; [discriminate|]). exact H.
Qed.

(** * C23 *)
(** reachable states: the resume request is pending only while locked (or while being cleared) *)
Definition inv_lock (s : st) : Prop :=
  (recr s = true -> lock s = true \/ at_ s = PClear \/ at_ s = PExit) /\
  match at_ s with PWait | PNew | PUnlock => lock s = true | _ => True end /\
  match at_ s with PSim | POut | POut2 => started s = S (done_ s) | PExit => started s = done_ s \/ started s = S (done_ s) | _ => started s = done_ s end.
Ltac split_all := repeat match goal with
    | |- context [if ?b then _ else _] => destruct b eqn:?; unst
    | |- context [match ?b with Some _ => _ | None => _ end] => destruct b eqn:?; unst
    end.
Lemma step_lock N due e s s' : inv_lock s -> step N due e s = Ok s' -> inv_lock s'.
Proof.
  intros (R & L & C). unfold step, ended, inv_lock. destruct s as [p f w a n l r c d]. unst.
  destruct e; destruct p; unfold tick, use_file, delete_file; unst; split_all; intros E; try discriminate E; injection E as <-; unst;
    intuition (auto; try congruence; try lia).
Qed.
Lemma run_lock N due h : forall s s', inv_lock s -> run N due h s = Ok s' -> inv_lock s'.
Proof.
  induction h as [|e h IH]; intros s s' I; cbn [run]; [now intros [= <-]|].
  destruct (step N due e s) as [s1| |] eqn:E; try discriminate. cbn [bind]. intros R.
  apply (IH s1 s'); auto. now apply (step_lock N due e s s1).
Qed.
Lemma inv_lock0 : inv_lock st0.
Proof. unfold inv_lock. cbn. intuition congruence. Qed.

(** paused: the wait loop cannot be left without a new resume request; a step not yet begun may be begun *)
Definition budget (s : st) : nat := match at_ s with PInit | PTop => 1 | _ => 0 end.
Definition paused (lo hi : nat) (s : st) : Prop :=
  lock s = true /\ (recr s = true -> at_ s = PClear \/ at_ s = PExit) /\ (lo <= started s)%nat /\ (started s + budget s <= hi)%nat /\
  match at_ s with PNew | PUnlock => False | _ => True end.
Lemma step_paused N due e s s' lo hi : paused lo hi s -> e <> Usr2 -> step N due e s = Ok s' -> paused lo hi s'.
Proof.
  intros (L & R & C & B & P) He. unfold step, ended, paused, budget in *. destruct s as [p f w a n l r k d]. unst. subst l.
  destruct e; [| |congruence|]; destruct p; unfold tick, use_file, delete_file; unst; try contradiction; split_all; intros E;
    try discriminate E; injection E as <-; unst; intuition (try congruence; try lia).
Qed.
Lemma run_paused N due h : forall s s' lo hi, paused lo hi s -> ~ In Usr2 h -> run N due h s = Ok s' -> paused lo hi s'.
Proof.
  induction h as [|e h IH]; intros s s' lo hi I HU; cbn [run]; [now intros [= <-]|].
  destruct (step N due e s) as [s1| |] eqn:E; try discriminate. cbn [bind]. intros R.
  apply (IH s1 s' lo hi); auto; [|intros Q; apply HU; now right].
  apply (step_paused N due e s s1 lo hi); auto. intros ->. apply HU. now left.
Qed.

Definition at_top (s : st) : Prop := at_ s = PInit \/ at_ s = PTop.

(** From the pausing signal on, until a resume request, no further step of the simulation is started - except
    one if the signal arrives between the check and the beginning of a step; the number of finished steps grows
    by at most one (the step in progress). *)
Theorem C23_paused : forall N due h1 s1, run N due h1 st0 = Ok s1 -> lock s1 = false -> at_ s1 <> PExit ->
  forall h2 s2, ~ In Usr2 h2 -> run N due (Usr1 :: h2) s1 = Ok s2 ->
    lock s2 = true /\
    (started s2 <= started s1 + 1)%nat /\ (~ at_top s1 -> started s2 = started s1) /\ (done_ s2 <= done_ s1 + 1)%nat.
Proof.
  intros N due h1 s1 R1 L1 HE h2 s2 HU R2.
  assert (I1 : inv_lock s1) by (apply (run_lock N due h1 st0); [apply inv_lock0|auto]).
  assert (I2 : inv_lock s2) by (apply (run_lock N due (Usr1 :: h2) s1); auto).
  cbn [run] in R2. destruct (step N due Usr1 s1) as [s'| |] eqn:E; try discriminate. cbn [bind] in R2.
  assert (Q : lock s' = true /\ at_ s' = at_ s1 /\ started s' = started s1 /\ done_ s' = done_ s1 /\ recr s' = recr s1).
  { unfold step in E. replace (ended s1) with false in E by (unfold ended; destruct (at_ s1); congruence).
    rewrite L1 in E. unfold delete_file in E. destruct (file s1) as [h|]; [destruct (alive s1 h)|]; unst; try discriminate;
      injection E as <-; unst; auto. }
  destruct Q as (Q1 & Q2 & Q3 & Q4 & Q5).
  assert (Hr : recr s1 = true -> at_ s1 = PClear) by (destruct I1 as (X & _); intros H; destruct (X H) as [?|[?|?]]; congruence).
  assert (P : paused (started s1) (started s1 + budget s1) s').
  { unfold paused, budget in *. rewrite Q1, Q2, Q3, Q5. destruct I1 as (_ & X & _). repeat split; auto.
    destruct (at_ s1); auto; congruence. }
  destruct (run_paused N due h2 s' s2 _ _ P HU R2) as (P1 & P2 & P3 & P4 & P5).
  destruct I1 as (_ & _ & C1). destruct I2 as (_ & _ & C2).
  split; [exact P1|]. unfold at_top, budget in *. destruct (at_ s1); destruct (at_ s2); intuition (try lia; try congruence).
Qed.
Example ex_C23_paused :
  match run 5 (fun _ => true) (repeat Tick 5) st0 with
  | Ok s1 => lock s1 = false /\ at_ s1 = PCheck /\ started s1 = 1%nat /\
      match run 5 (fun _ => true) (Usr1 :: repeat Tick 50) s1 with
      | Ok s2 => started s2 = 1%nat /\ lock s2 = true | _ => False end
  | _ => False end.
Proof. vm_compute. repeat split; reflexivity. Qed.

(** a signal repeated at once has no effect *)
Theorem C23_idempotent : forall N due h s,
  run N due (Usr1 :: Usr1 :: h) s = run N due (Usr1 :: h) s /\ run N due (Usr2 :: Usr2 :: h) s = run N due (Usr2 :: h) s.
Proof.
  intros N due h s. cbn [run]. unfold step, ended. destruct s as [p f w a n l r c d]. unst. split.
  - destruct p, l; unfold delete_file; unst; try reflexivity; (destruct f as [x|]; [destruct (a x)|]; unst; reflexivity).
  - destruct p, l; unst; reflexivity.
Qed.
(** a pause request while paused has no effect (state unchanged), nor has a resume request while running *)
Theorem C23_no_effect : forall N due s, (lock s = true -> step N due Usr1 s = Ok s) /\ (lock s = false -> step N due Usr2 s = Ok s).
Proof. intros N due s. unfold step. split; intros H; rewrite H; destruct (ended s); reflexivity. Qed.

(** resuming: the program leaves the wait loop with a new file, at the same step number *)
Theorem C23_resume : forall N due s, at_ s = PCheck -> lock s = true ->
  exists s', run N due [Usr2; Tick; Tick; Tick; Tick; Tick; Tick] s = Ok s' /\
    at_ s' = PTop /\ lock s' = false /\ recr s' = false /\ file s' = Some (next s) /\ alive s' (next s) = true /\
    started s' = started s /\ done_ s' = done_ s.
Proof.
  intros N due s HP HL. destruct s as [p f w a n l r c d]. unst. subst.
  eexists. split; [reflexivity|]. unst. rewrite set_alive_same. repeat split.
Qed.
Example ex_C23_resume : match run 5 (fun _ => true) (repeat Tick 5 ++ [Usr1; Tick; Tick]) st0 with
  | Ok s => at_ s = PCheck /\ lock s = true /\ done_ s = 1%nat | _ => False end.
Proof. vm_compute. repeat split; reflexivity. Qed.

(** but a resume request can get lost: if the program is paused again just before the previous request is
    cleared, the next resume request is cleared with it, and the program waits on *)
Theorem C23_lost_resume_refuted : exists h s, run 5 (fun _ => false) (h ++ [Usr1; Usr2]) st0 = Ok s /\
  forall k, exists s', run 5 (fun _ => false) (repeat Tick k) s = Ok s' /\ lock s' = true /\ started s' = started s /\
    match at_ s' with PClear | PCheck | PWait => True | _ => False end.
Proof.
  exists (repeat Tick 5 ++ [Usr1; Tick; Usr2; Tick; Tick; Tick]). eexists. split; [vm_compute; reflexivity|].
  intros k. destruct k as [|k]; [eexists; split; [reflexivity|]; unst; repeat split|].
  cbn [repeat run]. unfold step at 1, tick at 1, ended at 1. unst.
  match goal with |- context [run _ _ _ ?t] => set (t0 := t) end.
  assert (G : forall k s, lock s = true -> recr s = false -> (at_ s = PCheck \/ at_ s = PWait) ->
    exists s', run 5 (fun _ => false) (repeat Tick k) s = Ok s' /\ lock s' = true /\ started s' = started s /\ (at_ s' = PCheck \/ at_ s' = PWait)).
  { induction k0 as [|k0 IH]; intros s L R A; [exists s; cbn; auto|]. cbn [repeat run].
    destruct s as [p f w a n l r c d]. unst. subst l r.
    destruct A as [-> | ->]; unfold step, tick, ended; unst.
    - destruct (IH (mkSt PWait f w a n true false c d)) as (s' & E & H); unst; auto. exists s'. split; [exact E|exact H].
    - destruct (IH (mkSt PCheck f w a n true false c d)) as (s' & E & H); unst; auto. exists s'. split; [exact E|exact H]. }
  destruct (G k t0) as (s' & E & L & S & A); [reflexivity..|now left|].
  exists s'. split; [exact E|]. split; [exact L|]. split; [exact S|]. destruct A as [-> | ->]; exact I.
Qed.

Print Assumptions C22_no_pause_partial.
Print Assumptions C22_output_after_pause_refuted.
Print Assumptions C22_pause_resume_refuted.
Print Assumptions C22_terminate_while_paused_refuted.
Print Assumptions C22_terminate_at_end_refuted.
Print Assumptions C23_paused.
Print Assumptions C23_idempotent.
Print Assumptions C23_no_effect.
Print Assumptions C23_resume.
Print Assumptions C23_lost_resume_refuted.
