(** Lemmas about the communication of the migrating particles. *)
From Verif Require Import Base MpiModel MpiNet MigrModel.
From Coq Require Import ZifyBool Arith Wf_nat.

Section Net.
Context {M : Type}.
Variable W : Z.
Variables plus minus : Z -> list M.
Local Notation P := (migr_prog W plus minus).

Definition outs (p : Z) : list (cact M) :=
  (if p <? W - 1 then map (Send (p + 1)) (plus p) else []) ++ (if 0 <? p then map (Send (p - 1)) (minus p) else []).
Definition ins (p : Z) : list (cact M) :=
  (if 0 <? p then map (fun _ => Recv (p - 1)) (plus (p - 1)) else []) ++
  (if p <? W - 1 then map (fun _ => Recv (p + 1)) (minus (p + 1)) else []).
Lemma prog_split p : 0 <= p < W -> P p = outs p ++ ins p.
Proof. intros Hp. unfold migr_prog, outs, ins. replace ((0 <=? p) && (p <? W)) with true by lia. now rewrite <- app_assoc. Qed.
Lemma prog_out p : ~ 0 <= p < W -> P p = [].
Proof. intros Hp. unfold migr_prog. now replace ((0 <=? p) && (p <? W)) with false by lia. Qed.
Lemma confined_M : confined (Z.to_nat W) P.
Proof. intros p Hp. apply prog_out. lia. Qed.

Lemma outs_in p a : 0 <= p < W -> In a (outs p) ->
  exists q m, a = Send q m /\ ((q = p + 1 /\ p < W - 1) \/ (q = p - 1 /\ 0 < p)).
Proof.
  intros Hp. unfold outs. rewrite in_app_iff. intros [H|H].
  - destruct (p <? W - 1) eqn:E; [|destruct H]. apply in_map_iff in H as (m & <- & _). exists (p + 1), m. split; auto. left; lia.
  - destruct (0 <? p) eqn:E; [|destruct H]. apply in_map_iff in H as (m & <- & _). exists (p - 1), m. split; auto. right; lia.
Qed.
Lemma ins_in p a : 0 <= p < W -> In a (ins p) ->
  exists q, a = Recv q /\ ((q = p + 1 /\ p < W - 1) \/ (q = p - 1 /\ 0 < p)).
Proof.
  intros Hp. unfold ins. rewrite in_app_iff. intros [H|H].
  - destruct (0 <? p) eqn:E; [|destruct H]. apply in_map_iff in H as (m & <- & _). exists (p - 1). split; auto. right; lia.
  - destruct (p <? W - 1) eqn:E; [|destruct H]. apply in_map_iff in H as (m & <- & _). exists (p + 1). split; auto. left; lia.
Qed.
Lemma recvs_none (l : list (cact M)) q : (forall a, In a l -> exists x m, a = Send x m) -> recvs l q = O.
Proof.
  induction l as [|a l IH]; intros H; auto. destruct (H a (or_introl eq_refl)) as (x & m & ->). cbn [recvs].
  apply IH. intros b Hb. apply H. now right.
Qed.
Lemma sends_none (l : list (cact M)) q : (forall a, In a l -> exists x, a = Recv x) -> sends l q = [].
Proof.
  induction l as [|a l IH]; intros H; auto. destruct (H a (or_introl eq_refl)) as (x & ->). cbn [sends].
  apply IH. intros b Hb. apply H. now right.
Qed.
Lemma recvs_outs p q : 0 <= p < W -> recvs (outs p) q = O.
Proof. intros Hp. apply recvs_none. intros a Ha. destruct (outs_in p a Hp Ha) as (x & m & -> & _). eauto. Qed.
Lemma sends_ins p q : 0 <= p < W -> sends (ins p) q = [].
Proof. intros Hp. apply sends_none. intros a Ha. destruct (ins_in p a Hp Ha) as (x & -> & _). eauto. Qed.

Lemma sends_up p : 0 <= p < W - 1 -> sends (P p) (p + 1) = plus p.
Proof.
  intros Hp. rewrite prog_split by lia. rewrite sends_app, sends_ins, app_nil_r by lia. unfold outs.
  replace (p <? W - 1) with true by lia. rewrite sends_app, sends_map_send, Z.eqb_refl.
  destruct (0 <? p); [|now rewrite app_nil_r]. rewrite sends_map_send. replace (p - 1 =? p + 1) with false by lia. apply app_nil_r.
Qed.
Lemma sends_down p : 0 < p < W -> sends (P p) (p - 1) = minus p.
Proof.
  intros Hp. rewrite prog_split by lia. rewrite sends_app, sends_ins, app_nil_r by lia. unfold outs.
  replace (0 <? p) with true by lia. rewrite sends_app, (sends_map_send (minus p)), Z.eqb_refl.
  destruct (p <? W - 1); [|reflexivity]. rewrite sends_map_send. now replace (p + 1 =? p - 1) with false by lia.
Qed.
Lemma recvs_down p : 0 < p < W -> recvs (P p) (p - 1) = length (plus (p - 1)).
Proof.
  intros Hp. rewrite prog_split by lia. rewrite recvs_app, recvs_outs by lia. unfold ins. cbn [Nat.add].
  replace (0 <? p) with true by lia. rewrite recvs_app, recvs_map_recv, Z.eqb_refl.
  destruct (p <? W - 1); [|cbn; lia]. rewrite recvs_map_recv. replace (p + 1 =? p - 1) with false by lia. lia.
Qed.
Lemma recvs_up p : 0 <= p < W - 1 -> recvs (P p) (p + 1) = length (minus (p + 1)).
Proof.
  intros Hp. rewrite prog_split by lia. rewrite recvs_app, recvs_outs by lia. unfold ins. cbn [Nat.add].
  replace (p <? W - 1) with true by lia. rewrite recvs_app, (recvs_map_recv (minus (p + 1))), Z.eqb_refl.
  destruct (0 <? p); [|reflexivity]. rewrite recvs_map_recv. now replace (p - 1 =? p + 1) with false by lia.
Qed.

Lemma sends_down' p : 0 <= p < W - 1 -> sends (P (p + 1)) p = minus (p + 1).
Proof. intros Hp. rewrite <- sends_down by lia. f_equal. lia. Qed.
Lemma sends_up' p : 0 < p < W -> sends (P (p - 1)) p = plus (p - 1).
Proof. intros Hp. rewrite <- sends_up by lia. f_equal. lia. Qed.
Lemma recvs_down' p : 0 <= p < W - 1 -> recvs (P (p + 1)) p = length (plus p).
Proof. intros Hp. pose proof (recvs_down (p + 1) ltac:(lia)) as X. replace (p + 1 - 1) with p in X by lia. exact X. Qed.
Lemma recvs_up' p : 0 < p < W -> recvs (P (p - 1)) p = length (minus p).
Proof. intros Hp. pose proof (recvs_up (p - 1) ltac:(lia)) as X. replace (p - 1 + 1) with p in X by lia. exact X. Qed.

(** the rest of the program of a rank: sending (nothing received yet), or receiving (everything sent) *)
Lemma rest_cases p l : suffix l (P p) ->
  (exists q m l', l = Send q m :: l' /\ 0 <= p < W /\ ((q = p + 1 /\ p < W - 1) \/ (q = p - 1 /\ 0 < p)) /\
     forall x, recvs l x = recvs (P p) x) \/
  ((forall x, sends l x = []) /\
   (l = [] \/ exists q l', l = Recv q :: l' /\ 0 <= p < W /\ ((q = p + 1 /\ p < W - 1) \/ (q = p - 1 /\ 0 < p)))).
Proof.
  intros [h E]. destruct (Z_lt_ge_dec p 0) as [Hlt|Hge].
  { rewrite prog_out in E by lia. symmetry in E. apply app_eq_nil in E as [_ ->]. right. split; auto. }
  destruct (Z_lt_ge_dec p W) as [Hlt|Hge'].
  2:{ rewrite prog_out in E by lia. symmetry in E. apply app_eq_nil in E as [_ ->]. right. split; auto. }
  rewrite prog_split in E by lia. symmetry in E.
  apply suffix_app_cases in E as [(l' & N & -> & h' & E)|(h' & E)].
  - left. destruct l' as [|b l']; [congruence|].
    assert (Hall : forall c, In c (b :: l') -> In c (outs p)).
    { intros c Hc. rewrite E. apply in_or_app. now right. }
    destruct (outs_in p b ltac:(lia) (Hall b (or_introl eq_refl))) as (q & m & -> & Hq).
    exists q, m, (l' ++ ins p). split; [reflexivity|]. split; [lia|]. split; [exact Hq|]. intros x.
    rewrite prog_split, !recvs_app, recvs_outs by lia. rewrite recvs_none; [reflexivity|].
    intros c Hc. destruct (outs_in p c ltac:(lia) (Hall c Hc)) as (y & z & -> & _). eauto.
  - right. assert (Hall : forall c, In c l -> In c (ins p)).
    { intros c Hc. rewrite E. apply in_or_app. now right. }
    split.
    + intros x. apply sends_none. intros c Hc. destruct (ins_in p c ltac:(lia) (Hall c Hc)) as (y & -> & _). eauto.
    + destruct l as [|c l]; [now left|right].
      destruct (ins_in p c ltac:(lia) (Hall c (or_introl eq_refl))) as (y & -> & Hy). exists y, l. split; [reflexivity|]. split; [lia|exact Hy].
Qed.

(** a pair of neighbours of which both have more messages for each other than the library can store never gets
    through *)
Lemma clog_step K p s t : 0 <= p < W - 1 -> (K < length (plus p))%nat -> (K < length (minus (p + 1)))%nat ->
  inv P s -> (forall x y, (length (chan s x y) <= K)%nat) -> step K s t ->
  (forall x y, (length (chan t x y) <= K)%nat).
Proof.
  intros Hp K1 K2 I L H. destruct H as [s p' q m l Hp' Hk | s p' q m l c Hp' Hc | s p' q m l l' Hne Hp' Hq Hc];
    intros x y; cbn [chan]; unfold upd2; try apply L.
  - destruct ((x =? p') && (y =? q)); [|apply L]. rewrite app_length. cbn [length]. lia.
  - destruct ((x =? q) && (y =? p')) eqn:E; [|apply L]. specialize (L q p'). rewrite Hc in L. cbn [length] in L. lia.
Qed.
Lemma clogged K p s : 0 <= p < W - 1 -> (K < length (plus p))%nat -> (K < length (minus (p + 1)))%nat ->
  steps K (start P) s ->
  (forall x y, (length (chan s x y) <= K)%nat) /\
  sends (prog s p) (p + 1) <> [] /\ sends (prog s (p + 1)) p <> [].
Proof.
  intros Hp K1 K2 Hs. remember (start P) as s0 eqn:E. induction Hs as [s|s t u H IH Hst]; subst.
  { split; [cbn; lia|]. cbn [prog start]. split.
    - rewrite sends_up by lia. intros X. rewrite X in K1. cbn in K1. lia.
    - rewrite sends_down' by lia. intros X. rewrite X in K2. cbn in K2. lia. }
  destruct (IH eq_refl) as (L & A & B). clear IH.
  pose proof (inv_steps _ _ _ H) as I.
  pose proof (clog_step K p t u Hp K1 K2 I L Hst) as Lu. split; [exact Lu|].
  assert (I' : inv P u) by (eapply inv_step; eauto).
  (* neither of the two had begun to receive before the step, so the other one has not been received from *)
  assert (HA : got u (p + 1) p = [] /\ got u p (p + 1) = []).
  { destruct I as [_ Rc Sf].
    destruct (rest_cases p _ (Sf p)) as [(q & m & l & E1 & _ & _ & R1)|[X _]]; [|now rewrite X in A].
    destruct (rest_cases (p + 1) _ (Sf (p + 1))) as [(q' & m' & l' & E2 & _ & _ & R2)|[X _]]; [|now rewrite X in B].
    assert (G1 : got t (p + 1) p = []) by (specialize (Rc (p + 1) p); rewrite R2 in Rc; destruct (got t (p + 1) p); [auto|cbn [length] in Rc; lia]).
    assert (G2 : got t p (p + 1) = []) by (specialize (Rc p (p + 1)); rewrite R1 in Rc; destruct (got t p (p + 1)); [auto|cbn [length] in Rc; lia]).
    destruct Hst as [s p' x y z Hp' Hk | s p' x y z c Hp' Hc | s p' x y z z' Hne Hp' Hq Hc]; cbn [got]; unfold upd2.
    - auto.
    - destruct (Z.eq_dec p' p) as [->|]; [congruence|]. destruct (Z.eq_dec p' (p + 1)) as [->|]; [congruence|].
      replace (p + 1 =? p') with false by lia. replace (p =? p') with false by lia. auto.
    - destruct (Z.eq_dec x p) as [->|]; [congruence|]. destruct (Z.eq_dec x (p + 1)) as [->|]; [congruence|].
      replace (p + 1 =? x) with false by lia. replace (p =? x) with false by lia. auto. }
  destruct HA as [G1 G2]. destruct I' as [F _ _]. split.
  - intros X. specialize (F p (p + 1)). rewrite G1, X, app_nil_r, sends_up in F by lia. cbn [app] in F.
    specialize (Lu p (p + 1)). rewrite F in Lu. lia.
  - intros X. specialize (F (p + 1) p). rewrite G2, X, app_nil_r in F. cbn [app] in F.
    replace (sends (P (p + 1)) p) with (sends (P (p + 1)) (p + 1 - 1)) in F by (f_equal; lia). rewrite sends_down in F by lia.
    specialize (Lu (p + 1) p). rewrite F in Lu. lia.
Qed.

(** without such a pair somebody can always go on *)
Lemma migr_progress K s :
  (forall p, 0 <= p < W - 1 -> (length (plus p) <= K)%nat \/ (length (minus (p + 1)) <= K)%nat) ->
  steps K (start P) s -> stuck K s -> finished s.
Proof.
  intros HK Hs Hst. pose proof (inv_steps _ _ _ Hs) as [F Rc Sf].
  assert (C : confined (Z.to_nat W) (prog s)).
  { intros p Hp. destruct (Sf p) as [h E]. rewrite prog_out in E by lia. symmetry in E. apply app_eq_nil in E. tauto. }
  destruct (finished_dec _ s C) as [Hf|[p0 Hp0]]; [exact Hf|exfalso].
  (* blocked sends and receives *)
  assert (NS : forall p q m l, prog s p = Send q m :: l -> (K < length (sends (P p) q))%nat).
  { intros p q m l E. pose proof (F p q) as F1. rewrite E in F1. cbn [sends] in F1. rewrite Z.eqb_refl in F1.
    rewrite <- F1, !app_length. cbn [length].
    destruct (lt_dec (length (chan s p q)) K) as [Hk|Hk]; [|lia].
    exfalso. eapply Hst. eapply step_send; eauto. }
  assert (NR : forall p q l, prog s p = Recv q :: l -> chan s q p = []).
  { intros p q l E. destruct (chan s q p) as [|m c] eqn:Ec; auto. exfalso. eapply Hst. eapply step_recv; eauto. }
  assert (NSR : forall p q m l l', prog s p = Send q m :: l -> prog s q = Recv p :: l' -> p <> q -> False).
  { intros p q m l l' E1 E2 Hne. pose proof (NR _ _ _ E2). eapply Hst. eapply step_sync; eauto. }
  (* everything that is to be received has been sent or will be *)
  assert (BAL : forall p q, 0 <= p < W -> (q = p + 1 /\ p < W - 1) \/ (q = p - 1 /\ 0 < p) ->
    recvs (P p) q = length (sends (P q) p)).
  { intros p q Hp [[-> H]|[-> H]].
    - now rewrite recvs_up, sends_down' by lia.
    - now rewrite recvs_down, sends_up' by lia. }
  (* an unfinished rank points to an unfinished neighbour *)
  set (waits := fun p q => exists b l, prog s p = b :: l /\ (b = Recv q \/ exists m, b = Send q m) /\ 0 <= p < W /\
                  ((q = p + 1 /\ p < W - 1) \/ (q = p - 1 /\ 0 < p))).
  assert (WT : forall p, prog s p <> [] -> exists q, waits p q).
  { intros p Hne. destruct (rest_cases p _ (Sf p)) as [(q & m & l & E & Hp & Hq & _)|[_ [E|(q & l & E & Hp & Hq)]]].
    - exists q, (Send q m), l. repeat split; eauto; lia.
    - contradiction.
    - exists q, (Recv q), l. repeat split; eauto; lia. }
  assert (WN : forall p q, waits p q -> prog s q <> []).
  { intros p q (b & l & E & Hb & Hp & Hq) Hz.
    pose proof (BAL p q Hp Hq) as B1.
    assert (B2 : recvs (P q) p = length (sends (P p) q)).
    { apply BAL; destruct Hq as [[-> H]|[-> H]]; lia. }
    destruct Hb as [->|[m ->]].
    - pose proof (NR _ _ _ E) as Hc. pose proof (F q p) as F1. rewrite Hc, Hz in F1. cbn in F1. rewrite app_nil_r in F1.
      pose proof (Rc p q) as R1. rewrite E in R1. cbn [recvs] in R1. rewrite Z.eqb_refl in R1. rewrite F1 in R1. lia.
    - pose proof (F p q) as F1. rewrite E in F1. cbn [sends] in F1. rewrite Z.eqb_refl in F1.
      pose proof (Rc q p) as R1. rewrite Hz in R1. cbn [recvs] in R1. rewrite B2, <- F1, !app_length in R1. cbn [length] in R1. lia. }
  (* two neighbours cannot wait for each other *)
  assert (W2 : forall p, waits p (p + 1) -> waits (p + 1) p -> False).
  { intros p (b & l & E & Hb & Hp & Hq) (b' & l' & E' & Hb' & Hp' & Hq').
    destruct Hb as [->|[m ->]], Hb' as [->|[m' ->]].
    - (* both receive: both have sent everything *)
      destruct (rest_cases (p + 1) _ (Sf (p + 1))) as [(q & m & l2 & E2 & _)|[Hn _]]; [rewrite E' in E2; discriminate|].
      pose proof (F (p + 1) p) as F1. rewrite (NR _ _ _ E), Hn, !app_nil_r in F1.
      pose proof (Rc p (p + 1)) as R1. rewrite E in R1. cbn [recvs] in R1. rewrite Z.eqb_refl in R1.
      rewrite F1, (BAL p (p + 1)) in R1 by lia. lia.
    - now apply (NSR _ _ _ _ _ E' E ltac:(lia)).
    - now apply (NSR _ _ _ _ _ E E' ltac:(lia)).
    - pose proof (NS _ _ _ _ E) as N1. pose proof (NS _ _ _ _ E') as N2. rewrite sends_up in N1 by lia.
      replace (sends (P (p + 1)) p) with (sends (P (p + 1)) (p + 1 - 1)) in N2 by (f_equal; lia). rewrite sends_down in N2 by lia.
      destruct (HK p ltac:(lia)); lia. }
  (* so nobody waits for rank + 1, nor for rank - 1 *)
  assert (UP : forall n p, p + Z.of_nat n = W - 1 -> waits p (p + 1) -> False).
  { induction n as [|n IH]; intros p Hn Hw.
    - destruct Hw as (b & l & _ & _ & Hp & Hq). lia.
    - pose proof (WN _ _ Hw) as Hne. destruct (WT _ Hne) as [q Hq]. pose proof Hq as (b & l & _ & _ & Hp & Hc).
      destruct Hc as [[-> _]|[-> _]].
      + apply (IH (p + 1)); [lia|exact Hq].
      + replace (p + 1 - 1) with p in Hq by lia. now apply (W2 p). }
  assert (DOWN : forall n p, p = Z.of_nat n -> waits p (p - 1) -> False).
  { induction n as [|n IH]; intros p Hn Hw.
    - destruct Hw as (b & l & _ & _ & Hp & Hq). lia.
    - pose proof (WN _ _ Hw) as Hne. destruct (WT _ Hne) as [q Hq]. pose proof Hq as (b & l & _ & _ & Hp & Hc).
      destruct Hc as [[-> _]|[-> _]].
      + apply (W2 (p - 1)); [exact Hq|]. now replace (p - 1 + 1) with p by lia.
      + apply (IH (p - 1)); [lia|exact Hq]. }
  destruct (WT _ Hp0) as [q Hq]. pose proof Hq as (b & l & _ & _ & Hp & [[-> _]|[-> _]]).
  - apply (UP (Z.to_nat (W - 1 - p0)) p0); [lia|exact Hq].
  - apply (DOWN (Z.to_nat p0) p0); [lia|exact Hq].
Qed.

Lemma migr_delivers K s : steps K (start P) s -> finished s ->
  (forall p, 0 <= p < W - 1 -> got s (p + 1) p = plus p) /\
  (forall p, 0 < p < W -> got s (p - 1) p = minus p).
Proof.
  intros Hs Hf. pose proof (inv_steps _ _ _ Hs) as I. split; intros p Hp.
  - rewrite <- (sends_up p Hp). apply (finished_got P s); auto.
    rewrite sends_up by lia. now rewrite recvs_down' by lia.
  - rewrite <- (sends_down p Hp). apply (finished_got P s); auto.
    rewrite sends_down by lia. now rewrite recvs_up' by lia.
Qed.

(** every schedule is finite *)
Lemma migr_confined K s : steps K (start P) s -> confined (Z.to_nat W) (prog s).
Proof.
  intros Hs p Hp. destruct (inv_suf _ _ (inv_steps _ _ _ Hs) p) as [h E]. rewrite prog_out in E by lia.
  symmetry in E. apply app_eq_nil in E. tauto.
Qed.
Lemma migr_acc K s : steps K (start P) s -> Acc (fun t u => step K u t) s.
Proof.
  intros Hs. pose proof (migr_confined K s Hs) as Hc. clear Hs.
  remember (total (prog s) (Z.to_nat W)) as n eqn:En. revert s Hc En.
  induction n as [n IH] using lt_wf_ind. intros s Hc En. constructor. intros t Ht.
  destruct (step_measure _ _ _ _ Hc Ht) as [Hc' Hm]. eapply IH; [|exact Hc'|reflexivity]. lia.
Qed.
(** every state can be continued to one where nobody can go on *)
Lemma migr_stops K s : steps K (start P) s -> exists t, steps K s t /\ stuck K t.
Proof.
  intros Hs. pose proof (migr_acc K s Hs) as A. induction A as [s _ IH].
  destruct (step_dec K (Z.to_nat W) s (migr_confined K s Hs)) as [[t Ht]|Hst].
  - destruct (IH t Ht) as (u & Hu & Hstuck); [eapply steps_trans; eauto|]. exists u. split; [|exact Hstuck].
    eapply steps_app; [eapply steps_trans; [constructor|exact Ht]|exact Hu].
  - exists s. split; [constructor|exact Hst].
Qed.
End Net.
