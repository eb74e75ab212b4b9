(** Lemmas about the communication of the ranks. *)
From Verif Require Import Base OverlayModel MpiModel.
From Coq Require Import ZifyBool Arith Wf_nat.

Section Net.
Context {M : Type}.
Local Notation cact := (cact M).
Local Notation net := (net M).

(** messages still to be sent to / receives still to be made from [q] *)
Fixpoint sends (l : list cact) (q : Z) : list M :=
  match l with
  | [] => []
  | Send q' m :: l' => if q' =? q then m :: sends l' q else sends l' q
  | Recv _ :: l' => sends l' q
  end.
Fixpoint recvs (l : list cact) (q : Z) : nat :=
  match l with
  | [] => O
  | Send _ _ :: l' => recvs l' q
  | Recv q' :: l' => if q' =? q then S (recvs l' q) else recvs l' q
  end.
Definition suffix (l l' : list cact) : Prop := exists h, l' = h ++ l.

Lemma sends_app l l' q : sends (l ++ l') q = sends l q ++ sends l' q.
Proof. induction l as [|[q' m|q'] l IH]; cbn [sends app]; auto. destruct (q' =? q); cbn [app]; now rewrite IH. Qed.
Lemma recvs_app l l' q : recvs (l ++ l') q = (recvs l q + recvs l' q)%nat.
Proof. induction l as [|[q' m|q'] l IH]; cbn [recvs app]; auto. destruct (q' =? q); cbn [Nat.add]; now rewrite IH. Qed.
Lemma sends_map_send (ms : list M) q q' : sends (map (Send q) ms) q' = if q =? q' then ms else [].
Proof.
  induction ms as [|m ms IH]; cbn [map sends]; [now destruct (q =? q')|]. rewrite IH. destruct (q =? q'); auto.
Qed.
Lemma sends_map_recv (ms : list M) q q' : sends (map (fun _ => Recv q) ms) q' = [].
Proof. induction ms as [|m ms IH]; cbn [map sends]; auto. Qed.
Lemma recvs_map_send (ms : list M) q q' : recvs (map (Send q) ms) q' = O.
Proof. induction ms as [|m ms IH]; cbn [map recvs]; auto. Qed.
Lemma recvs_map_recv (ms : list M) q q' : recvs (map (fun _ => Recv q) ms) q' = if q =? q' then length ms else O.
Proof. induction ms as [|m ms IH]; cbn [map recvs length]; [now destruct (q =? q')|]. rewrite IH. destruct (q =? q'); auto. Qed.

(** ** Invariant of every execution: nothing is lost, duplicated or reordered *)
Record inv (P : Z -> list cact) (s : net) : Prop := {
  inv_fifo : forall p q, got s q p ++ chan s p q ++ sends (prog s p) q = sends (P p) q;
  inv_recv : forall p q, (length (got s p q) + recvs (prog s p) q = recvs (P p) q)%nat;
  inv_suf : forall p, suffix (prog s p) (P p) }.

Lemma inv_start P : inv P (start P).
Proof. split; intros; cbn; auto. now exists []. Qed.

Lemma suffix_tl a l l' : suffix (a :: l) l' -> suffix l l'.
Proof. intros [h ->]. exists (h ++ [a]). now rewrite <- app_assoc. Qed.

Lemma inv_step P K s t : inv P s -> step K s t -> inv P t.
Proof.
  intros [F R S] H. destruct H as [s p q m l Hp Hk | s p q m l c Hp Hc | s p q m l l' Hne Hp Hq Hc];
    split; cbn [prog chan got]; intros; unfold upd1, upd2.
  - specialize (F p0 q0). destruct (p0 =? p) eqn:E1; cbn [andb]; [|auto].
    assert (p0 = p) by lia; subst p0. rewrite Hp in F. cbn [sends] in F.
    destruct (q0 =? q) eqn:E2.
    + assert (q0 = q) by lia; subst q0. rewrite Z.eqb_refl in F. rewrite <- app_assoc. auto.
    + replace (q =? q0) with false in F by lia. auto.
  - specialize (R p0 q0). destruct (p0 =? p) eqn:E1; [|auto].
    assert (p0 = p) by lia; subst p0. rewrite Hp in R. auto.
  - destruct (p0 =? p) eqn:E1; [|auto]. assert (p0 = p) by lia; subst p0.
    specialize (S p). rewrite Hp in S. eapply suffix_tl; eauto.
  - pose proof (F p0 q0) as F1. rewrite (andb_comm (p0 =? q)).
    destruct ((q0 =? p) && (p0 =? q)) eqn:E1.
    + assert (q0 = p /\ p0 = q) as [-> ->] by lia.
      rewrite Hc in F1. rewrite <- app_assoc.
      destruct (q =? p) eqn:E2; [|exact F1].
      assert (q = p) by lia; subst q. rewrite Hp in F1. exact F1.
    + destruct (p0 =? p) eqn:E2; [|exact F1].
      assert (p0 = p) by lia; subst p0. rewrite Hp in F1. exact F1.
  - pose proof (R p0 q0) as R1. destruct (p0 =? p) eqn:E1; cbn [andb]; [|auto].
    assert (p0 = p) by lia; subst p0. rewrite Hp in R1; cbn [recvs] in R1.
    destruct (q0 =? q) eqn:E2.
    + assert (q0 = q) by lia; subst q0. rewrite Z.eqb_refl in R1. rewrite app_length; cbn [length]. lia.
    + replace (q =? q0) with false in R1 by lia. auto.
  - destruct (p0 =? p) eqn:E1; [|auto]. assert (p0 = p) by lia; subst p0.
    specialize (S p). rewrite Hp in S. eapply suffix_tl; eauto.
  - pose proof (F p0 q0) as F1.
    destruct (p0 =? q) eqn:E2.
    + assert (p0 = q) by lia; subst p0. rewrite Hq in F1; cbn [sends] in F1.
      replace (q =? p) with false by lia. rewrite andb_false_r. exact F1.
    + destruct (p0 =? p) eqn:E1.
      * assert (p0 = p) by lia; subst p0. rewrite Hp in F1; cbn [sends] in F1.
        destruct (q0 =? q) eqn:E3; cbn [andb].
        -- assert (q0 = q) by lia; subst q0. rewrite Z.eqb_refl in F1. rewrite Hc in *.
           rewrite <- app_assoc. exact F1.
        -- replace (q =? q0) with false in F1 by lia. exact F1.
      * rewrite andb_false_r. exact F1.
  - pose proof (R p0 q0) as R1.
    destruct (p0 =? q) eqn:E2; cbn [andb].
    + assert (p0 = q) by lia; subst p0. rewrite Hq in R1; cbn [recvs] in R1.
      destruct (q0 =? p) eqn:E3.
      * assert (q0 = p) by lia; subst q0. rewrite Z.eqb_refl in R1. rewrite app_length; cbn [length]. lia.
      * replace (p =? q0) with false in R1 by lia. exact R1.
    + destruct (p0 =? p) eqn:E1; [|exact R1].
      assert (p0 = p) by lia; subst p0. rewrite Hp in R1. exact R1.
  - destruct (p0 =? q) eqn:E2.
    + assert (p0 = q) by lia; subst p0. specialize (S q). rewrite Hq in S. eapply suffix_tl; eauto.
    + destruct (p0 =? p) eqn:E1; [|auto]. assert (p0 = p) by lia; subst p0.
      specialize (S p). rewrite Hp in S. eapply suffix_tl; eauto.
Qed.

Lemma inv_steps P K s : steps K (start P) s -> inv P s.
Proof.
  intros H. remember (start P) as s0 eqn:E. induction H as [s|s t u H IH Hs]; subst.
  - apply inv_start.
  - eapply inv_step; eauto.
Qed.

(** a finished execution delivered, in order, exactly what was sent, if every receive has its send *)
Lemma finished_got P s p q : inv P s -> finished s -> recvs (P q) p = length (sends (P p) q) ->
  got s q p = sends (P p) q.
Proof.
  intros [F R _] Hf E. specialize (F p q). specialize (R q p). rewrite (Hf p) in F. rewrite (Hf q) in R. cbn in F, R.
  rewrite app_nil_r in F. rewrite <- F in E |- *. rewrite app_length in E.
  destruct (chan s p q); [now rewrite app_nil_r|]. cbn [length] in E. lia.
Qed.

(** every execution is finite: each step uses up at least one statement *)
Fixpoint total (f : Z -> list cact) (n : nat) : nat :=
  match n with O => O | S k => (length (f (Z.of_nat k)) + total f k)%nat end.
Lemma total_ext f g n : (forall k, (k < n)%nat -> f (Z.of_nat k) = g (Z.of_nat k)) -> total f n = total g n.
Proof. induction n as [|n IH]; intros H; cbn [total]; auto. rewrite (H n), IH; auto. Qed.
Lemma total_upd f n p a l : f p = a :: l -> 0 <= p < Z.of_nat n -> (total (upd1 f p l) n + 1 = total f n)%nat.
Proof.
  induction n as [|n IH]; intros Hp Hr; [lia|]. cbn [total]. unfold upd1 at 1.
  destruct (Z.of_nat n =? p) eqn:E.
  - assert (Z.of_nat n = p) as E1 by lia. rewrite E1, Hp. cbn [length].
    rewrite (total_ext (upd1 f p l) f n); [lia|]. intros k Hk. unfold upd1. now replace (Z.of_nat k =? p) with false by lia.
  - rewrite <- IH; auto; lia.
Qed.

Definition confined (n : nat) (f : Z -> list cact) : Prop := forall p, ~ (0 <= p < Z.of_nat n) -> f p = [].
Lemma confined_upd n f p a l : confined n f -> f p = a :: l -> confined n (upd1 f p l) /\ 0 <= p < Z.of_nat n.
Proof.
  intros C E. assert (0 <= p < Z.of_nat n).
  { destruct (Z_lt_ge_dec p 0), (Z_lt_ge_dec p (Z.of_nat n)); try lia; rewrite C in E by lia; discriminate. }
  split; auto. intros q Hq. unfold upd1. destruct (q =? p) eqn:E1; [lia|now apply C].
Qed.

Lemma step_measure n K s t : confined n (prog s) -> step K s t ->
  confined n (prog t) /\ (total (prog t) n < total (prog s) n)%nat.
Proof.
  intros C H. destruct H as [s p q m l Hp Hk | s p q m l c Hp Hc | s p q m l l' Hne Hp Hq Hc]; cbn [prog].
  - destruct (confined_upd n _ p _ l C Hp) as [C' Hr]. split; auto.
    pose proof (total_upd (prog s) n p _ l Hp Hr). lia.
  - destruct (confined_upd n _ p _ l C Hp) as [C' Hr]. split; auto.
    pose proof (total_upd (prog s) n p _ l Hp Hr). lia.
  - destruct (confined_upd n _ p _ l C Hp) as [C' Hr].
    pose proof (total_upd (prog s) n p _ l Hp Hr).
    assert (Hq' : upd1 (prog s) p l q = Recv p :: l').
    { unfold upd1. replace (q =? p) with false by lia. exact Hq. }
    destruct (confined_upd n _ q _ l' C' Hq') as [C'' Hr'].
    pose proof (total_upd _ n q _ l' Hq' Hr'). split; auto; lia.
Qed.

Lemma finished_dec n s : confined n (prog s) -> finished s \/ exists p, prog s p <> [].
Proof.
  intros C.
  assert (G : forall k, (forall i, (i < k)%nat -> prog s (Z.of_nat i) = []) \/ exists p, prog s p <> []).
  { induction k as [|k [IH|IH]]; [left; lia| |now right].
    destruct (prog s (Z.of_nat k)) as [|a l] eqn:E.
    - left. intros i Hi. destruct (Nat.eq_dec i k) as [->|]; auto. apply IH; lia.
    - right. exists (Z.of_nat k). now rewrite E. }
  destruct (G n) as [H|H]; [left|now right]. intros p.
  destruct (Z_lt_ge_dec p 0); [apply C; lia|]. destruct (Z_lt_ge_dec p (Z.of_nat n)); [|apply C; lia].
  specialize (H (Z.to_nat p)). rewrite Z2Nat.id in H by lia. apply H; lia.
Qed.

(** ** The exchange *)
Section Exchange.
Variable W R : Z.
Variables plus minus : Z -> list M.
Hypothesis HW : 0 <= W.
Hypothesis HR : 0 <= R.
Hypothesis Hplus : forall p, 0 <= p < W -> length (plus p) = Z.to_nat R.
Hypothesis Hminus : forall p, 0 <= p < W -> length (minus p) = Z.to_nat R.
Local Notation P := (exchange_prog W plus minus).

Lemma sends_P_up p : 0 <= p < W - 1 -> sends (P p) (p + 1) = plus p.
Proof.
  intros Hp. unfold exchange_prog. replace ((0 <=? p) && (p <? W)) with true by lia.
  replace (p <? W - 1) with true by lia. rewrite !sends_app, sends_map_send, sends_map_recv, Z.eqb_refl.
  destruct (0 <? p); cbn [sends]; rewrite ?sends_app, ?sends_map_send, ?sends_map_recv, ?app_nil_r; auto.
  replace (p - 1 =? p + 1) with false by lia. now rewrite !app_nil_r.
Qed.
Lemma sends_P_down p : 0 < p < W -> sends (P p) (p - 1) = minus p.
Proof.
  intros Hp. unfold exchange_prog. replace ((0 <=? p) && (p <? W)) with true by lia.
  replace (0 <? p) with true by lia. rewrite !sends_app, sends_map_send, sends_map_recv, Z.eqb_refl, app_nil_r.
  destruct (p <? W - 1); cbn [sends]; rewrite ?sends_app, ?sends_map_send, ?sends_map_recv, ?app_nil_r; auto.
  now replace (p + 1 =? p - 1) with false by lia.
Qed.
Lemma recvs_P_up p : 0 <= p < W - 1 -> recvs (P p) (p + 1) = Z.to_nat R.
Proof.
  intros Hp. unfold exchange_prog. replace ((0 <=? p) && (p <? W)) with true by lia.
  replace (p <? W - 1) with true by lia. rewrite !recvs_app, recvs_map_send, recvs_map_recv, Z.eqb_refl, Hplus by lia.
  destruct (0 <? p); cbn [recvs]; rewrite ?recvs_app, ?recvs_map_send, ?recvs_map_recv; try lia.
  replace (p - 1 =? p + 1) with false by lia. lia.
Qed.
Lemma recvs_P_down p : 0 < p < W -> recvs (P p) (p - 1) = Z.to_nat R.
Proof.
  intros Hp. unfold exchange_prog. replace ((0 <=? p) && (p <? W)) with true by lia.
  replace (0 <? p) with true by lia. rewrite !recvs_app, recvs_map_send, recvs_map_recv, Z.eqb_refl, Hminus by lia.
  destruct (p <? W - 1); cbn [recvs]; rewrite ?recvs_app, ?recvs_map_send, ?recvs_map_recv; try lia.
  replace (p + 1 =? p - 1) with false by lia. lia.
Qed.

Lemma confined_P : confined (Z.to_nat W) P.
Proof. intros p Hp. unfold exchange_prog. now replace ((0 <=? p) && (p <? W)) with false by lia. Qed.

(** where the rest of the program of a rank begins *)
Lemma suffix_app_cases {A} (h l a b : list A) : h ++ l = a ++ b ->
  (exists l', l' <> [] /\ l = l' ++ b /\ exists h', a = h' ++ l') \/ (exists h', b = h' ++ l).
Proof.
  intros E. revert a E. induction h as [|x h IH]; intros a E; cbn [app] in E.
  - destruct a as [|y a]; [right; exists []; cbn in *; congruence|].
    left. exists (y :: a). split; [discriminate|]. split; [auto|]. now exists [].
  - destruct a as [|y a].
    + right. exists (x :: h). cbn in E |- *. congruence.
    + cbn in E. injection E as -> E. destruct (IH a E) as [(l' & N & E1 & h' & E2)|(h' & E1)].
      * left. exists l'. split; [auto|]. split; [auto|]. exists (y :: h'). cbn. congruence.
      * right. now exists h'.
Qed.

Inductive pos (p : Z) : list cact -> Prop :=
| pos_send_up m l : 0 <= p < W - 1 -> pos p (Send (p + 1) m :: l)
| pos_recv_up l : 0 <= p < W - 1 -> sends l (p + 1) = [] -> pos p (Recv (p + 1) :: l)
| pos_send_down m l : 0 < p < W -> pos p (Send (p - 1) m :: l)
| pos_recv_down l : 0 < p < W -> sends l (p - 1) = [] -> recvs l (p + 1) = O -> sends l (p + 1) = [] -> pos p (Recv (p - 1) :: l)
| pos_done : pos p [].

Lemma pos_down p l : 0 < p < W -> suffix l (map (Send (p - 1)) (minus p) ++ map (fun _ => Recv (p - 1)) (minus p)) -> pos p l.
Proof.
  intros Hp [h E]. symmetry in E. apply suffix_app_cases in E as [(l' & N & -> & h' & E)|(h' & E)].
  - destruct l' as [|a l']; [congruence|].
    assert (In a (map (Send (p - 1)) (minus p))) by (rewrite E; apply in_or_app; right; now left).
    apply in_map_iff in H as (m & <- & _). now apply pos_send_down.
  - destruct l as [|a l]; [constructor|].
    assert (In a (map (fun _ => Recv (p - 1)) (minus p))) by (rewrite E; apply in_or_app; right; now left).
    apply in_map_iff in H as (m & <- & _).
    assert (forall q, sends l q = []).
    { intros q. pose proof (f_equal (fun x => sends x q) E) as E2. cbn beta in E2.
      rewrite sends_map_recv, sends_app in E2. cbn [sends] in E2.
      symmetry in E2. apply app_eq_nil in E2. tauto. }
    apply pos_recv_down; auto.
    pose proof (f_equal (fun x => recvs x (p + 1)) E) as E2. cbn beta in E2.
    rewrite recvs_map_recv, recvs_app in E2. cbn [recvs] in E2. replace (p - 1 =? p + 1) with false in E2 by lia. lia.
Qed.

Lemma pos_P p l : suffix l (P p) -> pos p l.
Proof.
  intros Hs. pose proof Hs as [h E]. unfold exchange_prog in E.
  destruct ((0 <=? p) && (p <? W)) eqn:Er.
  2:{ symmetry in E. apply app_eq_nil in E as [_ ->]. constructor. }
  symmetry in E. apply suffix_app_cases in E as [(l' & N & -> & h' & E)|(h' & E)].
  - destruct (p <? W - 1) eqn:E1; [|symmetry in E; apply app_eq_nil in E as [_ ->]; congruence].
    symmetry in E. apply suffix_app_cases in E as [(l2 & N2 & -> & h2 & E)|(h2 & E)].
    + destruct l2 as [|a l2]; [congruence|].
      assert (In a (map (Send (p + 1)) (plus p))) by (rewrite E; apply in_or_app; right; now left).
      apply in_map_iff in H as (m & <- & _). apply pos_send_up; lia.
    + destruct l' as [|a l']; [congruence|].
      assert (In a (map (fun _ => Recv (p + 1)) (plus p))) by (rewrite E; apply in_or_app; right; now left).
      apply in_map_iff in H as (m & <- & _). cbn [app]. apply pos_recv_up; [lia|].
      rewrite sends_app.
      pose proof (f_equal (fun x => sends x (p + 1)) E) as E2. cbn beta in E2.
      rewrite sends_map_recv, sends_app in E2. cbn [sends] in E2.
      symmetry in E2. apply app_eq_nil in E2 as [_ ->].
      destruct (0 <? p); [|reflexivity]. rewrite sends_app, sends_map_send, sends_map_recv.
      now replace (p - 1 =? p + 1) with false by lia.
  - destruct (0 <? p) eqn:E1.
    + apply pos_down; [lia|]. now exists h'.
    + symmetry in E. apply app_eq_nil in E as [_ ->]. constructor.
Qed.

(** with room for all messages of a pair of ranks there is always a rank that can go on *)
Lemma exchange_progress K s : (Z.to_nat R <= K)%nat -> steps K (start P) s -> stuck K s -> finished s.
Proof.
  intros HK Hs Hst. pose proof (inv_steps _ _ _ Hs) as [F Rc S].
  (* no rank stands before a send *)
  assert (NS : forall p q m l, prog s p = Send q m :: l -> False).
  { intros p q m l E. assert (H : (length (chan s p q) < K)%nat).
    { pose proof (F p q) as F1. rewrite E in F1. cbn [sends] in F1. rewrite Z.eqb_refl in F1.
      assert (L : (length (sends (P p) q) <= Z.to_nat R)%nat).
      { pose proof (pos_P p (prog s p) (S p)) as Hpos. rewrite E in Hpos. inversion Hpos; subst.
        - rewrite sends_P_up, Hplus by lia. lia.
        - rewrite sends_P_down, Hminus by lia. lia. }
      rewrite <- F1 in L. rewrite !app_length in L. cbn [length] in L. lia. }
    eapply Hst. eapply step_send; eauto. }
  (* a rank before a receive waits for a rank that has not sent yet *)
  assert (NR : forall p q l, prog s p = Recv q :: l -> chan s q p = []).
  { intros p q l E. destruct (chan s q p) as [|m c] eqn:Ec; auto. exfalso. eapply Hst. eapply step_recv; eauto. }
  (* nobody waits for rank + 1 *)
  assert (NU : forall n p l, p + Z.of_nat n = W - 1 -> prog s p = Recv (p + 1) :: l -> False).
  { induction n as [|n IH]; intros p l Hn E.
    - pose proof (pos_P p _ (S p)) as Hpos. rewrite E in Hpos. inversion Hpos; lia.
    - pose proof (pos_P p _ (S p)) as Hpos. rewrite E in Hpos.
      assert (0 <= p < W - 1) by (inversion Hpos; lia).
      assert (Hp1 : sends (prog s (p + 1)) p <> []).
      { intros E1. pose proof (F (p + 1) p) as F1. rewrite E1, (NR _ _ _ E) in F1. cbn [app] in F1. rewrite app_nil_r in F1.
        pose proof (Rc p (p + 1)) as R1. rewrite E in R1. cbn [recvs] in R1. rewrite Z.eqb_refl in R1.
        rewrite F1, recvs_P_up in R1 by lia.
        replace (sends (P (p + 1)) p) with (sends (P (p + 1)) (p + 1 - 1)) in R1 by (f_equal; lia). rewrite sends_P_down, Hminus in R1 by lia. lia. }
      pose proof (pos_P (p + 1) _ (S (p + 1))) as Hpos1.
      destruct (prog s (p + 1)) as [|[q m|q] l'] eqn:E1; [now cbn in Hp1|now apply (NS _ _ _ _ E1)|].
      inversion Hpos1; subst.
      + eapply (IH (p + 1) l'); [lia|exact E1].
      + cbn [sends] in Hp1. apply Hp1. replace p with (p + 1 - 1) by lia. assumption. }
  intros p. pose proof (pos_P p _ (S p)) as Hpos.
  destruct (prog s p) as [|[q m|q] l] eqn:E; [reflexivity|exfalso; now apply (NS _ _ _ _ E)|exfalso].
  inversion Hpos; subst.
  - apply (NU (Z.to_nat (W - 1 - p)) p l); [lia|exact E].
  - (* waits for rank - 1, which must stand before its send *)
    assert (Hp1 : sends (prog s (p - 1)) p <> []).
    { intros E1. pose proof (F (p - 1) p) as F1. rewrite E1, (NR _ _ _ E) in F1. cbn [app] in F1. rewrite app_nil_r in F1.
      pose proof (Rc p (p - 1)) as R1. rewrite E in R1. cbn [recvs] in R1. rewrite Z.eqb_refl in R1.
      rewrite F1, recvs_P_down in R1 by lia.
      replace (sends (P (p - 1)) p) with (sends (P (p - 1)) (p - 1 + 1)) in R1 by (f_equal; lia). rewrite sends_P_up, Hplus in R1 by lia. lia. }
    pose proof (pos_P (p - 1) _ (S (p - 1))) as Hpos1.
    destruct (prog s (p - 1)) as [|[q m|q] l'] eqn:E1; [now cbn in Hp1|now apply (NS _ _ _ _ E1)|].
    inversion Hpos1; subst.
    + apply (NU (Z.to_nat (W - 1 - (p - 1))) (p - 1) l'); [lia|exact E1].
    + cbn [sends] in Hp1. apply Hp1. replace p with (p - 1 + 1) by lia. assumption.
Qed.

(** what a finished exchange delivered *)
Lemma exchange_delivers K s : steps K (start P) s -> finished s ->
  (forall p, 0 <= p < W - 1 -> got s (p + 1) p = plus p) /\
  (forall p, 0 < p < W -> got s (p - 1) p = minus p).
Proof.
  intros Hs Hf. pose proof (inv_steps _ _ _ Hs) as I. split; intros p Hp.
  - rewrite <- (sends_P_up p Hp). apply (finished_got P s); auto.
    rewrite sends_P_up, Hplus by lia. replace p with (p + 1 - 1) at 2 by lia. rewrite recvs_P_down; lia.
  - rewrite <- (sends_P_down p Hp). apply (finished_got P s); auto.
    rewrite sends_P_down, Hminus by lia. replace p with (p - 1 + 1) at 2 by lia. rewrite recvs_P_up; lia.
Qed.

(** ** Too little room: everybody waits *)
Lemma steps_app K (s t u : net) : steps K s t -> steps K t u -> steps K s u.
Proof. intros H1 H2. revert H1. induction H2 as [|a b c H IH Hs]; intros H1; auto. eapply steps_trans; [now apply IH|exact Hs]. Qed.

(** sending [k] messages in a row *)
Lemma send_many K p q : forall (ms : list M) s l, prog s p = map (Send q) ms ++ l ->
  (length (chan s p q) + length ms <= K)%nat ->
  exists t, steps K s t /\ prog t p = l /\ chan t p q = chan s p q ++ ms /\
    (forall p', p' <> p -> prog t p' = prog s p') /\
    (forall p' q', (p', q') <> (p, q) -> chan t p' q' = chan s p' q').
Proof.
  induction ms as [|m ms IH]; intros s l E L; cbn [map app length] in *.
  - exists s. rewrite app_nil_r. repeat split; auto. constructor.
  - pose (s1 := mkNet (upd1 (prog s) p (map (Send q) ms ++ l)) (upd2 (chan s) p q (chan s p q ++ [m])) (got s)).
    assert (St : step K s s1) by (eapply step_send; [exact E|lia]).
    destruct (IH s1 l) as (t & H1 & H2 & H3 & H4 & H5).
    + cbn [prog s1]. unfold upd1. now rewrite Z.eqb_refl.
    + cbn [chan s1]. unfold upd2. rewrite !Z.eqb_refl. cbn [andb]. rewrite app_length. cbn [length]. lia.
    + exists t. split; [eapply steps_app; [eapply steps_trans; [constructor|exact St]|exact H1]|].
      split; [exact H2|]. split.
      { rewrite H3. cbn [chan s1]. unfold upd2. rewrite !Z.eqb_refl. cbn [andb]. now rewrite <- app_assoc. }
      split.
      * intros p' Hne. rewrite H4 by auto. cbn [prog s1]. unfold upd1. now replace (p' =? p) with false by lia.
      * intros p' q' Hne. rewrite H5 by auto. cbn [chan s1]. unfold upd2.
        destruct ((p' =? p) && (q' =? q)) eqn:E1; auto. exfalso. apply Hne. f_equal; lia.
Qed.

Definition first_dst (p : Z) : Z := if p <? W - 1 then p + 1 else p - 1.
Definition first_msgs (p : Z) : list M := if p <? W - 1 then plus p else minus p.
Lemma P_first p : 2 <= W -> 0 <= p < W -> exists l, P p = map (Send (first_dst p)) (first_msgs p) ++ l.
Proof.
  intros H2 Hp. unfold exchange_prog, first_dst, first_msgs. replace ((0 <=? p) && (p <? W)) with true by lia.
  destruct (p <? W - 1) eqn:E.
  - eexists. now rewrite <- !app_assoc.
  - replace (0 <? p) with true by lia. eexists. cbn [app]. reflexivity.
Qed.

Lemma exchange_deadlock K : 2 <= W -> (K < Z.to_nat R)%nat ->
  exists s, steps K (start P) s /\ stuck K s /\ ~ finished s.
Proof.
  intros H2 HK.
  assert (L : forall p, 0 <= p < W -> length (first_msgs p) = Z.to_nat R).
  { intros p Hp. unfold first_msgs. destruct (p <? W - 1); auto. }
  assert (G : forall n, (n <= Z.to_nat W)%nat -> exists s, steps K (start P) s /\
    (forall p, 0 <= p < Z.of_nat n -> (exists m l, prog s p = Send (first_dst p) m :: l) /\
                                      length (chan s p (first_dst p)) = K) /\
    (forall p, Z.of_nat n <= p -> prog s p = P p /\ forall q, chan s p q = [])).
  { induction n as [|n IH]; intros Hn.
    - exists (start P). split; [constructor|]. split; [lia|]. intros p _. split; auto.
    - destruct (IH ltac:(lia)) as (s & Hs & H1 & Hrest).
      set (p := Z.of_nat n) in *. assert (Hp : 0 <= p < W) by lia.
      destruct (Hrest p ltac:(lia)) as [Ep Ec].
      destruct (P_first p H2 Hp) as [l El].
      pose proof (L p Hp) as Lp.
      rewrite <- (firstn_skipn K (first_msgs p)), map_app, <- app_assoc in El.
      assert (Lk : length (firstn K (first_msgs p)) = K) by (rewrite firstn_length; lia).
      destruct (send_many K p (first_dst p) (firstn K (first_msgs p)) s (map (Send (first_dst p)) (skipn K (first_msgs p)) ++ l))
        as (t & T1 & T2 & T3 & T4 & T5).
      { now rewrite Ep. }
      { rewrite Ec. cbn [length]. lia. }
      exists t. split; [eapply steps_app; eauto|]. split.
      + intros p' Hp'. destruct (Z.eq_dec p' p) as [->|Hne].
        * rewrite T2, T3, Ec. cbn [app]. split; [|exact Lk].
          destruct (skipn K (first_msgs p)) as [|m ms] eqn:Es.
          { pose proof (skipn_length K (first_msgs p)) as X. rewrite Es in X. cbn in X. lia. }
          cbn [map app]. eauto.
        * rewrite T4 by auto. rewrite T5 by congruence. apply H1. lia.
      + intros p' Hp'. rewrite T4 by lia. destruct (Hrest p' ltac:(lia)) as [E1 E2].
        split; [exact E1|]. intros q. rewrite T5; [apply E2|]. intros X; injection X; lia. }
  destruct (G (Z.to_nat W) ltac:(lia)) as (s & Hs & H1 & Hrest).
  exists s. split; [exact Hs|].
  assert (Hout : forall p, ~ (0 <= p < W) -> prog s p = []).
  { intros p Hp. destruct (Z_lt_ge_dec p 0) as [Hlt|Hge].
    - destruct (inv_suf _ _ (inv_steps _ _ _ Hs) p) as [h E].
      rewrite confined_P in E by lia. symmetry in E. apply app_eq_nil in E. tauto.
    - destruct (Hrest p ltac:(lia)) as [E _]. rewrite E. apply confined_P. lia. }
  assert (Hhead : forall p a l, prog s p = a :: l -> exists m, a = Send (first_dst p) m /\ length (chan s p (first_dst p)) = K).
  { intros p a l E. destruct (Z_lt_ge_dec p 0) as [Hlt|Hge]; [rewrite Hout in E by lia; discriminate|].
    destruct (Z_lt_ge_dec p W) as [Hlt'|Hge']; [|rewrite Hout in E by lia; discriminate].
    destruct (H1 p ltac:(lia)) as [(m & l' & E') Hl]. rewrite E' in E. injection E as <- <-. eauto. }
  split.
  - intros t Ht. destruct Ht as [s p q m l Hp Hk | s p q m l c Hp Hc | s p q m l l' Hne Hp Hq Hc].
    + destruct (Hhead p _ _ Hp) as (m' & E & Hl). injection E as -> _. lia.
    + destruct (Hhead p _ _ Hp) as (m' & E & Hl). discriminate.
    + destruct (Hhead q _ _ Hq) as (m' & E & Hl). discriminate.
  - intros Hf. destruct (H1 0 ltac:(lia)) as [(m & l & E) _]. rewrite (Hf 0) in E. discriminate.
Qed.

(** whether some rank can go on is decidable *)
Lemma step_dec K n s : confined n (prog s) -> (exists t, step K s t) \/ stuck K s.
Proof.
  intros C.
  (* can rank [p] make a step, or be the sender of a synchronous one? *)
  assert (G : forall p, (exists t, step K s t) \/
    ((forall q m l, prog s p = Send q m :: l -> ~ (length (chan s p q) < K)%nat /\
        (chan s p q = [] -> p <> q -> forall l', prog s q <> Recv p :: l')) /\
     (forall q l, prog s p = Recv q :: l -> chan s q p = []))).
  { intros p. destruct (prog s p) as [|[q m|q] l] eqn:E.
    - right. split; intros; discriminate.
    - destruct (lt_dec (length (chan s p q)) K) as [Hk|Hk].
      { left. eexists. eapply step_send; eauto. }
      destruct (chan s p q) as [|m' c] eqn:Ec.
      2:{ right. split; [|intros; discriminate]. intros q' m'' l' [= <- <- <-]. rewrite Ec. split; [exact Hk|discriminate]. }
      destruct (Z.eq_dec p q) as [Hpq|Hpq].
      { right. split; [|intros; discriminate]. intros q' m'' l' [= <- <- <-]. rewrite Ec. split; [exact Hk|]. congruence. }
      destruct (prog s q) as [|[q2 m2|q2] l2] eqn:E2.
      + right. split; [|intros; discriminate]. intros q' m'' l' [= <- <- <-]. rewrite Ec, E2. split; [exact Hk|discriminate].
      + right. split; [|intros; discriminate]. intros q' m'' l' [= <- <- <-]. rewrite Ec, E2. split; [exact Hk|discriminate].
      + destruct (Z.eq_dec q2 p) as [->|Hn].
        * left. eexists. eapply step_sync; eauto.
        * right. split; [|intros; discriminate]. intros q' m'' l' [= <- <- <-]. rewrite Ec, E2. split; [exact Hk|].
          intros _ _ l3 [= X]. contradiction.
    - destruct (chan s q p) as [|m c] eqn:Ec.
      + right. split; [intros; discriminate|]. intros q' l' [= <- <-]. exact Ec.
      + left. eexists. eapply step_recv; eauto. }
  assert (G2 : forall k, (exists t, step K s t) \/ forall i, 0 <= i < Z.of_nat k ->
    ((forall q m l, prog s i = Send q m :: l -> ~ (length (chan s i q) < K)%nat /\
        (chan s i q = [] -> i <> q -> forall l', prog s q <> Recv i :: l')) /\
     (forall q l, prog s i = Recv q :: l -> chan s q i = []))).
  { induction k as [|k [IH|IH]]; [right; lia|now left|].
    destruct (G (Z.of_nat k)) as [H|H]; [now left|right].
    intros i Hi. destruct (Z.eq_dec i (Z.of_nat k)) as [->|]; [exact H|apply IH; lia]. }
  destruct (G2 n) as [H|H]; [now left|right].
  assert (In_range : forall p a l, prog s p = a :: l -> 0 <= p < Z.of_nat n).
  { intros p a l E. destruct (Z_lt_ge_dec p 0), (Z_lt_ge_dec p (Z.of_nat n)); try lia; rewrite C in E by lia; discriminate. }
  intros t Ht. destruct Ht as [s p q m l Hp Hk | s p q m l c Hp Hc | s p q m l l' Hne Hp Hq Hc].
  - destruct (H p (In_range _ _ _ Hp)) as [H1 _]. destruct (H1 _ _ _ Hp). contradiction.
  - destruct (H p (In_range _ _ _ Hp)) as [_ H1]. rewrite (H1 _ _ Hp) in Hc. discriminate.
  - destruct (H p (In_range _ _ _ Hp)) as [H1 _]. destruct (H1 _ _ _ Hp) as [_ H2]. eapply H2; eauto.
Qed.

(** with room for all messages every execution can be continued to a finished one; together with
    [step_measure] every execution ends there *)
Lemma exchange_completes K s : (Z.to_nat R <= K)%nat -> steps K (start P) s -> exists t, steps K s t /\ finished t.
Proof.
  intros HK Hs.
  assert (Hc : confined (Z.to_nat W) (prog s)).
  { clear HK. remember (start P) as s0 eqn:E. induction Hs as [s1|s1 t u H IH Hst]; subst.
    - exact confined_P.
    - eapply step_measure; eauto. }
  remember (total (prog s) (Z.to_nat W)) as n eqn:En. revert s Hs Hc En.
  induction n as [n IH] using (well_founded_induction lt_wf). intros s Hs Hc En.
  destruct (step_dec K _ s Hc) as [[t Ht]|Hst].
  - destruct (step_measure _ _ _ _ Hc Ht) as [Hc' Hm].
    destruct (IH (total (prog t) (Z.to_nat W))) with (s := t) as (u & Hu & Hf); auto; [lia|eapply steps_trans; eauto|].
    exists u. split; [|exact Hf]. eapply steps_app; [|exact Hu]. eapply steps_trans; [constructor|exact Ht].
  - exists s. split; [constructor|]. eapply exchange_progress; eauto.
Qed.
End Exchange.
End Net.
