(** The whole exchange between the ranks. *)
From Verif Require Import Base GridModel GridProofs OverlayModel OverlayConc OverlaySum OverlayPass MpiModel MpiNet MpiData.
From Coq Require Import ZifyBool.

Section E.
Context {T : Type}.
Variable add : T -> T -> T.
Variable zero : T.
Local Notation msg := (msg T).

Lemma pack_all_spec f (m : doms (grid3 T)) col (Q : Z -> msg -> Prop) : forall rows,
  (forall i, In i rows -> exists a, f (m (i, col)) i = Ok a /\ Q i a) ->
  exists l, pack_all f m col rows = Ok l /\ Forall2 Q rows l.
Proof.
  induction rows as [|i rows IH]; intros H; cbn [pack_all].
  - exists []. split; auto.
  - destruct (H i ltac:(now left)) as (a & Ea & Qa). rewrite Ea. cbn [bind].
    destruct IH as (l & El & Ql); [intros; apply H; now right|]. rewrite El. cbn [bind].
    exists (a :: l). split; auto.
Qed.

Lemma updp_same {S} (m : doms S) p s : updp m p s p = s.
Proof. unfold updp, peq. now rewrite !Z.eqb_refl. Qed.
Lemma updp_other {S} (m : doms S) p q s : q <> p -> updp m p s q = m q.
Proof.
  intros H. unfold updp, peq. destruct ((fst q =? fst p) && (snd q =? snd p)) eqn:E; auto.
  exfalso. apply H. destruct p, q; cbn in E. f_equal; lia.
Qed.

Lemma unpack_all_spec f col (Q : Z -> msg -> Prop) : forall rows l (m : doms (grid3 T)),
  Forall2 Q rows l -> NoDup rows -> (forall i a, Q i a -> mdst a = i) ->
  (forall i a, In i rows -> Q i a -> exists h, f a (m (i, col)) = Ok h) ->
  exists m', unpack_all f col l m = Ok m' /\
    (forall i, In i rows -> exists a, Q i a /\ f a (m (i, col)) = Ok (m' (i, col))) /\
    (forall q, ~ (snd q = col /\ In (fst q) rows) -> m' q = m q).
Proof.
  induction rows as [|i rows IH]; intros l m HF ND Hd Hf; inversion HF as [|? a ? l' Qa HF']; subst; cbn [unpack_all].
  - exists m. split; auto. split; [intros i []|auto].
  - rewrite (Hd i a Qa). destruct (Hf i a ltac:(now left) Qa) as (h & Eh). rewrite Eh. cbn [bind].
    inversion ND as [|? ? Ni ND']; subst.
    destruct (IH l' (updp m (i, col) h)) as (m' & E & H1 & H2); auto.
    { intros j b Hj Qb. rewrite updp_other by (intros [= ->]; contradiction). apply Hf; auto. now right. }
    exists m'. split; [exact E|]. split.
    + intros j [->|Hj].
      * exists a. split; auto. rewrite H2 by (cbn; tauto). rewrite updp_same. exact Eh.
      * destruct (H1 j Hj) as (b & Qb & Eb). exists b. split; auto.
        rewrite updp_other in Eb by (intros [= ->]; contradiction). exact Eb.
    + intros q Hq. rewrite H2 by (cbn in *; tauto). apply updp_other.
      intros ->. apply Hq. cbn. tauto.
Qed.

Lemma Forall2_length' {A B} (Q : A -> B -> Prop) l l' : Forall2 Q l l' -> length l = length l'.
Proof. induction 1; cbn; auto. Qed.

Lemma In_zrange' lo hi x : In x (zrange lo hi) <-> lo <= x < hi.
Proof.
  unfold zrange. remember (Z.to_nat (hi - lo)) as n eqn:E.
  assert (G : forall n i, In x (zseq n i) <-> i <= x < i + Z.of_nat n).
  { induction n0 as [|n0 IH]; intros i; cbn [zseq In]; [lia|]. rewrite IH. lia. }
  rewrite G. lia.
Qed.
Lemma NoDup_zrange' lo hi : NoDup (zrange lo hi).
Proof.
  unfold zrange. generalize (Z.to_nat (hi - lo)) as n. intros n. revert lo. induction n as [|n IH]; intros i; cbn [zseq]; constructor; auto.
  assert (G : forall n j, In i (zseq n j) -> j <= i).
  { induction n0 as [|n0 IHn]; intros j; cbn [zseq In]; [lia|]. intros [->|H]; [lia|]. apply IHn in H. lia. }
  intros H. apply G in H. lia.
Qed.
Lemma length_zrange lo hi : length (zrange lo hi) = Z.to_nat (hi - lo).
Proof.
  unfold zrange. generalize (Z.to_nat (hi - lo)) as n. intros n. revert lo. induction n as [|n IH]; intros i; cbn [zseq length]; auto.
Qed.

(** the set-up: [W] ranks with [R] x [C] domains of [X] x [Y] cells (including ghosts) *)
Variables W R C X Y : Z.
Hypothesis HR : 0 <= R.
Hypothesis HC : 1 <= C.
Hypothesis HY : 4 <= Y.
Definition ready (st : Z -> doms (grid3 T)) : Prop :=
  forall p i c, 0 <= p < W -> 0 <= i < R -> 0 <= c < C ->
    wf3 (st p (i, c)) /\ xr (c_r (st p (i, c))) = X /\ yr (c_r (st p (i, c))) = Y.

Variable st : Z -> doms (grid3 T).
Hypothesis Hst : ready st.

Definition plus_msg (p i : Z) (a : msg) : Prop := mlen a = X /\ mdst a = i /\
  forall j c k, 0 <= j < X -> 0 <= c < 4 -> 0 <= k < 3 -> mcol a c k j = cell (compk (st p (i, C - 1)) k) j (Y - 4 + c).
Definition minus_msg (p i : Z) (a : msg) : Prop := mlen a = X /\ mdst a = i /\
  forall j c k, 0 <= j < X -> 0 <= c < 4 -> 0 <= k < 3 -> mcol a c k j = cell (compk (st p (i, 0)) k) j c.

Lemma packs p : 0 <= p < W ->
  (exists l, pack_all (pack_plus zero) (st p) (C - 1) (zrange 0 R) = Ok l /\ Forall2 (plus_msg p) (zrange 0 R) l) /\
  (exists l, pack_all (pack_minus zero) (st p) 0 (zrange 0 R) = Ok l /\ Forall2 (minus_msg p) (zrange 0 R) l).
Proof.
  intros Hp. split; apply pack_all_spec; intros i Hi; apply In_zrange' in Hi.
  - destruct (Hst p i (C - 1)) as (Wf & EX & EY); [lia..|].
    destruct (pack_plus_spec zero (st p (i, C - 1)) i Wf ltac:(lia)) as (a & E & A1 & A2 & A3).
    exists a. split; auto. unfold plus_msg. rewrite <- EX, <- EY. auto.
  - destruct (Hst p i 0) as (Wf & EX & EY); [lia..|].
    destruct (pack_minus_spec zero (st p (i, 0)) i Wf ltac:(lia)) as (a & E & A1 & A2 & A3).
    exists a. split; auto. unfold minus_msg. rewrite <- EX. auto.
Qed.

(** unpacking on one rank, given what its neighbours packed *)
Definition unpacked (p : Z) (lm lp : list msg) : outcome (doms (grid3 T)) :=
  do a <- (if 0 <? p then unpack_all (unpack_minus add) 0 lm (st p) else Ok (st p));
  (if p <? W - 1 then unpack_all (unpack_plus add) (C - 1) lp a else Ok a).

(** the value every cell should have after the exchange *)
Definition want (p i c k a b : Z) : T :=
  if (0 <=? i) && (i <? R) && (0 <=? a) && (a <? X) then
    if (0 <? p) && (c =? 0) && (0 <=? b) && (b <? 4)
    then add (cell (compk (st p (i, c)) k) a b) (cell (compk (st (p - 1) (i, C - 1)) k) a (Y - 4 + b))
    else if (p <? W - 1) && (c =? C - 1) && (Y - 4 <=? b) && (b <? Y)
    then add (cell (compk (st p (i, c)) k) a b) (cell (compk (st (p + 1) (i, 0)) k) a (b - (Y - 4)))
    else cell (compk (st p (i, c)) k) a b
  else cell (compk (st p (i, c)) k) a b.

Hypothesis HY8 : C = 1 -> 8 <= Y.

Lemma unpacked_spec p lm lp : 0 <= p < W ->
  (0 < p -> Forall2 (plus_msg (p - 1)) (zrange 0 R) lm) ->
  (p < W - 1 -> Forall2 (minus_msg (p + 1)) (zrange 0 R) lp) ->
  exists m', unpacked p lm lp = Ok m' /\
    forall i c k a b, 0 <= k < 3 -> cell (compk (m' (i, c)) k) a b = want p i c k a b.
Proof.
  intros Hp Hm Hpl. unfold unpacked.
  (* first part *)
  assert (A : exists m1, (if 0 <? p then unpack_all (unpack_minus add) 0 lm (st p) else Ok (st p)) = Ok m1 /\
    (forall i, 0 <= i < R -> shape3 (st p (i, 0)) (m1 (i, 0))) /\
    (forall i c k a b, 0 <= k < 3 -> cell (compk (m1 (i, c)) k) a b =
       if (0 <=? i) && (i <? R) && (0 <=? a) && (a <? X) && (0 <? p) && (c =? 0) && (0 <=? b) && (b <? 4)
       then add (cell (compk (st p (i, c)) k) a b) (cell (compk (st (p - 1) (i, C - 1)) k) a (Y - 4 + b))
       else cell (compk (st p (i, c)) k) a b) /\
    (forall i c, c <> 0 -> m1 (i, c) = st p (i, c))).
  { destruct (0 <? p) eqn:Ep.
    2:{ exists (st p). split; auto. split; [intros; apply shape3_refl|]. split; [|auto].
        intros i c k a b Hk. now rewrite !andb_false_r. }
    destruct (unpack_all_spec (unpack_minus add) 0 (plus_msg (p - 1)) (zrange 0 R) lm (st p)) as (m1 & E & H1 & H2).
    - apply Hm; lia.
    - apply NoDup_zrange'.
    - now intros i a (_ & E & _).
    - intros i a Hi (Q1 & Q2 & Q3). apply In_zrange' in Hi.
      destruct (Hst p i 0) as (Wf & EX & EY); [lia..|].
      destruct (unpack_minus_spec add zero a (st p (i, 0)) Wf ltac:(lia) ltac:(lia)) as (h & Eh & _). now exists h.
    - assert (B : forall i, 0 <= i < R -> shape3 (st p (i, 0)) (m1 (i, 0)) /\
        forall k a b, 0 <= k < 3 -> cell (compk (m1 (i, 0)) k) a b =
          if (0 <=? a) && (a <? X) && (0 <=? b) && (b <? 4)
          then add (cell (compk (st p (i, 0)) k) a b) (cell (compk (st (p - 1) (i, C - 1)) k) a (Y - 4 + b))
          else cell (compk (st p (i, 0)) k) a b).
      { intros i Hi. destruct (H1 i) as (a & (Q1 & Q2 & Q3) & Ea); [now apply In_zrange'|].
        destruct (Hst p i 0) as (Wf & EX & EY); [lia..|].
        destruct (unpack_minus_spec add zero a (st p (i, 0)) Wf ltac:(lia) ltac:(lia)) as (h & Eh & Sh & Hh).
        rewrite Ea in Eh. injection Eh as Eh. rewrite Eh. split; auto.
        intros k x b Hk. rewrite Hh by auto. rewrite EX.
        destruct ((0 <=? x) && (x <? X) && (0 <=? b) && (b <? 4)) eqn:Eb; auto. now rewrite Q3 by lia. }
      exists m1. split; [exact E|]. split; [intros i Hi; now apply B|]. split.
      + intros i c k a b Hk. rewrite !andb_true_r.
        destruct ((0 <=? i) && (i <? R) && (c =? 0)) eqn:Ei.
        * assert (c = 0) by lia; subst c. destruct (B i ltac:(lia)) as [_ B2]. rewrite B2 by auto.
          match goal with |- (if ?x then _ else _) = if ?y then _ else _ => replace y with x; [reflexivity|] end.
          destruct ((0 <=? a) && (a <? X) && (0 <=? b) && (b <? 4)) eqn:Eb; lia.
        * rewrite H2 by (cbn [fst snd]; rewrite In_zrange'; lia).
          match goal with |- _ = if ?y then _ else _ => replace y with false; [reflexivity|] end. lia.
      + intros i c Hc. apply H2. cbn [snd]. tauto. }
  destruct A as (m1 & E1 & S1 & C1 & F1). rewrite E1. cbn [bind].
  destruct (p <? W - 1) eqn:Ep.
  2:{ exists m1. split; auto. intros i c k a b Hk. rewrite C1 by auto. unfold want. rewrite Ep. cbn [andb].
      destruct ((0 <=? i) && (i <? R) && (0 <=? a) && (a <? X)) eqn:Ei; cbn [andb]; auto. }
  assert (Hready : forall i, 0 <= i < R -> wf3 (m1 (i, C - 1)) /\ xr (c_r (m1 (i, C - 1))) = X /\ yr (c_r (m1 (i, C - 1))) = Y).
  { intros i Hi. destruct (Hst p i (C - 1)) as (Wf & EX & EY); [lia..|].
    destruct (Z.eq_dec (C - 1) 0) as [E0|E0]; [|rewrite F1 by auto; auto].
    rewrite E0 in *. pose proof (S1 i Hi) as Sh. split; [eapply shape3_wf; eauto|].
    destruct (Sh 0 ltac:(lia)) as (T1 & T2 & _). unfold compk in T1, T2. cbn in T1, T2. lia. }
  destruct (unpack_all_spec (unpack_plus add) (C - 1) (minus_msg (p + 1)) (zrange 0 R) lp m1) as (m2 & E & H1 & H2).
  - apply Hpl; lia.
  - apply NoDup_zrange'.
  - now intros i a (_ & Ea & _).
  - intros i a Hi (Q1 & Q2 & Q3). apply In_zrange' in Hi. destruct (Hready i Hi) as (Wf & EX & EY).
    destruct (unpack_plus_spec add zero a (m1 (i, C - 1)) Wf ltac:(lia) ltac:(lia)) as (h & Eh & _). now exists h.
  - exists m2. split; [exact E|]. intros i c k a b Hk.
    destruct ((0 <=? i) && (i <? R) && (c =? C - 1)) eqn:Ei.
    + assert (c = C - 1) by lia; subst c. destruct (H1 i) as (x & (Q1 & Q2 & Q3) & Ea); [apply In_zrange'; lia|].
      destruct (Hready i ltac:(lia)) as (Wf & EX & EY).
      destruct (unpack_plus_spec add zero x (m1 (i, C - 1)) Wf ltac:(lia) ltac:(lia)) as (h & Eh & Sh & Hh).
      rewrite Ea in Eh. injection Eh as Eh. rewrite Eh, Hh by auto. rewrite EX, EY, C1 by auto.
      unfold want. rewrite Ep.
      destruct ((0 <=? i) && (i <? R) && (0 <=? a) && (a <? X)) eqn:Ea1; cbn [andb].
      * replace ((0 <=? a) && (a <? X)) with true by lia. cbn [andb].
        replace (C - 1 =? C - 1) with true by lia. cbn [andb].
        destruct ((0 <? p) && (C - 1 =? 0) && (0 <=? b) && (b <? 4)) eqn:Eb.
        -- now replace ((Y - 4 <=? b) && (b <? Y)) with false by lia.
        -- destruct ((Y - 4 <=? b) && (b <? Y)) eqn:Eb2; auto. now rewrite Q3 by lia.
      * now replace ((0 <=? a) && (a <? X)) with false by lia.
    + rewrite H2 by (cbn [fst snd]; rewrite In_zrange'; lia). rewrite C1 by auto. unfold want. rewrite Ep.
      destruct ((0 <=? i) && (i <? R) && (0 <=? a) && (a <? X)) eqn:Ea1; cbn [andb]; auto.
      destruct ((0 <? p) && (c =? 0) && (0 <=? b) && (b <? 4)) eqn:Eb; auto.
      now replace ((c =? C - 1) && (Y - 4 <=? b) && (b <? Y)) with false by lia.
Qed.

(** the messages of all ranks *)
Lemma choose_msgs plus minus :
  (forall p, rank_range W p ->
       pack_all (pack_plus zero) (st p) (C - 1) (zrange 0 R) = Ok (plus p) /\
       pack_all (pack_minus zero) (st p) 0 (zrange 0 R) = Ok (minus p)) ->
  forall p, 0 <= p < W -> Forall2 (plus_msg p) (zrange 0 R) (plus p) /\ Forall2 (minus_msg p) (zrange 0 R) (minus p).
Proof.
  intros H p Hp. destruct (H p Hp) as [E1 E2]. destruct (packs p Hp) as [(l & El & Fl) (l' & El' & Fl')].
  rewrite E1 in El. rewrite E2 in El'. injection El as <-. injection El' as <-. auto.
Qed.

Lemma exchanged_values K st' : exchanged add zero K W R C st st' ->
  forall p i c k a b, 0 <= p < W -> 0 <= k < 3 -> cell (compk (st' p (i, c)) k) a b = want p i c k a b.
Proof.
  intros (plus & minus & Hpack & s & Hs & Hf & Hu) p i c k a b Hp Hk.
  pose proof (choose_msgs plus minus Hpack) as Hmsg.
  assert (L1 : forall p, 0 <= p < W -> length (plus p) = Z.to_nat R).
  { intros q Hq. destruct (Hmsg q Hq) as [H1 _]. apply Forall2_length' in H1. rewrite length_zrange in H1. rewrite <- H1. f_equal; lia. }
  assert (L2 : forall p, 0 <= p < W -> length (minus p) = Z.to_nat R).
  { intros q Hq. destruct (Hmsg q Hq) as [_ H1]. apply Forall2_length' in H1. rewrite length_zrange in H1. rewrite <- H1. f_equal; lia. }
  destruct (exchange_delivers W R plus minus L1 L2 K s Hs Hf) as [D1 D2].
  destruct (unpacked_spec p (got s p (p - 1)) (got s p (p + 1)) Hp) as (m' & E & Hm').
  - intros H0. pose proof (D1 (p - 1) ltac:(lia)) as D. replace (p - 1 + 1) with p in D by lia. rewrite D. apply Hmsg. lia.
  - intros H0. pose proof (D2 (p + 1) ltac:(lia)) as D. replace (p + 1 - 1) with p in D by lia. rewrite D. apply Hmsg. lia.
  - pose proof (Hu p Hp) as E'. unfold unpacked in E. rewrite E in E'. injection E' as E'. subst. now apply Hm'.
Qed.

Definition get_ok {A} (d : A) (o : outcome A) : A := match o with Ok a => a | _ => d end.

(** the exchange never fails and, with enough room in the library, it takes place whatever the schedule *)
Lemma exchanged_exists K : (Z.to_nat R <= K)%nat -> exists st', exchanged add zero K W R C st st'.
Proof.
  intros HK.
  set (plus := fun p => get_ok [] (pack_all (pack_plus zero) (st p) (C - 1) (zrange 0 R))).
  set (minus := fun p => get_ok [] (pack_all (pack_minus zero) (st p) 0 (zrange 0 R))).
  assert (Hpack : forall p, rank_range W p ->
       pack_all (pack_plus zero) (st p) (C - 1) (zrange 0 R) = Ok (plus p) /\
       pack_all (pack_minus zero) (st p) 0 (zrange 0 R) = Ok (minus p)).
  { intros p Hp. destruct (packs p Hp) as [(l & El & _) (l' & El' & _)]. unfold plus, minus. rewrite El, El'. auto. }
  pose proof (choose_msgs plus minus Hpack) as Hmsg.
  assert (L1 : forall p, 0 <= p < W -> length (plus p) = Z.to_nat R).
  { intros q Hq. destruct (Hmsg q Hq) as [H1 _]. apply Forall2_length' in H1. rewrite length_zrange in H1. rewrite <- H1. f_equal; lia. }
  assert (L2 : forall p, 0 <= p < W -> length (minus p) = Z.to_nat R).
  { intros q Hq. destruct (Hmsg q Hq) as [_ H1]. apply Forall2_length' in H1. rewrite length_zrange in H1. rewrite <- H1. f_equal; lia. }
  destruct (exchange_completes W R plus minus L1 L2 K (start (exchange_prog W plus minus)) HK (steps_refl _ _)) as (s & Hs & Hf).
  destruct (exchange_delivers W R plus minus L1 L2 K s Hs Hf) as [D1 D2].
  exists (fun p => get_ok (st p) (unpacked p (got s p (p - 1)) (got s p (p + 1)))).
  exists plus, minus. split; [exact Hpack|]. exists s. split; [exact Hs|]. split; [exact Hf|].
  intros p Hp. unfold rank_range in Hp.
  destruct (unpacked_spec p (got s p (p - 1)) (got s p (p + 1)) Hp) as (m' & E & Hm').
  - intros H0. pose proof (D1 (p - 1) ltac:(lia)) as D. replace (p - 1 + 1) with p in D by lia. rewrite D. apply Hmsg. lia.
  - intros H0. pose proof (D2 (p + 1) ltac:(lia)) as D. replace (p + 1 - 1) with p in D by lia. rewrite D. apply Hmsg. lia.
  - rewrite E. cbn [get_ok]. exact E.
Qed.
End E.
