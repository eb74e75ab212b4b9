(** Interleaved execution of threads with disjoint footprints. *)
From Verif Require Import Base OverlayModel.
From Coq Require Import Permutation.

Section Conc.
Context {S : Type}.
Implicit Types m n : doms S.
Local Notation action := (doms S -> outcome (doms S)).

Fixpoint run (l : list action) (m : doms S) : outcome (doms S) :=
  match l with [] => Ok m | a :: l' => do m' <- a m; run l' m' end.

(** [l] is an interleaving of the threads [ts]: at each step some thread executes its next action *)
Inductive interleave : list (list action) -> list action -> Prop :=
| il_nil : forall ts, Forall (fun t => t = []) ts -> interleave ts []
| il_step : forall ts1 a t ts2 l,
    interleave (ts1 ++ t :: ts2) l -> interleave (ts1 ++ (a :: t) :: ts2) (a :: l).

Definition agree (D : Z * Z -> bool) m n : Prop := forall p, D p = true -> m p = n p.
(** an action reads and writes only domains of [D] *)
Definition local (D : Z * Z -> bool) (a : action) : Prop := forall m m', agree D m m' ->
  match a m, a m' with
  | Ok n, Ok n' => agree D n n' /\ (forall p, D p = false -> n p = m p) /\ (forall p, D p = false -> n' p = m' p)
  | Fatal, Fatal => True
  | UB, UB => True
  | _, _ => False
  end.

Lemma agree_refl D m : agree D m m.
Proof. now intros p _. Qed.

Lemma run_app l1 : forall l2 m, run (l1 ++ l2) m = do m' <- run l1 m; run l2 m'.
Proof.
  induction l1 as [|a l1 IH]; intros l2 m; cbn [app run bind]; [reflexivity|].
  destruct (a m); cbn [bind]; auto.
Qed.

Lemma run_local D t : Forall (local D) t -> local D (run t).
Proof.
  induction 1 as [|a t Ha Ht IH]; intros m m' A; cbn [run].
  - repeat split; auto.
  - specialize (Ha m m' A). destruct (a m) as [n| |], (a m') as [n'| |]; try contradiction; cbn [bind]; auto.
    destruct Ha as (A1 & F1 & F2). specialize (IH n n' A1).
    destruct (run t n) as [k| |], (run t n') as [k'| |]; try contradiction; auto.
    destruct IH as (A2 & G1 & G2). split; [exact A2|]. split; intros p Hp.
    + now rewrite G1, F1.
    + now rewrite G2, F2.
Qed.

(** threads together with their footprints *)
Definition thread : Type := ((Z * Z -> bool) * list action)%type.
Definition disj (t u : thread) : Prop := forall p, fst t p = true -> fst u p = false.
Definition ok_threads (ts : list thread) : Prop :=
  ForallOrdPairs disj ts /\ Forall (fun t => Forall (local (fst t)) (snd t)) ts.

Lemma disj_sym t u : disj t u -> disj u t.
Proof.
  intros H p Hp. destruct (fst t p) eqn:E; [|reflexivity]. apply H in E. congruence.
Qed.

Lemma fop_mid (ts1 : list thread) t ts2 :
  ForallOrdPairs disj (ts1 ++ t :: ts2) <->
  ForallOrdPairs disj (ts1 ++ ts2) /\ (forall u, In u (ts1 ++ ts2) -> disj t u).
Proof.
  induction ts1 as [|u ts1 IH]; cbn [app].
  - split.
    + inversion 1 as [|? ? H1 H2]; subst. split; [exact H2|]. now rewrite Forall_forall in H1.
    + intros [H1 H2]. constructor; [now apply Forall_forall|exact H1].
  - split.
    + inversion 1 as [|? ? H1 H2]; subst. apply IH in H2 as [H2 H3].
      rewrite Forall_forall in H1. split.
      * constructor; [|exact H2]. apply Forall_forall. intros x Hx. apply H1.
        apply in_app_iff in Hx. apply in_app_iff. destruct Hx; [now left|right; now right].
      * intros x [<-|Hx]; [|auto]. apply disj_sym. apply H1. apply in_app_iff. right; now left.
    + intros [H1 H2]. inversion H1 as [|? ? H3 H4]; subst. rewrite Forall_forall in H3. constructor.
      * apply Forall_forall. intros x Hx. apply in_app_iff in Hx as [Hx|[<-|Hx]].
        -- apply H3, in_app_iff; now left.
        -- apply disj_sym. apply H2. now left.
        -- apply H3, in_app_iff; now right.
      * apply IH. split; [exact H4|]. intros x Hx. apply H2. now right.
Qed.

Lemma map_mid (ts : list thread) ts1 a t ts2 :
  map snd ts = ts1 ++ (a :: t) :: ts2 ->
  exists us1 D us2, ts = us1 ++ (D, a :: t) :: us2 /\ map snd us1 = ts1 /\ map snd us2 = ts2.
Proof.
  intros E. apply map_eq_app in E as (us1 & r & -> & E1 & E2). destruct r as [|[D x] us2]; [discriminate|].
  cbn [map snd] in E2. injection E2 as -> E2. now exists us1, D, us2.
Qed.

Lemma ok_step us1 D a t us2 : ok_threads (us1 ++ (D, a :: t) :: us2) ->
  ok_threads (us1 ++ (D, t) :: us2) /\ local D a /\
  (forall u, In u (us1 ++ us2) -> disj (D, t) u) /\
  (forall u, In u (us1 ++ us2) -> Forall (local (fst u)) (snd u)) /\ Forall (local D) t.
Proof.
  intros [H1 H2]. apply fop_mid in H1 as [H1 H3]. rewrite Forall_forall in H2.
  assert (Hd : forall u, In u (us1 ++ us2) -> disj (D, t) u) by (intros u Hu; exact (H3 u Hu)).
  assert (Hl : forall u, In u (us1 ++ us2) -> Forall (local (fst u)) (snd u)).
  { intros u Hu. apply H2. apply in_app_iff in Hu. apply in_app_iff. destruct Hu; [now left|right; now right]. }
  specialize (H2 (D, a :: t) ltac:(apply in_app_iff; right; now left)). cbn [fst snd] in H2.
  inversion H2; subst. repeat split; auto.
  - apply fop_mid. split; assumption.
  - apply Forall_forall. intros u Hu. apply in_app_iff in Hu as [Hu|[<-|Hu]]; auto.
    + apply Hl, in_app_iff; now left.
    + apply Hl, in_app_iff; now right.
Qed.

(** a successful interleaving: every thread alone succeeds and determines its part of the result *)
Lemma interleave_threads l : forall ts m m',
  interleave (map snd ts) l -> ok_threads ts -> run l m = Ok m' ->
  (forall D t, In (D, t) ts -> exists n, run t m = Ok n /\ agree D n m') /\
  (forall p, (forall D t, In (D, t) ts -> D p = false) -> m' p = m p).
Proof.
  induction l as [|a l IH]; intros ts m m' HI Hok Hrun.
  - cbn [run] in Hrun. injection Hrun as <-. inversion HI as [? Hn|]; subst. rewrite Forall_forall in Hn.
    split; [|reflexivity]. intros D t Hin. exists m.
    rewrite (Hn t) by (apply in_map_iff; exists (D, t); auto). split; [reflexivity|apply agree_refl].
  - inversion HI as [|ts1 a' t ts2 l' HI' E]; subst. symmetry in E.
    apply map_mid in E as (us1 & D & us2 & -> & <- & <-).
    apply ok_step in Hok as (Hok' & La & Hd & Hl & Lt).
    cbn [run] in Hrun. destruct (a m) as [m1| |] eqn:Ea; cbn [bind] in Hrun; try discriminate.
    assert (Fr : forall p, D p = false -> m1 p = m p).
    { specialize (La m m (agree_refl D m)). rewrite Ea in La. apply La. }
    assert (HI2 : interleave (map snd (us1 ++ (D, t) :: us2)) l) by (rewrite map_app; exact HI').
    destruct (IH _ m1 m' HI2 Hok' Hrun) as [H1 H2]. split.
    + intros D' t' Hin. apply in_app_iff in Hin as [Hin|[[= <- <-]|Hin]].
      2: { destruct (H1 D t ltac:(apply in_app_iff; right; now left)) as (n & En & An).
           exists n. cbn [run]. rewrite Ea; cbn [bind]. auto. }
      all: assert (Hu : In (D', t') (us1 ++ us2)) by (apply in_app_iff; auto);
        destruct (H1 D' t' ltac:(apply in_app_iff; apply in_app_iff in Hu; destruct Hu; [now left|right; now right]))
          as (n & En & An);
        pose proof (run_local D' t' (Hl _ Hu)) as Lo;
        assert (A : agree D' m1 m) by (intros p Hp; apply Fr; specialize (Hd _ Hu p); cbn [fst] in Hd;
           destruct (D p) eqn:E; [rewrite (Hd eq_refl) in Hp; discriminate|reflexivity]);
        specialize (Lo m1 m A); rewrite En in Lo; destruct (run t' m) as [n'| |]; try contradiction;
        exists n'; split; [reflexivity|]; intros p Hp; destruct Lo as (Lo & _); rewrite <- Lo by exact Hp; now apply An.
    + intros p Hp. rewrite (H2 p); [apply Fr; eapply Hp; apply in_app_iff; right; now left|].
      intros D' t' Hin. apply in_app_iff in Hin as [Hin|[[= <- <-]|Hin]].
      * eapply Hp. apply in_app_iff. left. exact Hin.
      * eapply Hp. apply in_app_iff. right. now left.
      * eapply Hp. apply in_app_iff. right. right. exact Hin.
Qed.

(** if every thread alone succeeds, every interleaving succeeds *)
Lemma threads_interleave l : forall ts m,
  interleave (map snd ts) l -> ok_threads ts ->
  (forall D t, In (D, t) ts -> exists n, run t m = Ok n) ->
  exists m', run l m = Ok m'.
Proof.
  induction l as [|a l IH]; intros ts m HI Hok Hall.
  - now exists m.
  - inversion HI as [|ts1 a' t ts2 l' HI' E]; subst. symmetry in E.
    apply map_mid in E as (us1 & D & us2 & -> & <- & <-).
    apply ok_step in Hok as (Hok' & La & Hd & Hl & Lt).
    destruct (Hall D (a :: t) ltac:(apply in_app_iff; right; now left)) as (n & En).
    cbn [run] in *. destruct (a m) as [m1| |] eqn:Ea; cbn [bind] in *; try discriminate.
    assert (Fr : forall p, D p = false -> m1 p = m p).
    { specialize (La m m (agree_refl D m)). rewrite Ea in La. apply La. }
    apply (IH (us1 ++ (D, t) :: us2)); [rewrite map_app; exact HI'|exact Hok'|].
    intros D' t' Hin. apply in_app_iff in Hin as [Hin|[[= <- <-]|Hin]]; [|eauto|].
    all: assert (Hu : In (D', t') (us1 ++ us2)) by (apply in_app_iff; auto);
      destruct (Hall D' t' ltac:(apply in_app_iff; apply in_app_iff in Hu; destruct Hu; [now left|right; now right]))
        as (k & Ek);
      pose proof (run_local D' t' (Hl _ Hu)) as Lo;
      assert (A : agree D' m m1) by (intros p Hp; symmetry; apply Fr; specialize (Hd _ Hu p); cbn [fst] in Hd;
         destruct (D p) eqn:E; [rewrite (Hd eq_refl) in Hp; discriminate|reflexivity]);
      specialize (Lo m m1 A); rewrite Ek in Lo; destruct (run t' m1) as [n'| |]; try contradiction; eauto.
Qed.

(** hence all interleavings agree *)
Theorem interleave_deterministic ts l1 l2 m m1 :
  ok_threads ts -> interleave (map snd ts) l1 -> interleave (map snd ts) l2 -> run l1 m = Ok m1 ->
  exists m2, run l2 m = Ok m2 /\ forall p, m2 p = m1 p.
Proof.
  intros Hok H1 H2 E1. destruct (interleave_threads l1 ts m m1 H1 Hok E1) as [T1 F1].
  destruct (threads_interleave l2 ts m H2 Hok) as (m2 & E2).
  { intros D t Hin. destruct (T1 D t Hin) as (n & En & _). eauto. }
  exists m2. split; [exact E2|]. destruct (interleave_threads l2 ts m m2 H2 Hok E2) as [T2 F2].
  intros p.
  destruct (existsb (fun t => fst t p) ts) eqn:Ex.
  - apply existsb_exists in Ex as ([D t] & Hin & HD). cbn [fst] in HD.
    destruct (T1 D t Hin) as (n & En & A1). destruct (T2 D t Hin) as (n' & En' & A2).
    rewrite En in En'. injection En' as <-. rewrite <- (A1 p HD). symmetry. now apply A2.
  - assert (N : forall D t, In (D, t) ts -> D p = false).
    { intros D t Hin. destruct (D p) eqn:E; [|reflexivity].
      assert (existsb (fun t => fst t p) ts = true) by (apply existsb_exists; exists (D, t); auto). congruence. }
    now rewrite F1, F2.
Qed.

(** the sequential execution, thread after thread, is an interleaving *)
Lemma interleave_nil_front ts l : interleave ts l -> interleave ([] :: ts) l.
Proof.
  induction 1 as [ts H|ts1 a t ts2 l H IH].
  - constructor. constructor; auto.
  - apply (il_step ([] :: ts1)). exact IH.
Qed.
Lemma interleave_concat ts : interleave ts (concat ts).
Proof.
  induction ts as [|t ts IH]; cbn [concat]; [constructor; constructor|].
  induction t as [|a t IHt]; cbn [app]; [now apply interleave_nil_front|].
  apply (il_step []). exact IHt.
Qed.
End Conc.
