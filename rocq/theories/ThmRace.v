(** Data races in the parallel loops over the domains: property C134. *)
From Verif Require Import Base DecompModel DecompProofs CollectorModel CollectorProofs RaceModel.
From Coq Require Import ZifyBool.
Open Scope Z_scope.

Section Race.
Context {P : Type}.
Variables cr cz : P -> Z.
Variable a : area.
Hypothesis HA : good_area a.
Notation run_particles := (run_particles P cr cz a).
Notation run_species := (run_species P cr cz a).
Notation run_domain := (run_domain P cr cz a).
Notation judge := (judge P cr cz a).
Notation alive := (alive cr cz a).
Notation home := (home cr cz a).
Notation all_home := (all_home cr cz a).
Notation ids_ok := (ids_ok a).
Notation all_int := (all_int cr cz a).

(** all particles of the row [i] have the property [Q] *)
Definition row (Q : P -> Prop) (i : Z) (st : smb P) : Prop := forall j s l p, In (s, l) (st i j) -> In p l -> Q p.

Lemma push_row Q i i' j' sid p st : row Q i st -> Q p -> row Q i (push P i' j' sid p st).
Proof.
  intros H Hp j s l q A B. unfold push, upd_dom in A. destruct ((i =? i') && (j =? j')) eqn:E.
  - destruct (In_push_home sid p _ s l q A B) as [(l' & X & Y)| ->]; [|exact Hp].
    assert (i = i' /\ j = j') as [-> ->] by lia. eapply H; eauto.
  - eapply H; eauto.
Qed.
Lemma particles_row Q i i0 j sid : forall l st k st', run_particles i0 j sid l st = Ok (k, st') -> row Q i st -> (forall p, In p l -> Q p) ->
  row Q i st' /\ incl k l.
Proof.
  induction l as [|p l IH]; intros st k st' E HR Hl; cbn [CollectorModel.run_particles] in E.
  - injection E as <- <-. split; [exact HR|intros ? []].
  - destruct (judge i0 j p) as [v| |]; cbn [bind] in E; try discriminate. destruct v as [| |i' j'].
    + destruct (run_particles i0 j sid l st) as [[k' st'']| |] eqn:E'; cbn [bind] in E; try discriminate. injection E as <- <-.
      destruct (IH _ _ _ E' HR ltac:(intros; apply Hl; now right)) as [A B]. split; [exact A|]. intros q [->|J]; [now left|right; now apply B].
    + destruct (IH _ _ _ E HR ltac:(intros; apply Hl; now right)) as [A B]. split; [exact A|]. intros q J. right. now apply B.
    + destruct (in_range a i' j'); [|discriminate].
      destruct (IH _ _ _ E) as [A B]; [apply push_row; [exact HR|apply Hl; now left]|intros; apply Hl; now right|].
      split; [exact A|]. intros q J. right. now apply B.
Qed.
Lemma species_row Q i i0 j : forall d st d' st', run_species i0 j d st = Ok (d', st') -> row Q i st -> (forall s l p, In (s, l) d -> In p l -> Q p) ->
  row Q i st' /\ (forall s l p, In (s, l) d' -> In p l -> Q p).
Proof.
  induction d as [|[s l] d IH]; intros st d' st' E HR Hd; cbn [CollectorModel.run_species fst snd] in E.
  - injection E as <- <-. split; [exact HR|intros ? ? ? []].
  - destruct (run_particles i0 j s l st) as [[k st1]| |] eqn:E1; cbn [bind] in E; try discriminate.
    destruct (run_species i0 j d st1) as [[d1 st2]| |] eqn:E2; cbn [bind] in E; try discriminate. injection E as <- <-.
    destruct (particles_row Q i _ _ _ _ _ _ _ E1 HR ltac:(intros p Hp; eapply Hd; [now left|exact Hp])) as [R1 I1].
    destruct (IH _ _ _ E2 R1 ltac:(intros; eapply Hd; [right; eassumption|eassumption])) as [R2 I2].
    split; [exact R2|]. intros s' l' p [X|X] Hp; [injection X as <- <-; eapply Hd; [now left|now apply I1]|eapply I2; eauto].
Qed.
Lemma domain_row Q i j st st' : run_domain i j st = Ok st' -> row Q i st -> row Q i st'.
Proof.
  unfold CollectorModel.run_domain. intros E HR. destruct (run_species i j (st i j) st) as [[d st1]| |] eqn:E1; cbn [bind] in E; try discriminate. injection E as <-.
  destruct (species_row Q i _ _ _ _ _ _ E1 HR ltac:(intros; eapply HR; eauto)) as [A B].
  intros j' s l p X Y. unfold upd_dom in X. destruct ((i =? i) && (j' =? j)); [eapply B; eauto|eapply A; eauto].
Qed.

(** a particle stays in its list until its domain is treated *)
Lemma push_keeps i j i' j' sid q st s l p : In (s, l) (st i j) -> In p l -> exists l', In (s, l') (push P i' j' sid q st i j) /\ In p l'.
Proof.
  intros A B. unfold push, upd_dom. destruct ((i =? i') && (j =? j')) eqn:E; [|now exists l].
  assert (i = i' /\ j = j') as [<- <-] by lia.
  exists (if s =? sid then l ++ [q] else l). split.
  - apply in_map_iff. exists (s, l). split; [|exact A]. unfold push_species. cbn [fst snd]. now destruct (s =? sid).
  - destruct (s =? sid); [apply in_or_app; now left|exact B].
Qed.
Lemma particles_keep i0 j0 sid i j s p : forall l0 st k st', run_particles i0 j0 sid l0 st = Ok (k, st') ->
  forall l, In (s, l) (st i j) -> In p l -> exists l', In (s, l') (st' i j) /\ In p l'.
Proof.
  induction l0 as [|q l0 IH]; intros st k st' E l A B; cbn [CollectorModel.run_particles] in E.
  - injection E as <- <-. now exists l.
  - destruct (judge i0 j0 q) as [v| |]; cbn [bind] in E; try discriminate. destruct v as [| |i' j'].
    + destruct (run_particles i0 j0 sid l0 st) as [[k' st'']| |] eqn:E'; cbn [bind] in E; try discriminate. injection E as <- <-. eapply IH; eauto.
    + eapply IH; eauto.
    + destruct (in_range a i' j'); [|discriminate]. destruct (push_keeps i j i' j' sid q st s l p A B) as (l' & A' & B'). eapply IH; eauto.
Qed.
Lemma species_keep i0 j0 i j s p : forall d st d' st', run_species i0 j0 d st = Ok (d', st') ->
  forall l, In (s, l) (st i j) -> In p l -> exists l', In (s, l') (st' i j) /\ In p l'.
Proof.
  induction d as [|[s0 l0] d IH]; intros st d' st' E l A B; cbn [CollectorModel.run_species fst snd] in E.
  - injection E as <- <-. now exists l.
  - destruct (run_particles i0 j0 s0 l0 st) as [[k st1]| |] eqn:E1; cbn [bind] in E; try discriminate.
    destruct (run_species i0 j0 d st1) as [[d1 st2]| |] eqn:E2; cbn [bind] in E; try discriminate. injection E as <- <-.
    destruct (particles_keep _ _ _ i j s p _ _ _ _ E1 l A B) as (l' & A' & B'). eapply IH; eauto.
Qed.
Lemma domain_keep i0 j0 i j s p st st' : run_domain i0 j0 st = Ok st' -> (i, j) <> (i0, j0) ->
  forall l, In (s, l) (st i j) -> In p l -> exists l', In (s, l') (st' i j) /\ In p l'.
Proof.
  unfold CollectorModel.run_domain. intros E N l A B. destruct (run_species i0 j0 (st i0 j0) st) as [[d st1]| |] eqn:E1; cbn [bind] in E; try discriminate. injection E as <-.
  rewrite upd_dom_ne by exact N. eapply species_keep; eauto.
Qed.

Notation thread := (thread cr cz a).
Notation acc_domain := (acc_domain cr cz a).
Notation acc_particle := (acc_particle cr cz a).

Lemma thread_ok ids i : 0 <= i < rd_ a -> forall js st, (forall j, In j js -> 0 <= j < zd_ a) -> ids_ok ids st -> all_int st -> exists t, thread i js st = Ok t.
Proof using HA.
  intros Hi. induction js as [|j js IH]; intros st Hj I N; cbn [RaceModel.thread]; [now eexists|].
  destruct (run_domain_spec cr cz a HA ids i j st Hi (Hj j (or_introl eq_refl)) I N) as (st' & E & I' & N' & _). rewrite E. cbn [bind].
  destruct (IH st' ltac:(intros; apply Hj; now right) I' N') as (t & Et). rewrite Et. cbn [bind]. now eexists.
Qed.

(** the iteration of a row without leaving particles only reads *)
Lemma thread_quiet ids i : 0 <= i < rd_ a -> forall js st t, (forall j, In j js -> 0 <= j < zd_ a) -> ids_ok ids st -> all_int st ->
  (forall j, 0 <= j < zd_ a -> all_home i j (st i j)) -> thread i js st = Ok t -> forall x, In x t -> exists j sid, x = rd (Parts i j sid).
Proof using HA.
  intros Hi. induction js as [|j js IH]; intros st t Hj I N H E x Hx; cbn [RaceModel.thread] in E; [injection E as <-; destruct Hx|].
  assert (J := Hj j (or_introl eq_refl)).
  destruct (run_domain_spec cr cz a HA ids i j st Hi J I N) as (st' & E1 & I' & N' & _ & K & _). rewrite E1 in E. cbn [bind] in E.
  destruct (thread i js st') as [t'| |] eqn:E2; cbn [bind] in E; try discriminate. injection E as <-.
  apply in_app_or in Hx as [Hx|Hx].
  - apply in_flat_map in Hx as ([s l] & Hs & Hx). apply in_flat_map in Hx as (p & Hp & Hx). cbn [fst snd] in *.
    destruct (H j J s l p Hs Hp) as [A B].
    destruct (judge_spec cr cz a HA i j p Hi J (N i j s l p Hi J Hs Hp)) as [[D _]|[(_ & _ & D)|(_ & D & _)]]; [congruence| |contradiction].
    unfold RaceModel.acc_particle in Hx. rewrite D in Hx. destruct Hx as [<-|[]]. now exists j, s.
  - eapply (IH st'); eauto. intros; apply Hj; now right.
Qed.
(** the iteration of a row whose particles stay near touches the lists of the neighbouring rows only *)
Definition near (i : Z) (p : P) : Prop := forall i' j', 0 <= i' < rd_ a -> 0 <= j' < zd_ a -> home i' j' p -> i - 1 <= i' <= i + 1.
Definition near_access (i : Z) (x : access) : Prop := match at_ x with Parts i' _ _ => i - 1 <= i' <= i + 1 | Jumped | Removed => True | Gen => False end.
Lemma thread_near ids i : 0 <= i < rd_ a -> forall js st t, (forall j, In j js -> 0 <= j < zd_ a) -> ids_ok ids st -> all_int st ->
  row (near i) i st -> thread i js st = Ok t -> forall x, In x t -> near_access i x.
Proof using HA.
  intros Hi. induction js as [|j js IH]; intros st t Hj I N H E x Hx; cbn [RaceModel.thread] in E; [injection E as <-; destruct Hx|].
  assert (J := Hj j (or_introl eq_refl)).
  destruct (run_domain_spec cr cz a HA ids i j st Hi J I N) as (st' & E1 & I' & N' & _). assert (H' := domain_row _ _ _ _ _ E1 H). rewrite E1 in E. cbn [bind] in E.
  destruct (thread i js st') as [t'| |] eqn:E2; cbn [bind] in E; try discriminate. injection E as <-.
  apply in_app_or in Hx as [Hx|Hx].
  - apply in_flat_map in Hx as ([s l] & Hs & Hx). apply in_flat_map in Hx as (p & Hp & Hx). cbn [fst snd] in *.
    unfold RaceModel.acc_particle in Hx.
    destruct (judge_spec cr cz a HA i j p Hi J (N i j s l p Hi J Hs Hp)) as [[_ D]|[(_ & _ & D)|(_ & _ & i' & j' & D & Hi' & Hj' & Hh & _)]]; rewrite D in Hx.
    + destruct Hx as [<-|[<-|[]]]; unfold near_access; cbn; [trivial|lia].
    + destruct Hx as [<-|[]]; unfold near_access; cbn; lia.
    + assert (K := H j s l p Hs Hp i' j' Hi' Hj' Hh). destruct Hx as [<-|Hx]; [unfold near_access; cbn; trivial|].
      apply in_app_or in Hx as [Hx|[<-|[]]]; [|unfold near_access; cbn; lia].
      apply in_map_iff in Hx as (y & <- & _). unfold near_access. cbn. lia.
  - eapply (IH st'); eauto. intros; apply Hj; now right.
Qed.
Lemma home_unique i j i' j' p : 0 <= i < rd_ a -> 0 <= j < zd_ a -> 0 <= i' < rd_ a -> 0 <= j' < zd_ a -> home i j p -> home i' j' p -> i = i' /\ j = j'.
Proof using HA.
  intros A B C D [H1 H2] [H3 H4]. pose proof HA as (S1 & S2 & _).
  split; [eapply (bound_owner_unique (nr a)); eauto|eapply (bound_owner_unique (nz a)); eauto].
Qed.
(** a particle that leaves for the domain (i', j') is appended to the list there and counted *)
Lemma thread_moves ids i j i' j' sid p : 0 <= i < rd_ a -> 0 <= j < zd_ a -> 0 <= i' < rd_ a -> 0 <= j' < zd_ a -> home i' j' p -> alive p = true -> (i', j') <> (i, j) ->
  forall js st t l, (forall j, In j js -> 0 <= j < zd_ a) -> ids_ok ids st -> all_int st -> In j js ->
  In (sid, l) (st i j) -> In p l -> thread i js st = Ok t -> In (wr Jumped) t /\ In (wr (Parts i' j' sid)) t.
Proof using HA.
  intros Hi J Hi' Hj' Hh Al Ne. induction js as [|j0 js IH]; intros st t l Hj I N Hin Hl Hp E; [destruct Hin|]. cbn [RaceModel.thread] in E.
  assert (J0 := Hj j0 (or_introl eq_refl)).
  destruct (run_domain_spec cr cz a HA ids i j0 st Hi J0 I N) as (st' & E1 & I' & N' & _). rewrite E1 in E. cbn [bind] in E.
  destruct (thread i js st') as [t'| |] eqn:E2; cbn [bind] in E; try discriminate. injection E as <-.
  destruct (Z.eq_dec j0 j) as [->|Nj].
  - assert (K : judge i j p = Ok (Move i' j')).
    { destruct (judge_spec cr cz a HA i j p Hi J (N i j sid l p Hi J Hl Hp)) as [[D _]|[(_ & D & _)|(_ & _ & i2 & j2 & D & Hi2 & Hj2 & Hh2 & _)]]; [congruence| |].
      - destruct (home_unique i j i' j' p) as [-> ->]; try assumption. now destruct Ne.
      - destruct (home_unique i2 j2 i' j' p) as [-> ->]; try assumption. }
    assert (S : In sid ids) by (destruct I as [_ I]; rewrite <- (I i j Hi J); apply (in_map fst) in Hl; exact Hl).
    assert (S' : exists s, In s (st i' j') /\ fst s = sid).
    { destruct I as [_ I]. rewrite <- (I i' j' Hi' Hj') in S. apply in_map_iff in S as (y & <- & S). now exists y. }
    destruct S' as (y & Y1 & Y2).
    split; apply in_or_app; left; apply in_flat_map; exists (sid, l); (split; [exact Hl|]); apply in_flat_map; exists p; (split; [exact Hp|]); unfold RaceModel.acc_particle; rewrite K; cbn [fst].
    + now left.
    + right. apply in_or_app. left. apply in_map_iff. exists y. split; [now rewrite Y2|]. apply filter_In. split; [exact Y1|]. rewrite Y2. apply Z.eqb_refl.
  - destruct Hin as [->|Hin]; [congruence|].
    destruct (domain_keep i j0 i j sid p st st' E1 ltac:(congruence) l Hl Hp) as (l' & Hl' & Hp').
    destruct (IH st' t' l' ltac:(intros; apply Hj; now right) I' N' Hin Hl' Hp' E2) as [A B]. split; apply in_or_app; now right.
Qed.
End Race.

(** two iterations of one parallel loop (a colour of rows and columns) have a race *)
Definition colour_race {P} (cr cz : P -> Z) (a : area) (idx idy : Z) (st : smb P) : Prop :=
  exists i1 i2 t1 t2, i1 <> i2 /\ In i1 (every2 idx (rd_ a)) /\ In i2 (every2 idx (rd_ a)) /\
    thread cr cz a i1 (every2 idy (zd_ a)) st = Ok t1 /\ thread cr cz a i2 (every2 idy (zd_ a)) st = Ok t2 /\ race t1 t2.

Lemma all_int_of {P} (cr cz : P -> Z) a st : (forall p, int_cells cr cz p) -> all_int cr cz a st.
Proof. intros H i j s l p _ _ _ _. apply H. Qed.
Lemma sizes_pos a : good_area a -> 0 <= rd_ a /\ 0 <= zd_ a.
Proof. intros (H1 & H2 & _). unfold sane in *. lia. Qed.

(** No race if particles leave domains of at most one row, for domains at most one row away.
    Missing for the full claim: particles leaving from several rows (see below). *)
Theorem C134_free_partial : forall P (cr cz : P -> Z) a ids st idx idy i0, good_area a -> (forall p, int_cells cr cz p) -> ids_ok a ids st ->
  0 <= idx -> 0 <= idy ->
  (forall i j s l p, 0 <= i < rd_ a -> 0 <= j < zd_ a -> i <> i0 -> In (s, l) (st i j) -> In p l -> alive cr cz a p = true /\ home cr cz a i j p) ->
  (forall j s l p i' j', In (s, l) (st i0 j) -> In p l -> 0 <= i' < rd_ a -> 0 <= j' < zd_ a -> home cr cz a i' j' p -> i0 - 1 <= i' <= i0 + 1) ->
  ~ colour_race cr cz a idx idy st.
Proof.
  intros P cr cz a ids st idx idy i0 HA Hint I Hx Hy Q Nr (i1 & i2 & t1 & t2 & Ne & M1 & M2 & T1 & T2 & x & y & X & Y & At & W).
  destruct (sizes_pos a HA) as [R0 Z0]. apply every2_In in M1 as [M1 P1]; try assumption. apply every2_In in M2 as [M2 P2]; try assumption.
  assert (J : forall j, In j (every2 idy (zd_ a)) -> 0 <= j < zd_ a) by (intros j H; apply every2_In in H; [lia|assumption|assumption]).
  assert (N := all_int_of cr cz a st Hint).
  assert (Far : i1 < i2 - 1 \/ i2 + 1 < i1).
  { assert (A1 := Z.div_mod (i1 - idx) 2 ltac:(lia)). assert (A2 := Z.div_mod (i2 - idx) 2 ltac:(lia)). lia. }
  assert (Quiet : forall i t z, 0 <= i < rd_ a -> i <> i0 -> thread cr cz a i (every2 idy (zd_ a)) st = Ok t -> In z t -> exists j sid, z = rd (Parts i j sid)).
  { intros i t z Hi Ni T Z. eapply (thread_quiet cr cz a HA ids i Hi _ st t J I N); [|exact T|exact Z].
    intros j Hj s l p A B. exact (Q i j s l p Hi Hj Ni A B). }
  assert (Near : forall i t z, 0 <= i < rd_ a -> i = i0 -> thread cr cz a i (every2 idy (zd_ a)) st = Ok t -> In z t -> near_access i z).
  { intros i t z Hi -> T Z. eapply (thread_near cr cz a HA ids i0 Hi _ st t J I N); [|exact T|exact Z].
    intros j s l p A B i' j' C D E. exact (Nr j s l p i' j' A B C D E). }
  destruct (Z.eq_dec i1 i0) as [E1|E1].
  - assert (A := Near i1 t1 x ltac:(lia) E1 T1 X). destruct (Quiet i2 t2 y ltac:(lia) ltac:(lia) T2 Y) as (j & s & ->).
    unfold near_access in A. rewrite At in A. cbn in A. lia.
  - destruct (Quiet i1 t1 x ltac:(lia) E1 T1 X) as (j & s & ->). destruct (Z.eq_dec i2 i0) as [E2|E2].
    + assert (A := Near i2 t2 y ltac:(lia) E2 T2 Y). unfold near_access in A. rewrite <- At in A. cbn in A. lia.
    + destruct (Quiet i2 t2 y ltac:(lia) E2 T2 Y) as (j' & s' & ->). cbn in W. destruct W; discriminate.
Qed.

(** Whenever particles leave domains of two rows of a colour, their threads change the same counter at the same time;
    if the particles leave for the same domain and are of the same species, also the same vector of particles. *)
Theorem C134_collector_refuted : forall P (cr cz : P -> Z) a ids st idx idy, good_area a -> (forall p, int_cells cr cz p) -> ids_ok a ids st -> 0 <= idx -> 0 <= idy ->
  forall i1 j1 s1 l1 p1 i2 j2 s2 l2 p2 i1' j1' i2' j2', i1 <> i2 -> 
  In i1 (every2 idx (rd_ a)) -> In j1 (every2 idy (zd_ a)) -> In i2 (every2 idx (rd_ a)) -> In j2 (every2 idy (zd_ a)) ->
  In (s1, l1) (st i1 j1) -> In p1 l1 -> In (s2, l2) (st i2 j2) -> In p2 l2 ->
  alive cr cz a p1 = true -> alive cr cz a p2 = true ->
  0 <= i1' < rd_ a -> 0 <= j1' < zd_ a -> home cr cz a i1' j1' p1 -> (i1', j1') <> (i1, j1) ->
  0 <= i2' < rd_ a -> 0 <= j2' < zd_ a -> home cr cz a i2' j2' p2 -> (i2', j2') <> (i2, j2) ->
  colour_race cr cz a idx idy st /\
  exists t1 t2, thread cr cz a i1 (every2 idy (zd_ a)) st = Ok t1 /\ thread cr cz a i2 (every2 idy (zd_ a)) st = Ok t2 /\
    In (wr Jumped) t1 /\ In (wr Jumped) t2 /\ In (wr (Parts i1' j1' s1)) t1 /\ In (wr (Parts i2' j2' s2)) t2.
Proof.
  intros P cr cz a ids st idx idy HA Hint I Hx Hy i1 j1 s1 l1 p1 i2 j2 s2 l2 p2 i1' j1' i2' j2' Ne M1 N1 M2 N2 L1 B1 L2 B2 V1 V2 R1 C1 H1 D1 R2 C2 H2 D2.
  destruct (sizes_pos a HA) as [R0 Z0].
  assert (J : forall j, In j (every2 idy (zd_ a)) -> 0 <= j < zd_ a) by (intros j H; apply every2_In in H; [lia|assumption|assumption]).
  assert (Ir : forall i, In i (every2 idx (rd_ a)) -> 0 <= i < rd_ a) by (intros j H; apply every2_In in H; [lia|assumption|assumption]).
  assert (N := all_int_of cr cz a st Hint).
  destruct (thread_ok cr cz a HA ids i1 (Ir _ M1) _ st J I N) as (t1 & T1). destruct (thread_ok cr cz a HA ids i2 (Ir _ M2) _ st J I N) as (t2 & T2).
  destruct (thread_moves cr cz a HA ids i1 j1 i1' j1' s1 p1 (Ir _ M1) (J _ N1) R1 C1 H1 V1 D1 _ st t1 l1 J I N N1 L1 B1 T1) as [A1 A2].
  destruct (thread_moves cr cz a HA ids i2 j2 i2' j2' s2 p2 (Ir _ M2) (J _ N2) R2 C2 H2 V2 D2 _ st t2 l2 J I N N2 L2 B2 T2) as [A3 A4].
  split.
  - exists i1, i2, t1, t2. repeat (split; [assumption|]). exists (wr Jumped), (wr Jumped). repeat (split; [assumption|]). split; [reflexivity|now left].
  - exists t1, t2. repeat (split; [assumption|]). assumption.
Qed.

(** The initial distribution is free of races if nothing is drawn ... *)
Theorem C134_distribute_partial : forall amounts1 amounts2, ~ race (acc_distribute false Eigen amounts1) (acc_distribute false Eigen amounts2).
Proof.
  intros m1 m2 (x & y & X & _). unfold acc_distribute in X. apply in_flat_map in X as (n & _ & X). cbn in X. rewrite Nat.mul_0_r in X. destruct X.
Qed.
(** ... otherwise any two domains that get particles change the common generator at the same time. *)
Theorem C134_distribute_refuted : forall random v amounts1 amounts2 n1 n2, random = true \/ v <> Eigen ->
  In n1 amounts1 -> In n2 amounts2 -> (0 < n1)%nat -> (0 < n2)%nat -> race (acc_distribute random v amounts1) (acc_distribute random v amounts2).
Proof.
  intros random v m1 m2 n1 n2 H I1 I2 P1 P2. exists (wr Gen), (wr Gen).
  assert (K : forall m n, In n m -> (0 < n)%nat -> In (wr Gen) (acc_distribute random v m)).
  { intros m n I Pn. apply in_flat_map. exists n. split; [exact I|].
    destruct (n * draws_particle random v)%nat eqn:E; [|now left]. exfalso. unfold draws_particle in E.
    destruct n; [lia|]. destruct random, v; cbn in E; try discriminate. destruct H as [H|H]; [discriminate|now destruct H]. }
  split; [now apply (K m1 n1)|]. split; [now apply (K m2 n2)|]. split; [reflexivity|now left].
Qed.

(** three rows of two cells, one column; particles with their cells: one of the first and one of the third domain are in
    the second row of domains *)
Definition ex_a : area := {| nr := 6; nz := 2; rd_ := 3; zd_ := 1 |}.
Definition ex_st : smb (Z * Z) := fun i j => if (i =? 0) then [(7, [(1, 0); (2, 1)])] else if i =? 1 then [(7, [(3, 0)])] else [(7, [(3, 1)])].
Definition clamp (z : Z) : Z := Z.max (-5) (Z.min z 5).
Example C134_ex :
  let cr := fun p : Z * Z => clamp (fst p) in let cz := fun p : Z * Z => clamp (snd p) in
  (good_area ex_a /\ (forall p, int_cells cr cz p) /\ ids_ok ex_a [7] ex_st) /\
  thread cr cz ex_a 0 (every2 0 1) ex_st = Ok [rd (Parts 0 0 7); wr Jumped; wr (Parts 1 0 7); wr (Parts 0 0 7)] /\
  thread cr cz ex_a 2 (every2 0 1) ex_st = Ok [wr Jumped; wr (Parts 1 0 7); wr (Parts 2 0 7)].
Proof.
  cbn zeta. split; [split; [|split]|split].
  - unfold good_area, sane, ex_a; cbn. repeat split; try lia; [exists 2|exists 2]; lia.
  - intros p. unfold int_cells, clamp. lia.
  - split; [repeat constructor; intros []|]. intros i j Hi Hj. unfold ex_st, ex_a in *. cbn in Hi. destruct (i =? 0), (i =? 1); reflexivity.
  - vm_compute. reflexivity.
  - vm_compute. reflexivity.
Qed.
Print Assumptions C134_free_partial.
Print Assumptions C134_collector_refuted.
Print Assumptions C134_distribute_partial.
Print Assumptions C134_distribute_refuted.
