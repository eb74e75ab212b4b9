(** Theorems about the MPI parts: properties C13 - C15. *)
From Verif Require Import Base GridModel GridProofs OverlayModel MpiModel MpiNet MpiData MpiExchange.
From Coq Require Import ZifyBool Wf_nat.

(** * C13 *)
(** [W] ranks with [R] x [C] domains each, all grids of [X] x [Y] stored cells, at least the four shared
    columns wide (twice that if one domain borders on both neighbours): whatever the schedule and the
    buffering, after a completed exchange the four shared columns hold, on both sides, own value + other's
    value, in all rows (ghost rows included) and components. *)
Theorem C13_shared_columns : forall T (add : T -> T -> T) (zero : T) K W R C X Y st st',
  1 <= C -> 4 <= Y -> (C = 1 -> 8 <= Y) -> ready W R C X Y st ->
  exchanged add zero K W R C st st' ->
  forall p i k a b, 0 <= p -> p + 1 < W -> 0 <= i < R -> 0 <= k < 3 -> 0 <= a < X -> 0 <= b < 4 ->
    cell (compk (st' p (i, C - 1)) k) a (Y - 4 + b) =
      add (cell (compk (st p (i, C - 1)) k) a (Y - 4 + b)) (cell (compk (st (p + 1) (i, 0)) k) a b) /\
    cell (compk (st' (p + 1) (i, 0)) k) a b =
      add (cell (compk (st (p + 1) (i, 0)) k) a b) (cell (compk (st p (i, C - 1)) k) a (Y - 4 + b)).
Proof.
  intros T add zero K W R C X Y st st' HC HY HY8 Hst HE p i k a b Hp Hp1 Hi Hk Ha Hb.
  split; rewrite (exchanged_values add zero W R C X Y HC HY st Hst HY8 K st' HE) by lia; unfold want.
  - replace ((0 <=? i) && (i <? R) && (0 <=? a) && (a <? X)) with true by lia.
    replace ((0 <? p) && (C - 1 =? 0) && (0 <=? Y - 4 + b) && (Y - 4 + b <? 4)) with false by lia.
    replace ((p <? W - 1) && (C - 1 =? C - 1) && (Y - 4 <=? Y - 4 + b) && (Y - 4 + b <? Y)) with true by lia.
    repeat f_equal; lia.
  - replace ((0 <=? i) && (i <? R) && (0 <=? a) && (a <? X)) with true by lia.
    replace ((0 <? p + 1) && (0 =? 0) && (0 <=? b) && (b <? 4)) with true by lia.
    repeat f_equal; lia.
Qed.

(** hence both ranks hold the same value when the addition is commutative (as IEEE addition is) *)
Theorem C13_ranks_agree : forall T (add : T -> T -> T) (zero : T) K W R C X Y st st',
  1 <= C -> 4 <= Y -> (C = 1 -> 8 <= Y) -> ready W R C X Y st ->
  (forall x y, add x y = add y x) ->
  exchanged add zero K W R C st st' ->
  forall p i k a b, 0 <= p -> p + 1 < W -> 0 <= i < R -> 0 <= k < 3 -> 0 <= a < X -> 0 <= b < 4 ->
    cell (compk (st' p (i, C - 1)) k) a (Y - 4 + b) = cell (compk (st' (p + 1) (i, 0)) k) a b.
Proof.
  intros T add zero K W R C X Y st st' HC HY HY8 Hst Hcomm HE p i k a b Hp Hp1 Hi Hk Ha Hb.
  destruct (C13_shared_columns T add zero K W R C X Y st st' HC HY HY8 Hst HE p i k a b Hp Hp1 Hi Hk Ha Hb) as [-> ->].
  apply Hcomm.
Qed.

(** every other cell keeps its value *)
Theorem C13_others_unchanged : forall T (add : T -> T -> T) (zero : T) K W R C X Y st st',
  1 <= C -> 4 <= Y -> (C = 1 -> 8 <= Y) -> ready W R C X Y st ->
  exchanged add zero K W R C st st' ->
  forall p i c k a b, 0 <= p < W -> 0 <= k < 3 ->
    ~ (0 < p /\ 0 <= i < R /\ c = 0 /\ 0 <= a < X /\ 0 <= b < 4) ->
    ~ (p < W - 1 /\ 0 <= i < R /\ c = C - 1 /\ 0 <= a < X /\ Y - 4 <= b < Y) ->
    cell (compk (st' p (i, c)) k) a b = cell (compk (st p (i, c)) k) a b.
Proof.
  intros T add zero K W R C X Y st st' HC HY HY8 Hst HE p i c k a b Hp Hk N1 N2.
  rewrite (exchanged_values add zero W R C X Y HC HY st Hst HY8 K st' HE) by lia. unfold want.
  destruct ((0 <=? i) && (i <? R) && (0 <=? a) && (a <? X)) eqn:E; [|reflexivity].
  replace ((0 <? p) && (c =? 0) && (0 <=? b) && (b <? 4)) with false by lia.
  now replace ((p <? W - 1) && (c =? C - 1) && (Y - 4 <=? b) && (b <? Y)) with false by lia.
Qed.

(** the exchange can take place: no access is out of bounds *)
Theorem C13_takes_place : forall T (add : T -> T -> T) (zero : T) K W R C X Y st,
  1 <= C -> 4 <= Y -> (C = 1 -> 8 <= Y) -> ready W R C X Y st -> (Z.to_nat R <= K)%nat ->
  exists st', exchanged add zero K W R C st st'.
Proof.
  intros T add zero K W R C X Y st HC HY HY8 Hst HK.
  exact (exchanged_exists add zero W R C X Y HC HY st Hst HY8 K HK).
Qed.

(** three ranks with 2 x 1 domains of 4 x 4 cells (8 x 8 stored) *)
Definition mpi_test (p : Z) : doms (grid3 Z) := fun q =>
  let g k := new_grid 4 4 2 (fun a b => 100000 * p + 10000 * fst q + 1000 * k + 10 * a + b) in
  mkGrid3 (g 0) (g 1) (g 2).
Example C13_ex_ready : ready 3 2 1 8 8 mpi_test.
Proof.
  intros p i c _ _ _. unfold mpi_test. split; [|split; reflexivity].
  split; [apply new_grid_wf; lia|]. split; repeat split.
Qed.
Example C13_ex_takes_place : exists st', exchanged Z.add 0 2 3 2 1 mpi_test st'.
Proof. apply (C13_takes_place Z Z.add 0 2 3 2 1 8 8); try lia. exact C13_ex_ready. Qed.
(** a domain narrower than eight columns that borders on both neighbours violates the width condition *)
Example C13_ex_pack : match pack_plus 0 (mpi_test 1 (1, 0)) 1 with
  | Ok m => mlen m = 8 /\ mcol m 3 2 5 = 112057 /\ mcol m 0 0 0 = 110004 | _ => False end.
Proof. vm_compute. repeat split; reflexivity. Qed.

(** * C14 *)
Section C14.
Context {M : Type}.

(** a library that can store all [R] messages of a pair of neighbours: every schedule is finite and only
    stops when all ranks have finished *)
Theorem C14_buffered_partial : forall K W R (plus minus : Z -> list M),
  (forall p, 0 <= p < W -> length (plus p) = Z.to_nat R) ->
  (forall p, 0 <= p < W -> length (minus p) = Z.to_nat R) ->
  (Z.to_nat R <= K)%nat ->
  (forall s, steps K (start (exchange_prog W plus minus)) s -> stuck K s -> finished s) /\
  (forall s, steps K (start (exchange_prog W plus minus)) s -> Acc (fun t u => step K u t) s).
Proof.
  intros K W R plus minus L1 L2 HK. split.
  - intros s Hs Hst. exact (exchange_progress W R plus minus L1 L2 K s HK Hs Hst).
  - intros s Hs.
    assert (Hc : confined (Z.to_nat W) (prog s)).
    { remember (start (exchange_prog W plus minus)) as s0 eqn:E. induction Hs as [s1|s1 t u H IH Hst]; subst.
      - cbn [prog start]. apply confined_P.
      - eapply step_measure; eauto. }
    clear Hs. remember (total (prog s) (Z.to_nat W)) as n eqn:En. revert s Hc En.
    induction n as [n IH] using (well_founded_induction lt_wf). intros s Hc En. constructor. intros t Ht.
    destruct (step_measure _ _ _ _ Hc Ht) as [Hc' Hm]. apply (IH (total (prog t) (Z.to_nat W))); auto. lia.
Qed.

(** with less room the ranks can block each other for ever - without buffering ([K = 0]) they always do *)
Theorem C14_rendezvous_refuted : forall K W R (plus minus : Z -> list M),
  (forall p, 0 <= p < W -> length (plus p) = Z.to_nat R) ->
  (forall p, 0 <= p < W -> length (minus p) = Z.to_nat R) ->
  2 <= W -> (K < Z.to_nat R)%nat ->
  exists s, steps K (start (exchange_prog W plus minus)) s /\ stuck K s /\ ~ finished s.
Proof. intros K W R plus minus L1 L2 H2 HK. eapply exchange_deadlock; eauto. Qed.

Theorem C14_no_buffer_refuted : forall W R (plus minus : Z -> list M),
  (forall p, 0 <= p < W -> length (plus p) = Z.to_nat R) ->
  (forall p, 0 <= p < W -> length (minus p) = Z.to_nat R) ->
  2 <= W -> 1 <= R ->
  stuck 0 (start (exchange_prog W plus minus)) /\ ~ finished (start (exchange_prog W plus minus)).
Proof.
  intros W R plus minus L1 L2 H2 HR.
  destruct (exchange_deadlock W R plus minus L1 L2 0 H2 ltac:(lia)) as (s & Hs & Hst & Hf).
  assert (Hh : forall p, 0 <= p < W -> exists q m l, exchange_prog W plus minus p = Send q m :: l).
  { intros p Hp. destruct (P_first W plus minus p H2 Hp) as [l E]. rewrite E. unfold first_msgs.
    destruct (p <? W - 1) eqn:Ep.
    - pose proof (L1 p Hp). destruct (plus p); [cbn in *; lia|]. cbn [map app]. eauto.
    - pose proof (L2 p Hp). destruct (minus p); [cbn in *; lia|]. cbn [map app]. eauto. }
  assert (Hin : forall p a l, exchange_prog W plus minus p = a :: l -> 0 <= p < W).
  { intros p a l E. unfold exchange_prog in E. destruct ((0 <=? p) && (p <? W)) eqn:Er; [lia|discriminate]. }
  split.
  - intros t Ht. inversion Ht as [s0 p q m l Hp Hk | s0 p q m l c Hp Hc | s0 p q m l l' Hne Hp Hq Hc]; subst; cbn [prog chan start] in *.
    + cbn in Hk. lia.
    + discriminate.
    + destruct (Hh q (Hin _ _ _ Hq)) as (q' & m' & l2 & E). rewrite E in Hq. discriminate.
  - intros F. destruct (Hh 0 ltac:(lia)) as (q & m & l & E). specialize (F 0). cbn [prog start] in F. rewrite E in F. discriminate.
Qed.
End C14.

Example C14_ex : exchange_prog 3 (fun p => [p]) (fun p => [10 + p]) 1 = [Send 2 1; Recv 2; Send 0 11; Recv 0].
Proof. reflexivity. Qed.

(** * C15 *)
(** [ID] owns the longitudinal cell [z] *)
Definition owns_cell (cells domains nprocs ID z : Z) : Prop :=
  0 <= ID < nprocs /\ exists s, split_geometry cells domains nprocs ID = Ok s /\ s_begin s <= z < s_end s.

Lemma owns_iff cells domains nprocs ID z : 0 <= cells < 2 ^ 64 -> 0 < nprocs ->
  (owns_cell cells domains nprocs ID z <-> 0 <= ID < nprocs /\ cells / nprocs * ID <= z < cells / nprocs * (ID + 1)).
Proof.
  intros Hc Hn. unfold owns_cell, split_geometry. replace (nprocs =? 0) with false by lia.
  assert (B : 0 <= ID < nprocs -> u64 (cells / nprocs * ID) = cells / nprocs * ID /\
                                  u64 (cells / nprocs * (ID + 1)) = cells / nprocs * (ID + 1)).
  { intros HI. assert (0 <= cells / nprocs) by (apply Z.div_pos; lia).
    assert (nprocs * (cells / nprocs) <= cells) by (apply Z.mul_div_le; lia).
    split; apply u64_small; nia. }
  split.
  - intros [HI (s & E & Hz)]. injection E as <-. cbn [s_begin s_end] in Hz. destruct (B HI) as [E1 E2]. rewrite E1, E2 in Hz. auto.
  - intros [HI Hz]. split; auto. eexists. split; [reflexivity|]. cbn [s_begin s_end]. destruct (B HI) as [E1 E2]. now rewrite E1, E2.
Qed.

(** no cell has two owners, and all cells have one exactly if the number of ranks divides the number of cells *)
Theorem C15_disjoint : forall cells domains nprocs I J z, 0 <= cells < 2 ^ 64 -> 0 < nprocs ->
  owns_cell cells domains nprocs I z -> owns_cell cells domains nprocs J z -> I = J.
Proof.
  intros cells domains nprocs I J z Hc Hn HI HJ. apply owns_iff in HI; auto. apply owns_iff in HJ; auto.
  assert (0 <= cells / nprocs) by (apply Z.div_pos; lia). nia.
Qed.
Theorem C15_cover_partial : forall cells domains nprocs, 0 <= cells < 2 ^ 64 -> 0 < nprocs ->
  ((forall z, 0 <= z < cells -> exists ID, owns_cell cells domains nprocs ID z) <-> (nprocs | cells)).
Proof.
  intros cells domains nprocs Hc Hn. split.
  - intros H. destruct (Z.eq_dec (cells mod nprocs) 0) as [E|E]; [now apply Z.mod_divide; [lia|]|exfalso].
    pose proof (Z.mod_pos_bound cells nprocs Hn). pose proof (Z.div_mod cells nprocs ltac:(lia)).
    assert (0 <= cells / nprocs) by (apply Z.div_pos; lia).
    assert (0 <= nprocs * (cells / nprocs)) by nia.
    destruct (H (cells - 1)) as [ID HI]; [lia|]. apply owns_iff in HI; auto.
    assert (cells / nprocs * (ID + 1) <= cells / nprocs * nprocs) by (apply Z.mul_le_mono_nonneg_l; lia). lia.
  - intros [q Hq] z Hz. assert (E : cells / nprocs = q) by (rewrite Hq; apply Z.div_mul; lia).
    assert (0 < q) by nia. exists (z / q). apply owns_iff; auto. rewrite E.
    pose proof (Z.mod_pos_bound z q ltac:(lia)). pose proof (Z.div_mod z q ltac:(lia)).
    assert (0 <= z / q) by (apply Z.div_pos; lia). split; nia.
Qed.
(** 100 cells on 3 ranks: the last cell belongs to nobody (and the last rank still claims the right wall) *)
Theorem C15_remainder_refuted : exists cells nprocs z, 0 <= z < cells /\ 0 < nprocs < cells /\
  (forall domains ID, ~ owns_cell cells domains nprocs ID z) /\
  (exists s, split_geometry cells 6 nprocs (nprocs - 1) = Ok s /\ s_wall_r s = true /\ s_end s = z).
Proof.
  exists 100, 3, 99. split; [lia|]. split; [lia|]. split.
  - intros domains ID H. apply owns_iff in H; [|lia..]. change (100 / 3) with 33 in H. lia.
  - eexists. repeat split.
Qed.
(** more ranks than longitudinal domains: a rank gets no domain at all *)
Theorem C15_no_domain_refuted : forall cells domains nprocs ID, 0 <= domains < nprocs ->
  exists s, split_geometry cells domains nprocs ID = Ok s /\ s_domains s = 0.
Proof.
  intros cells domains nprocs ID H. unfold split_geometry. replace (nprocs =? 0) with false by lia.
  eexists. split; [reflexivity|]. cbn [s_domains]. apply Z.div_small. lia.
Qed.
Example C15_ex : owns_cell 100 4 4 2 73 /\ (4 | 100).
Proof. split; [apply owns_iff; [lia|lia|]; change (100 / 4) with 25; lia|]. now exists 25. Qed.

Print Assumptions C13_shared_columns.
Print Assumptions C13_ranks_agree.
Print Assumptions C13_others_unchanged.
Print Assumptions C13_takes_place.
Print Assumptions C14_buffered_partial.
Print Assumptions C14_rendezvous_refuted.
Print Assumptions C14_no_buffer_refuted.
Print Assumptions C15_disjoint.
Print Assumptions C15_cover_partial.
Print Assumptions C15_remainder_refuted.
Print Assumptions C15_no_domain_refuted.
