(** Theorems about the data output of several processes: property C137. *)
From Verif Require Import Base GridModel GridProofs DecompModel DecompProofs OutModel OutProofs ProbeModel ProbeProofs MpiModel OutMpiModel ThmOut.
From Coq Require Import ZifyBool.
Open Scope Z_scope.

(** NR x NZ cells; W ranks with the same number of cells and at least one longitudinal domain each; no domain wider than 32767 cells;
    [G p r z]: the grid of domain (r, z) of rank p *)
Definition shared {T} NR NZ R D W (G : Z -> Z -> Z -> grid T) : Prop :=
  sane NR R 0 /\ 1 <= W <= D /\ (W | NZ) /\ 0 <= NZ /\ D < 2 ^ 32 /\ NZ * D < 2 ^ 64 /\
  (forall r, 0 <= r < R -> local_amount NR R 0 r < 2 ^ 15) /\
  (forall p z, 0 <= p < W -> 0 <= z < D / W -> rank_bz NZ D W p (z + 1) - rank_bz NZ D W p z < 2 ^ 15) /\
  (forall p r z, 0 <= p < W -> 0 <= r < R -> 0 <= z < D / W ->
     wf (G p r z) /\ 1 <= os (G p r z) /\ xs (G p r z) = bound NR R 0 (r + 1) - bound NR R 0 r /\
     ys (G p r z) = rank_bz NZ D W p (z + 1) - rank_bz NZ D W p z).
(** the domain (r, z) of rank p owns the cell (i, j) *)
Definition rank_owns NR NZ R D W p r z i j : Prop :=
  0 <= p < W /\ 0 <= r < R /\ 0 <= z < D / W /\
  bound NR R 0 r <= i < bound NR R 0 (r + 1) /\ rank_bz NZ D W p z <= j < rank_bz NZ D W p (z + 1).
Definition rank_value {T} NR NZ R D W (G : Z -> Z -> Z -> grid T) p r z i j : T :=
  cell (G p r z) (i - bound NR R 0 r + os (G p r z)) (j - rank_bz NZ D W p z + os (G p r z)).

Section Shared.
Context {T : Type}.
Variable zero : T.
Variables NR NZ R D W : Z.
Variable G : Z -> Z -> Z -> grid T.
Hypothesis HS : shared NR NZ R D W G.
Let K := D / W.
Let a := NZ / W.

Lemma sizes : 1 <= K /\ 0 <= a /\ a * W = NZ /\ K * W <= D /\ K < 2 ^ 32 /\ a * K < 2 ^ 64 /\ NZ < 2 ^ 64 /\ 1 <= W /\ sane NR R 0.
Proof using HS a.
  destruct HS as (S & H1 & [q H2] & H3 & H4 & H5 & _). subst K a.
  assert (1 <= D / W) by (apply Z.div_le_lower_bound; lia).
  assert (W * (D / W) <= D) by (apply Z.mul_div_le; lia). subst NZ. rewrite Z.div_mul by lia. assert (0 <= q) by nia.
  repeat split; try lia; try nia; apply S.
Qed.
Lemma rank_bz_eq p z : 0 <= p < W \/ (p = W /\ z = 0) -> 0 <= z <= K -> rank_bz NZ D W p z = a * z / K + a * p.
Proof using HS a.
  intros Hp Hz. destruct sizes as (S1 & S2 & S3 & S4 & S5 & S6 & S7 & S8 & _). unfold rank_bz, split_geometry.
  replace (W =? 0) with false by lia. cbn [s_cells s_domains s_begin]. fold K a.
  assert (0 <= a * p <= a * W) by nia. rewrite (u64_small (a * p)) by lia. unfold bound.
  assert (0 <= a * z <= a * K) by nia. rewrite (u64_small (a * z)) by lia.
  assert (0 <= a * z / K <= a) by (split; [apply Z.div_pos; lia|apply Z.div_le_upper_bound; nia]).
  apply u64_small. destruct Hp as [Hp|[-> ->]]; [nia|]. rewrite Z.mul_0_r, Z.div_0_l by lia. lia.
Qed.
(** the domains of all ranks in a row *)
Definition row_bz (c : Z) : Z := rank_bz NZ D W (c / K) (c mod K).
Definition row_grid (r c : Z) : grid T := G (c / K) r (c mod K).
Lemma split_c c : 0 <= c < W * K -> 0 <= c / K < W /\ 0 <= c mod K < K /\ c = K * (c / K) + c mod K.
Proof using HS a.
  intros H. destruct sizes as (S1 & _). pose proof (Z.mod_pos_bound c K ltac:(lia)). pose proof (Z.div_mod c K ltac:(lia)).
  assert (c / K < W) by (apply Z.div_lt_upper_bound; lia). assert (0 <= c / K) by (apply Z.div_pos; lia). lia.
Qed.
Lemma join_c p z : 0 <= z < K -> (K * p + z) / K = p /\ (K * p + z) mod K = z.
Proof using HS a.
  intros H. split; [symmetry; apply (Z.div_unique _ _ p z); lia|symmetry; apply (Z.mod_unique _ _ p z); lia].
Qed.
Lemma row_here p z : 0 <= z < K -> row_bz (K * p + z) = rank_bz NZ D W p z.
Proof using HS a. intros H. unfold row_bz. destruct (join_c p z H) as [-> ->]. reflexivity. Qed.
Lemma row_next p z : 0 <= p < W -> 0 <= z < K -> row_bz (K * p + z + 1) = rank_bz NZ D W p (z + 1).
Proof using HS a.
  intros Hp Hz. destruct sizes as (S1 & S2 & S3 & S4 & S5 & S6 & S7 & S8 & _). destruct (Z.eq_dec (z + 1) K) as [E|E].
  - replace (K * p + z + 1) with (K * (p + 1) + 0) by lia. rewrite row_here by lia.
    rewrite (rank_bz_eq (p + 1) 0), (rank_bz_eq p (z + 1)) by lia. rewrite E, Z.div_mul, Z.mul_0_r, Z.div_0_l by lia. lia.
  - replace (K * p + z + 1) with (K * p + (z + 1)) by lia. apply row_here. lia.
Qed.
Lemma row_0 : row_bz 0 = 0.
Proof using HS a.
  destruct sizes as (S1 & _ & _ & _ & _ & _ & _ & S8 & _). replace 0 with (K * 0 + 0) at 1 by lia. rewrite row_here, rank_bz_eq by lia.
  now rewrite !Z.mul_0_r, Z.div_0_l by lia.
Qed.
Lemma row_end : row_bz (W * K) = NZ.
Proof using HS a.
  destruct sizes as (S1 & S2 & S3 & _). replace (W * K) with (K * W + 0) by lia. rewrite row_here, rank_bz_eq by lia.
  rewrite Z.mul_0_r, Z.div_0_l by lia. lia.
Qed.
Lemma row_step c : 0 <= c < W * K -> row_bz c <= row_bz (c + 1) < row_bz c + 2 ^ 15.
Proof using HS a.
  intros H. destruct (split_c c H) as (H1 & H2 & E). destruct sizes as (S1 & S2 & _).
  assert (E1 : row_bz c = rank_bz NZ D W (c / K) (c mod K)) by reflexivity.
  assert (E2 : row_bz (c + 1) = rank_bz NZ D W (c / K) (c mod K + 1)) by (rewrite E at 1; apply row_next; lia).
  rewrite E1, E2. split.
  - rewrite !rank_bz_eq by lia. apply Z.add_le_mono_r. apply Z.div_le_mono; nia.
  - destruct HS as (_ & _ & _ & _ & _ & _ & _ & L & _). specialize (L (c / K) (c mod K) H1 H2). lia.
Qed.
Lemma row_next_c c : 0 <= c < W * K -> row_bz (c + 1) = rank_bz NZ D W (c / K) (c mod K + 1).
Proof using HS. intros H. destruct (split_c c H) as (H1 & H2 & E). rewrite E at 1. apply row_next; lia. Qed.
Lemma row_sizes r c : 0 <= r < R -> 0 <= c < W * K ->
  wf (row_grid r c) /\ 1 <= os (row_grid r c) /\ xs (row_grid r c) = bound NR R 0 (r + 1) - bound NR R 0 r /\ ys (row_grid r c) = row_bz (c + 1) - row_bz c.
Proof using HS a.
  intros Hr H. destruct (split_c c H) as (H1 & H2 & E). rewrite row_next_c by exact H. unfold row_grid, row_bz.
  destruct HS as (_ & _ & _ & _ & _ & _ & _ & _ & L). apply (L _ _ _ H1 Hr H2).
Qed.
Lemma radial : bound NR R 0 0 = 0 /\ bound NR R 0 R = NR /\ NR < 2 ^ 64 /\ 1 <= R /\
  forall r, 0 <= r < R -> bound NR R 0 r <= bound NR R 0 (r + 1) < bound NR R 0 r + 2 ^ 15.
Proof using HS a.
  destruct HS as (S & _ & _ & _ & _ & _ & L & _). pose proof S as (? & ? & ? & ? & ?). rewrite bound_0, bound_n by exact S.
  repeat split; try lia.
  - apply bound_mono; auto; lia.
  - specialize (L r H4). rewrite local_amount_eq in L by auto. lia.
Qed.

(** any order of the writers *)
Lemma writers_any p0 p1 p2 p3 num : 0 <= p0 -> p2 <= NR -> 0 <= p1 <= p3 -> p3 <= NZ -> off_border NR R 0 p0 p2 ->
  forall l ds, 0 <= num < frames ds -> n0 ds = p2 - p0 -> n1 ds = p3 - p1 ->
  (forall p r z, In (p, r, z) l -> 0 <= p < W /\ 0 <= r < R /\ 0 <= z < K) ->
  exists ds', writers zero NR NZ R D W G p0 p1 p2 p3 num l ds = Ok ds' /\ frames ds' = frames ds /\ n0 ds' = n0 ds /\ n1 ds' = n1 ds /\
    (forall f x y, ~ (f = num /\ 0 <= x < p2 - p0 /\ 0 <= y < p3 - p1) -> dat ds' f x y = dat ds f x y) /\
    (forall i j p r z, p0 <= i < p2 -> p1 <= j < p3 -> rank_owns NR NZ R D W p r z i j ->
       (In (p, r, z) l -> dat ds' num (i - p0) (j - p1) = rank_value NR NZ R D W G p r z i j) /\
       (~ In (p, r, z) l -> dat ds' num (i - p0) (j - p1) = dat ds num (i - p0) (j - p1))).
Proof using HS a.
  intros P0 P2 P1 P3 OB. destruct radial as (A0 & A1 & A2 & A3 & A4). pose proof sizes as SZ. destruct SZ as (S1 & S2 & S3 & S4 & S5 & S6 & S7 & S8 & S9).
  induction l as [|[[p r] z] l IH]; intros ds F1 F2 F3 HL.
  { exists ds. cbn [writers]. do 5 (split; [auto|]). intros i j p r z _ _ _. split; [intros []|reflexivity]. }
  cbn [writers]. destruct (HL p r z (or_introl eq_refl)) as (Hp & Hr & Hz). set (c := K * p + z).
  assert (Hc : 0 <= c < W * K) by (unfold c; nia).
  assert (E1 : row_bz c = rank_bz NZ D W p z) by (now apply row_here). assert (E2 : row_bz (c + 1) = rank_bz NZ D W p (z + 1)) by (now apply row_next).
  assert (E3 : row_grid r c = G p r z) by (unfold row_grid, c; destruct (join_c p z Hz) as [-> ->]; reflexivity).
  destruct (run_writer_spec zero R (W * K) (bound NR R 0) row_bz row_grid) with (p0 := p0) (p1 := p1) (p2 := p2) (p3 := p3) (num := num) (r := r) (z := c) (ds := ds) as [_ X];
    try (rewrite ?A0, ?A1, ?row_0, ?row_end; lia); auto.
  { apply row_step. } { intros r' c' Hr' Hc'. destruct (row_sizes r' c' Hr' Hc') as (W1 & W2 & W3 & W4). auto. } { unfold off_border in OB. rewrite A0. lia. }
  { unfold frame_ok. auto. }
  destruct X as (ds1 & E & X1 & X2 & X3 & X4 & X5).
  { right. destruct OB as (O1 & O2 & O3). unfold empty_rows. pose proof (O3 r Hr).
    destruct (Z.eq_dec (r + 1) R) as [Q1|Q1]; destruct (Z.eq_dec r 0) as [Q0|Q0].
    - assert (bound NR R 0 (r + 1) = bound NR R 0 R) by (now f_equal). assert (bound NR R 0 r = bound NR R 0 0) by (now f_equal). lia.
    - assert (bound NR R 0 (r + 1) = bound NR R 0 R) by (now f_equal). pose proof (O2 r ltac:(lia)). lia.
    - pose proof (O2 (r + 1) ltac:(lia)). assert (bound NR R 0 r = bound NR R 0 0) by (now f_equal). lia.
    - pose proof (O2 (r + 1) ltac:(lia)). pose proof (O2 r ltac:(lia)). lia. }
  unfold tile_rc in E. rewrite E1, E2, E3 in E. unfold rec_writer. rewrite E. cbn [bind].
  destruct (IH ds1 ltac:(rewrite X1; exact F1) ltac:(congruence) ltac:(congruence) (fun p r z I => HL p r z (or_intror I))) as (ds' & E' & Y1 & Y2 & Y3 & Y4 & Y5).
  exists ds'. split; [exact E'|]. split; [congruence|]. split; [congruence|]. split; [congruence|]. split.
  - intros f x y N. rewrite Y4 by exact N. apply X4. tauto.
  - intros i j p' r' z' Hi Hj O. destruct (Y5 i j p' r' z' Hi Hj O) as [Y6 Y7]. pose proof O as (O1 & O2 & O3 & O4 & O5).
    assert (OW : owner R (W * K) (bound NR R 0) row_bz p0 p1 r' (K * p' + z') (i - p0) (j - p1)).
    { unfold owner. fold K in O3. rewrite row_here, row_next by (auto; lia). assert (0 <= K * p' <= K * (W - 1)) by nia. repeat split; try lia. }
    destruct (in_dec (fun x y : Z * Z * Z => ltac:(repeat decide equality)) (p', r', z') l) as [I|NI].
    + split; [intros _; now apply Y6|]. intros N. exfalso. apply N. now right.
    + rewrite (Y7 NI). split.
      * intros [Q|Q]; [|contradiction]. injection Q as <- <- <-. rewrite X5; try lia; [|exact OW].
        unfold owned_value, rank_value. fold c. rewrite E3, E1. f_equal; lia.
      * intros N. apply X4. intros (_ & _ & _ & OW'). fold c in OW'.
        destruct (owner_unique R (W * K) (bound NR R 0) row_bz A4 row_step p0 p1 _ _ _ _ _ _ OW OW') as [-> Q].
        apply N. left. unfold c in Q. assert (p' = p /\ z' = z) as [-> ->]; [|reflexivity].
        destruct (join_c p z Hz) as [J1 J2]. destruct (join_c p' z' O3) as [J3 J4]. rewrite Q in J3, J4. split; congruence.
Qed.
Lemma owner_rank i j : 0 <= i < NR -> 0 <= j < NZ ->
  exists p r z, rank_owns NR NZ R D W p r z i j /\ forall p' r' z', rank_owns NR NZ R D W p' r' z' i j -> p' = p /\ r' = r /\ z' = z.
Proof using HS a.
  intros Hi Hj. destruct radial as (A0 & A1 & A2 & A3 & A4). pose proof sizes as SZ. destruct SZ as (S1 & S2 & S3 & S4 & S5 & S6 & S7 & S8 & S9).
  destruct (find_cell (bound NR R 0) R i) as (r & Hr & Br); [lia|intros q Hq; specialize (A4 q Hq); lia|lia|].
  destruct (find_cell row_bz (W * K) j) as (c & Hc & Bc); [nia|intros q Hq; pose proof (row_step q Hq); lia|rewrite row_0, row_end; lia|].
  destruct (split_c c Hc) as (H1 & H2 & E). exists (c / K), r, (c mod K). split.
  { unfold rank_owns. fold K. rewrite row_next_c in Bc by exact Hc. unfold row_bz in Bc. repeat split; lia. }
  intros p' r' z' (O1 & O2 & O3 & O4 & O5). fold K in O3.
  assert (OW : owner R (W * K) (bound NR R 0) row_bz 0 0 r c i j) by (unfold owner; repeat split; lia).
  assert (OW' : owner R (W * K) (bound NR R 0) row_bz 0 0 r' (K * p' + z') i j).
  { unfold owner. rewrite row_here, row_next by (auto; lia). assert (0 <= K * p' <= K * (W - 1)) by nia. repeat split; lia. }
  destruct (owner_unique R (W * K) (bound NR R 0) row_bz A4 row_step 0 0 _ _ _ _ _ _ OW OW') as [-> Q].
  destruct (join_c p' z' O3) as [J1 J2]. rewrite Q. auto.
Qed.

(** ** lines *)
Lemma domains_eq p : rank_domains NZ D W p = K.
Proof using HS a. destruct sizes as (_ & _ & _ & _ & _ & _ & _ & S8 & _). unfold rank_domains, split_geometry. now replace (W =? 0) with false by lia. Qed.
Lemma slab_bounds p z : 0 <= p < W -> 0 <= z < K ->
  a * p <= rank_bz NZ D W p z <= rank_bz NZ D W p (z + 1) /\ rank_bz NZ D W p (z + 1) <= a * (p + 1) /\
  rank_bz NZ D W p (z + 1) < rank_bz NZ D W p z + 2 ^ 15.
Proof using HS a.
  intros Hp Hz. pose proof sizes as SZ. destruct SZ as (S1 & S2 & S3 & S4 & S5 & S6 & S7 & S8 & S9).
  split; [|split].
  - rewrite !rank_bz_eq by lia. assert (0 <= a * z / K) by (apply Z.div_pos; nia).
    assert (a * z / K <= a * (z + 1) / K) by (apply Z.div_le_mono; nia). lia.
  - rewrite rank_bz_eq by lia. assert (a * (z + 1) / K <= a) by (apply Z.div_le_upper_bound; nia). lia.
  - destruct HS as (_ & _ & _ & _ & _ & _ & _ & L & _). specialize (L p z Hp Hz). lia.
Qed.
Lemma line_away sh j i num p ds : 0 <= p < W -> sh <> Row -> j < a * p \/ a * (p + 1) < j -> rank_line zero NR NZ R D W G sh i j num p ds = Ok ds.
Proof using HS a.
  intros Hp N Hj. unfold rank_line, write_line. rewrite domains_eq. destruct radial as (_ & _ & _ & A3 & _). destruct sizes as (S1 & _).
  destruct (for_inv (fun _ d => d = ds) 0 R (fun r => for_to 0 K (fun z ds =>
    if meets sh i j (bound NR R 0 r) (rank_bz NZ D W p z) (bound NR R 0 (r + 1)) (rank_bz NZ D W p (z + 1))
    then run_line zero sh (G p r z) num (place 0 0 i j (bound NR R 0 r) (rank_bz NZ D W p z) (bound NR R 0 (r + 1)) (rank_bz NZ D W p (z + 1))) ds else Ok ds)) ds)
    as (d & E & ->); [lia|reflexivity| |exact E].
  intros r d Hr ->. destruct (for_inv (fun _ d => d = ds) 0 K (fun z ds =>
    if meets sh i j (bound NR R 0 r) (rank_bz NZ D W p z) (bound NR R 0 (r + 1)) (rank_bz NZ D W p (z + 1))
    then run_line zero sh (G p r z) num (place 0 0 i j (bound NR R 0 r) (rank_bz NZ D W p z) (bound NR R 0 (r + 1)) (rank_bz NZ D W p (z + 1))) ds else Ok ds) ds)
    as (d & E & ->); [lia|reflexivity| |eauto].
  intros z d Hz ->. exists ds. split; [|reflexivity]. destruct (slab_bounds p z Hp Hz) as (B1 & B2 & _).
  replace (meets _ _ _ _ _ _ _) with false; [reflexivity|]. unfold meets. destruct sh; [|contradiction|]; lia.
Qed.
(** the hypotheses of the lemmas about the lines of one process *)
Lemma rank_hyps p : 0 <= p < W ->
  0 <= rank_bz NZ D W p 0 /\ (forall z, 0 <= z < K -> rank_bz NZ D W p z <= rank_bz NZ D W p (z + 1) < rank_bz NZ D W p z + 2 ^ 15) /\
  (forall r z, 0 <= r < R -> 0 <= z < K ->
     wf (G p r z) /\ 1 <= os (G p r z) /\ xs (G p r z) = bound NR R 0 (r + 1) - bound NR R 0 r /\
     ys (G p r z) = rank_bz NZ D W p (z + 1) - rank_bz NZ D W p z).
Proof using HS a.
  intros Hp. pose proof sizes as SZ. destruct SZ as (S1 & S2 & S3 & S4 & S5 & S6 & S7 & S8 & S9). split; [|split].
  - destruct (slab_bounds p 0 Hp ltac:(lia)). nia.
  - intros z Hz. destruct (slab_bounds p z Hp Hz). lia.
  - intros r z Hr Hz. destruct HS as (_ & _ & _ & _ & _ & _ & _ & _ & L). apply (L _ _ _ Hp Hr Hz).
Qed.
Lemma col_here j num p zl ds : 0 <= p < W -> 0 <= num < v_frames ds -> v_n ds = NR -> last_of (rank_bz NZ D W p) K j zl ->
  exists ds', rank_line zero NR NZ R D W G Col 0 j num p ds = Ok ds' /\ v_frames ds' = v_frames ds /\ v_n ds' = v_n ds /\
    (forall r i, 0 <= r < R -> bound NR R 0 r <= i < bound NR R 0 (r + 1) ->
       v_dat ds' num i = rank_value NR NZ R D W G p r zl i j) /\
    (forall f i, ~ (f = num /\ 0 <= i < NR) -> v_dat ds' f i = v_dat ds f i).
Proof using HS a.
  intros Hp Hn En L. destruct radial as (A0 & A1 & A2 & A3 & A4). destruct sizes as (S1 & _). destruct (rank_hyps p Hp) as (R0 & R1 & R2).
  destruct (cols_written zero R K (bound NR R 0) (rank_bz NZ D W p) (G p) ltac:(lia) ltac:(lia) A0 R0 A4 R1 ltac:(lia) R2 0 j num zl ds Hn ltac:(lia) L)
    as (ds' & E & F1 & F2 & F3 & F4).
  exists ds'. unfold rank_line. rewrite domains_eq. rewrite A1 in F4. repeat (split; [assumption|]). exact F4.
Qed.
Lemma dot_here i j num p r zl ds : 0 <= p < W -> 0 <= num < v_frames ds -> v_n ds = 1 -> last_of (bound NR R 0) R i r -> last_of (rank_bz NZ D W p) K j zl ->
  exists ds', rank_line zero NR NZ R D W G Dot i j num p ds = Ok ds' /\ v_frames ds' = v_frames ds /\ v_n ds' = v_n ds /\
    v_dat ds' num 0 = rank_value NR NZ R D W G p r zl i j /\
    (forall f x, ~ (f = num /\ x = 0) -> v_dat ds' f x = v_dat ds f x).
Proof using HS a.
  intros Hp Hn En Lr L. destruct radial as (A0 & A1 & A2 & A3 & A4). destruct sizes as (S1 & _). destruct (rank_hyps p Hp) as (R0 & R1 & R2).
  destruct (dot_written zero R K (bound NR R 0) (rank_bz NZ D W p) (G p) ltac:(lia) ltac:(lia) A0 R0 A4 R1 R2 i j num r zl ds Hn En Lr L)
    as (ds' & E & F1 & F2 & F3 & F4).
  exists ds'. unfold rank_line. rewrite domains_eq. repeat (split; [assumption|]). exact F4.
Qed.
Lemma own_last p r z i j : rank_owns NR NZ R D W p r z i j -> last_of (rank_bz NZ D W p) K j z /\ last_of (bound NR R 0) R i r.
Proof using HS a.
  intros (O1 & O2 & O3 & O4 & O5). fold K in O3. destruct radial as (A0 & A1 & A2 & A3 & A4). destruct (rank_hyps p O1) as (R0 & R1 & R2).
  split; (split; [lia|]; split; [lia|]); intros q Hq.
  - pose proof (OutProofs.mono (rank_bz NZ D W p) K (fun q Hq => proj1 (R1 q Hq)) (z + 1) q ltac:(lia) ltac:(lia)). lia.
  - pose proof (OutProofs.mono (bound NR R 0) R (fun q Hq => proj1 (A4 q Hq)) (r + 1) q ltac:(lia) ltac:(lia)). lia.
Qed.
Lemma own_slab p r z i j : rank_owns NR NZ R D W p r z i j -> a * p <= j < a * (p + 1).
Proof using HS a. intros (O1 & O2 & O3 & O4 & O5). fold K in O3. destruct (slab_bounds p z O1 O3). lia. Qed.

(** only the rank that owns the column or dot writes it *)
Lemma lines_one sh i j num p : 0 <= p < W -> sh <> Row -> a * p <= j < a * (p + 1) -> (p = 0 \/ j <> a * p) ->
  forall l ds, (forall q, In q l -> 0 <= q < W) ->
  (~ In p l -> rank_lines zero NR NZ R D W G sh i j num l ds = Ok ds) /\
  (In p l -> NoDup l -> rank_lines zero NR NZ R D W G sh i j num l ds = rank_line zero NR NZ R D W G sh i j num p ds).
Proof using HS a.
  intros Hp N Hj Hb. destruct sizes as (S1 & S2 & _).
  assert (AW : forall q ds, 0 <= q < W -> q <> p -> rank_line zero NR NZ R D W G sh i j num q ds = Ok ds).
  { intros q ds Hq Nq. apply line_away; auto. destruct (Z_lt_ge_dec q p); [right|left]; nia. }
  induction l as [|q l IH]; intros ds HL; cbn [rank_lines]; [split; [reflexivity|intros []]|].
  destruct (Z.eq_dec q p) as [->|Nq].
  - split; [intros X; exfalso; apply X; now left|]. intros _ ND. inversion ND; subst.
    destruct (rank_line zero NR NZ R D W G sh i j num p ds) as [d| |]; cbn [bind]; try reflexivity.
    apply (IH d (fun q I => HL q (or_intror I))). assumption.
  - rewrite AW by (auto; apply HL; now left). cbn [bind]. destruct (IH ds (fun q I => HL q (or_intror I))) as [I1 I2]. split.
    + intros X. apply I1. intros Y. apply X. now right.
    + intros [X|X] ND; [congruence|]. inversion ND; subst. now apply I2.
Qed.
Lemma for_fatal {S} (P : S -> Prop) lo hi k0 body (s : S) : lo <= k0 < hi -> P s ->
  (forall k t, lo <= k < k0 -> P t -> (exists t', body k t = Ok t' /\ P t') \/ body k t = Fatal) -> (forall t, P t -> body k0 t = Fatal) ->
  for_to lo hi body s = Fatal.
Proof using.
  clear. intros Hk HP St Hf. unfold for_to.
  assert (X : forall n i t, i <= k0 -> k0 < i + Z.of_nat n -> lo <= i -> P t -> loop n i body t = Fatal).
  { induction n as [|n IH]; intros i t H1 H2 H3 Pt; [lia|]. cbn [loop]. destruct (Z.eq_dec i k0) as [->|Ni]; [now rewrite Hf|].
    destruct (St i t ltac:(lia) Pt) as [(t' & -> & Pt')|E]; [|now rewrite E]. cbn [bind]. apply IH; auto; lia. }
  apply X; auto; lia.
Qed.
Lemma row_fatal i num p ds : 0 < p < W -> 0 <= i < NR -> (forall z, 0 <= z < K -> rank_bz NZ D W p z < rank_bz NZ D W p (z + 1)) ->
  v_n ds = a -> rank_line zero NR NZ R D W G Row i 0 num p ds = Fatal.
Proof using HS a.
  intros Hp Hi NE En. destruct radial as (A0 & A1 & A2 & A3 & A4). pose proof sizes as SZ. destruct SZ as (S1 & S2 & S3 & S4 & S5 & S6 & S7 & S8 & S9).
  destruct (rank_hyps p ltac:(lia)) as (R0 & R1 & R2). unfold rank_line, write_line. rewrite domains_eq.
  destruct (find_cell (bound NR R 0) R i) as (rl & Hr & Br); [lia|intros q Hq; specialize (A4 q Hq); lia|lia|].
  assert (HF : forall r, 0 <= r < R -> bound NR R 0 r <= i <= bound NR R 0 (r + 1) -> for_to 0 K (fun z ds =>
    if meets Row i 0 (bound NR R 0 r) (rank_bz NZ D W p z) (bound NR R 0 (r + 1)) (rank_bz NZ D W p (z + 1))
    then run_line zero Row (G p r z) num (place 0 0 i 0 (bound NR R 0 r) (rank_bz NZ D W p z) (bound NR R 0 (r + 1)) (rank_bz NZ D W p (z + 1))) ds else Ok ds) ds = Fatal).
  { intros r Hr' Hb. apply (for_fatal (fun d => d = ds) 0 K 0); [lia|reflexivity|intros; lia|].
    intros t ->. unfold meets. replace ((bound NR R 0 r <=? i) && (i <=? bound NR R 0 (r + 1))) with true by lia.
    destruct (R2 r 0 Hr' ltac:(lia)) as (Wf & O & Ex & Ey). pose proof (A4 r Hr'). pose proof (R1 0 ltac:(lia)). pose proof (NE 0 ltac:(lia)).
    destruct (slab_bounds p 0 ltac:(lia) ltac:(lia)) as (B1 & B2 & _).
    unfold run_line. rewrite place_t2, place_o1 by (try lia; nia).
    destruct (grab_row_spec zero (G p r 0) (i - bound NR R 0 r) Wf ltac:(lia)) as (val & -> & _). cbn [bind]. unfold write_vec.
    replace (rank_bz NZ D W p 0 + ys (G p r 0) <=? v_n ds) with false by (rewrite En, Ey; nia). now rewrite andb_false_r. }
  apply (for_fatal (fun d => d = ds) 0 R rl); [lia|reflexivity| |intros t ->; apply HF; lia].
  intros r t Hr' ->. destruct (Z_le_gt_dec i (bound NR R 0 (r + 1))) as [L|L].
  { right. apply HF; [lia|]. pose proof (OutProofs.mono (bound NR R 0) R (fun q Hq => proj1 (A4 q Hq)) r rl ltac:(lia) ltac:(lia)). lia. }
  left. exists ds. split; [|reflexivity].
  destruct (for_inv (fun _ d => d = ds) 0 K (fun z ds =>
    if meets Row i 0 (bound NR R 0 r) (rank_bz NZ D W p z) (bound NR R 0 (r + 1)) (rank_bz NZ D W p (z + 1))
    then run_line zero Row (G p r z) num (place 0 0 i 0 (bound NR R 0 r) (rank_bz NZ D W p z) (bound NR R 0 (r + 1)) (rank_bz NZ D W p (z + 1))) ds else Ok ds) ds)
    as (d & E & ->); [lia|reflexivity| |exact E].
  intros z d Hz ->. exists ds. split; [|reflexivity]. unfold meets. now replace ((bound NR R 0 r <=? i) && (i <=? bound NR R 0 (r + 1))) with false by lia.
Qed.
End Shared.

(** * C137: the output of several processes *)
(** every order of the writers of all domains of all ranks writes every cell of the frame with the value of its owner *)
Theorem C137_rectangle : forall T (zero : T) NR NZ R D W G p0 p1 p2 p3 num l ds,
  shared NR NZ R D W G -> 0 <= p0 -> p2 <= NR -> 0 <= p1 <= p3 -> p3 <= NZ -> off_border NR R 0 p0 p2 -> probe_dataset p0 p1 p2 p3 num ds ->
  (forall p r z, In (p, r, z) l <-> 0 <= p < W /\ 0 <= r < R /\ 0 <= z < D / W) ->
  exists ds', writers zero NR NZ R D W G p0 p1 p2 p3 num l ds = Ok ds' /\ frames ds' = frames ds /\ n0 ds' = n0 ds /\ n1 ds' = n1 ds /\
    (forall f x y, ~ (f = num /\ 0 <= x < p2 - p0 /\ 0 <= y < p3 - p1) -> dat ds' f x y = dat ds f x y) /\
    forall i j, p0 <= i < p2 -> p1 <= j < p3 ->
      exists p r z, rank_owns NR NZ R D W p r z i j /\ (forall p' r' z', rank_owns NR NZ R D W p' r' z' i j -> p' = p /\ r' = r /\ z' = z) /\
        dat ds' num (i - p0) (j - p1) = rank_value NR NZ R D W G p r z i j.
Proof.
  intros T zero NR NZ R D W G p0 p1 p2 p3 num l ds HS P0 P2 P1 P3 OB (F1 & F2 & F3) HL.
  destruct (writers_any zero NR NZ R D W G HS p0 p1 p2 p3 num P0 P2 P1 P3 OB l ds F1 F2 F3 (fun p r z I => proj1 (HL p r z) I)) as (ds' & E & X1 & X2 & X3 & X4 & X5).
  exists ds'. repeat (split; [assumption|]). intros i j Hi Hj. destruct (owner_rank NR NZ R D W G HS i j ltac:(lia) ltac:(lia)) as (p & r & z & O & U).
  exists p, r, z. split; [exact O|]. split; [exact U|]. apply (X5 i j p r z Hi Hj O). apply HL. destruct O as (? & ? & ? & _). auto.
Qed.
(** a column inside the slab of a rank: the order of the ranks does not matter *)
Theorem C137_column_partial : forall T (zero : T) NR NZ R D W G j num l ds,
  shared NR NZ R D W G -> 0 <= j < NZ -> (forall p, 0 < p < W -> j <> NZ / W * p) -> 0 <= num < v_frames ds -> v_n ds = rank_length NR NZ D W Col 0 ->
  NoDup l -> (forall p, In p l <-> 0 <= p < W) ->
  exists ds', rank_lines zero NR NZ R D W G Col 0 j num l ds = Ok ds' /\ v_frames ds' = v_frames ds /\ v_n ds' = v_n ds /\
    (forall i p r z, rank_owns NR NZ R D W p r z i j -> v_dat ds' num i = rank_value NR NZ R D W G p r z i j) /\
    (forall f i, ~ (f = num /\ 0 <= i < NR) -> v_dat ds' f i = v_dat ds f i).
Proof.
  intros T zero NR NZ R D W G j num l ds HS Hj Hb Hn En ND HL. cbn [rank_length] in En.
  destruct (radial NR NZ R D W G HS) as (A0 & A1 & A2 & A3 & A4). pose proof (sizes NR NZ R D W G HS) as (S1 & S2 & S3 & _).
  destruct (Z_le_gt_dec NR 0) as [Z0|Z0].
  { (* no cells *) 
    destruct (find_cell (row_bz NZ D W) (W * (D / W)) j) as (c & Hc & Bc).
    { destruct HS as (_ & ? & _). nia. } { intros q Hq. apply (row_step NR NZ R D W G HS q Hq). }
    { rewrite (row_0 NR NZ R D W G HS), (row_end NR NZ R D W G HS). lia. }
    destruct (split_c NR NZ R D W G HS c Hc) as (H1 & H2 & E). rewrite (row_next_c NR NZ R D W G HS c Hc) in Bc. unfold row_bz in Bc.
    destruct (slab_bounds NR NZ R D W G HS _ _ H1 H2) as (B1 & B2 & _).
    assert (HL' : forall q, In q l -> 0 <= q < W) by (intros q; apply HL).
    destruct (lines_one zero NR NZ R D W G HS Col 0 j num (c / (D / W)) H1 ltac:(discriminate) ltac:(lia)
      ltac:(destruct (Z.eq_dec (c / (D / W)) 0); [now left|right; apply Hb; lia]) l ds HL') as [_ X].
    rewrite X by (auto; now apply HL).
    destruct (col_here zero NR NZ R D W G HS j num (c / (D / W)) (c mod (D / W)) ds H1 Hn En) as (ds' & E' & F1 & F2 & F3 & F4).
    { split; [exact H2|]. split; [lia|]. intros z Hz. destruct (rank_hyps NR NZ R D W G HS _ H1) as (_ & R1 & _).
      pose proof (OutProofs.mono _ _ (fun q Hq => proj1 (R1 q Hq)) (c mod (D / W) + 1) z ltac:(lia) ltac:(lia)). lia. }
    exists ds'. repeat (split; [assumption|]). split; [|exact F4]. intros i p r z (_ & O2 & _ & O4 & _).
    pose proof (OutProofs.mono (bound NR R 0) R (fun q Hq => proj1 (A4 q Hq)) 0 r ltac:(lia) ltac:(lia)).
    pose proof (OutProofs.mono (bound NR R 0) R (fun q Hq => proj1 (A4 q Hq)) (r + 1) R ltac:(lia) ltac:(lia)). lia. }
  destruct (owner_rank NR NZ R D W G HS 0 j ltac:(lia) Hj) as (p & r0 & z & O & _).
  pose proof (own_slab NR NZ R D W G HS p r0 z 0 j O) as SB. pose proof (own_last NR NZ R D W G HS p r0 z 0 j O) as [OL _]. pose proof O as (O1 & _ & O3 & _ & O5).
  assert (HL' : forall q, In q l -> 0 <= q < W) by (intros q; apply HL).
  destruct (lines_one zero NR NZ R D W G HS Col 0 j num p O1 ltac:(discriminate) SB ltac:(destruct (Z.eq_dec p 0); [now left|right; apply Hb; lia]) l ds HL') as [_ X].
  rewrite X by (auto; now apply HL).
  destruct (col_here zero NR NZ R D W G HS j num p z ds O1 Hn En OL) as (ds' & E' & F1 & F2 & F3 & F4).
  exists ds'. repeat (split; [assumption|]). split; [|exact F4]. intros i p' r' z' O'. pose proof O' as (Q1 & Q2 & Q3 & Q4 & Q5).
  assert (Oi : rank_owns NR NZ R D W p r' z i j) by (repeat split; lia).
  pose proof (OutProofs.mono (bound NR R 0) R (fun q Hq => proj1 (A4 q Hq)) 0 r' ltac:(lia) ltac:(lia)).
  pose proof (OutProofs.mono (bound NR R 0) R (fun q Hq => proj1 (A4 q Hq)) (r' + 1) R ltac:(lia) ltac:(lia)).
  destruct (owner_rank NR NZ R D W G HS i j ltac:(lia) Hj) as (p1 & r1 & z1 & _ & U).
  destruct (U _ _ _ O') as (-> & -> & ->). destruct (U _ _ _ Oi) as (-> & _ & ->). apply F3; assumption.
Qed.
Theorem C137_dot_partial : forall T (zero : T) NR NZ R D W G i j num l ds p r z,
  shared NR NZ R D W G -> (forall p, 0 < p < W -> j <> NZ / W * p) -> 0 <= num < v_frames ds -> v_n ds = rank_length NR NZ D W Dot 0 ->
  NoDup l -> (forall p, In p l <-> 0 <= p < W) -> rank_owns NR NZ R D W p r z i j ->
  exists ds', rank_lines zero NR NZ R D W G Dot i j num l ds = Ok ds' /\ v_frames ds' = v_frames ds /\ v_n ds' = v_n ds /\
    v_dat ds' num 0 = rank_value NR NZ R D W G p r z i j /\
    (forall f x, ~ (f = num /\ x = 0) -> v_dat ds' f x = v_dat ds f x).
Proof.
  intros T zero NR NZ R D W G i j num l ds p r z HS Hb Hn En ND HL O.
  pose proof (own_slab NR NZ R D W G HS p r z i j O) as SB. pose proof (own_last NR NZ R D W G HS p r z i j O) as [OL OR]. pose proof O as (O1 & _).
  assert (HL' : forall q, In q l -> 0 <= q < W) by (intros q; apply HL).
  destruct (lines_one zero NR NZ R D W G HS Dot i j num p O1 ltac:(discriminate) SB ltac:(destruct (Z.eq_dec p 0); [now left|right; apply Hb; lia]) l ds HL') as [_ X].
  rewrite X by (auto; now apply HL). exact (dot_here zero NR NZ R D W G HS i j num p r z ds O1 Hn En OR OL).
Qed.
(** a column on the border of two ranks: whichever of them writes last decides; the left one writes its ghost column *)
Theorem C137_column_refuted : forall T (zero : T) NR NZ R D W G p num ds,
  shared NR NZ R D W G -> 0 < p < W -> NZ / W >= D / W -> 0 <= num < v_frames ds -> v_n ds = rank_length NR NZ D W Col 0 ->
  let j := NZ / W * p in
  exists dl dr, rank_lines zero NR NZ R D W G Col 0 j num [p; p - 1] ds = Ok dl /\ rank_lines zero NR NZ R D W G Col 0 j num [p - 1; p] ds = Ok dr /\
    forall i r, 0 <= r < R -> bound NR R 0 r <= i < bound NR R 0 (r + 1) ->
      rank_owns NR NZ R D W p r 0 i j /\ v_dat dr num i = rank_value NR NZ R D W G p r 0 i j /\
      v_dat dl num i = cell (G (p - 1) r (D / W - 1)) (i - bound NR R 0 r + os (G (p - 1) r (D / W - 1))) (ys (G (p - 1) r (D / W - 1)) + os (G (p - 1) r (D / W - 1))).
Proof.
  intros T zero NR NZ R D W G p num ds HS Hp Ha Hn En j. cbn [rank_length] in En. pose proof (sizes NR NZ R D W G HS) as (S1 & S2 & S3 & S4 & S5 & S6 & S7 & S8 & S9).
  destruct (rank_hyps NR NZ R D W G HS p ltac:(lia)) as (P0 & P1 & P2). destruct (rank_hyps NR NZ R D W G HS (p - 1) ltac:(lia)) as (Q0 & Q1 & Q2).
  set (K := D / W) in *. set (a := NZ / W) in *.
  assert (B0 : rank_bz NZ D W p 0 = j) by (rewrite (rank_bz_eq NR NZ R D W G HS) by lia; fold K a; rewrite Z.mul_0_r, Z.div_0_l by lia; unfold j; lia).
  assert (B1 : rank_bz NZ D W (p - 1) K = j) by (rewrite (rank_bz_eq NR NZ R D W G HS) by lia; fold K a; rewrite Z.div_mul by lia; unfold j; nia).
  assert (B2 : j < rank_bz NZ D W p 1).
  { rewrite (rank_bz_eq NR NZ R D W G HS) by lia; fold K a. unfold j. assert (1 <= a * 1 / K) by (apply Z.div_le_lower_bound; lia). lia. }
  assert (Lp : last_of (rank_bz NZ D W p) K j 0).
  { split; [lia|]. split; [change (0 + 1) with 1; lia|]. intros z Hz. pose proof (OutProofs.mono _ _ (fun q Hq => proj1 (P1 q Hq)) 1 z ltac:(lia) ltac:(lia)). lia. }
  assert (Ll : last_of (rank_bz NZ D W (p - 1)) K j (K - 1)).
  { split; [lia|]. replace (K - 1 + 1) with K by lia. split; [|intros; lia]. pose proof (Q1 (K - 1) ltac:(lia)) as M. replace (K - 1 + 1) with K in M by lia. lia. }
  destruct (col_here zero NR NZ R D W G HS j num p 0 ds ltac:(lia) Hn En Lp) as (d1 & E1 & F1 & F2 & F3 & F4).
  destruct (col_here zero NR NZ R D W G HS j num (p - 1) (K - 1) d1 ltac:(lia) ltac:(lia) ltac:(lia) Ll) as (dl & E2 & _ & _ & F5 & _).
  destruct (col_here zero NR NZ R D W G HS j num (p - 1) (K - 1) ds ltac:(lia) Hn En Ll) as (d2 & E3 & F6 & F7 & _).
  destruct (col_here zero NR NZ R D W G HS j num p 0 d2 ltac:(lia) ltac:(lia) ltac:(lia) Lp) as (dr & E4 & _ & _ & F8 & _).
  exists dl, dr. cbn [rank_lines]. rewrite E1, E3. cbn [bind]. rewrite E2, E4. cbn [bind]. split; [reflexivity|]. split; [reflexivity|].
  intros i r Hr Hi. split; [|split].
  - unfold rank_owns. fold K. rewrite B0. change (0 + 1) with 1. repeat split; lia.
  - now apply F8.
  - rewrite (F5 r i Hr Hi). unfold rank_value. destruct (Q2 r (K - 1) Hr ltac:(lia)) as (_ & _ & _ & ->). replace (K - 1 + 1) with K by lia. now rewrite B1.
Qed.
(** a row: the dataset has the number of cells of one slab, every other rank ends with an exception *)
Theorem C137_row_refuted : forall T (zero : T) NR NZ R D W G i num p ds,
  shared NR NZ R D W G -> 0 < p < W -> NZ / W >= D / W -> 0 <= i < NR -> v_n ds = rank_length NR NZ D W Row 0 ->
  v_n ds < NZ /\ rank_line zero NR NZ R D W G Row i 0 num p ds = Fatal.
Proof.
  intros T zero NR NZ R D W G i num p ds HS Hp Ha Hi En. pose proof (sizes NR NZ R D W G HS) as (S1 & S2 & S3 & S4 & S5 & S6 & S7 & S8 & S9).
  unfold rank_length, split_geometry in En. replace (W =? 0) with false in En by lia. cbn [s_cells] in En.
  split; [rewrite En; nia|]. apply (row_fatal zero NR NZ R D W G HS); auto.
  intros z Hz. rewrite !(rank_bz_eq NR NZ R D W G HS) by lia. set (K := D / W) in *. set (a := NZ / W) in *.
  assert (a * z / K + 1 <= a * (z + 1) / K); [|lia]. rewrite <- Z.div_add by lia. apply Z.div_le_mono; lia.
Qed.
(** the maps of the particles are not stitched between ranks *)
Theorem C137_maps_refuted :
  (forall T (add : T -> T -> T) q NZ W m p, 1 <= W -> rank_maps NZ 1 W W add q m p = Ok (m p)) /\
  exists (g : Z * Z -> grid Z) m', wf (g (0, 0)) /\ wf (g (0, 1)) /\ MapModel.stitch Z.add MapModel.Density 1 2 g = Ok m' /\
    cell (m' (0, 1)) 2 2 = 7 /\
    rank_maps 4 1 2 2 Z.add MapModel.Density (fun p q => g (0, p)) 1 = Ok (fun q => g (0, 1)) /\ cell (g (0, 1)) 2 2 = 3.
Proof.
  split.
  - intros T add q NZ W m p HW. unfold rank_maps, rank_domains, split_geometry. replace (W =? 0) with false by lia. cbn [s_domains].
    rewrite Z.div_same by lia. reflexivity.
  - exists (fun q => new_grid 2 2 2 (fun x y => if snd q =? 0 then (if (x =? 2) && (y =? 4) then 4 else 0) else if (x =? 2) && (y =? 2) then 3 else 0)).
    eexists. split; [apply new_grid_wf; lia|]. split; [apply new_grid_wf; lia|]. split; [vm_compute; reflexivity|]. split; [vm_compute; reflexivity|]. split; reflexivity.
Qed.

(** a 6 x 8 area of two ranks with 2 x 2 domains each; cell (i, j) holds 10 i + j, ghost cells hold -1 *)
Definition ex_rank (p r z : Z) : grid Z :=
  new_grid 3 2 2 (fun x y => if (2 <=? x) && (x <? 5) && (2 <=? y) && (y <? 4) then 10 * (3 * r + x - 2) + (4 * p + 2 * z + y - 2) else -1).
Lemma ex_shared : shared 6 8 2 4 2 ex_rank.
Proof.
  assert (B : forall q, 0 <= q < 2 -> q = 0 \/ q = 1) by (intros; lia).
  split; [unfold sane; lia|]. split; [lia|]. split; [now exists 4|]. split; [lia|]. split; [lia|]. split; [lia|].
  split; [intros r Hr; destruct (B r Hr) as [->| ->]; now vm_compute|]. change (4 / 2) with 2.
  split; [intros p z Hp Hz; destruct (B p Hp) as [->| ->], (B z Hz) as [->| ->]; now vm_compute|].
  intros p r z Hp Hr Hz. split; [apply new_grid_wf; lia|]. split; [cbn; lia|].
  destruct (B p Hp) as [->| ->], (B r Hr) as [->| ->], (B z Hz) as [->| ->]; split; reflexivity.
Qed.
(** rows 1 to 4 and columns 3 to 5: the writers of rank 1 first; column 6; dot (4, 5); column 4 in both orders; row 2 *)
Example C137_ex :
  off_border 6 2 0 1 5 /\
  (exists ds', writers 0 6 8 2 4 2 ex_rank 1 3 5 6 0 [(1, 1, 1); (1, 1, 0); (1, 0, 1); (1, 0, 0); (0, 1, 1); (0, 0, 1); (0, 0, 0); (0, 1, 0)]
      (mkDs 1 4 3 (fun _ _ _ => 0)) = Ok ds' /\
    map (fun x => map (dat ds' 0 x) [0; 1; 2]) [0; 1; 2; 3] = [[13; 14; 15]; [23; 24; 25]; [33; 34; 35]; [43; 44; 45]]) /\
  (exists ds', rank_lines 0 6 8 2 4 2 ex_rank Col 0 5 0 [1; 0] (mkV 1 6 (fun _ _ => 0)) = Ok ds' /\ map (v_dat ds' 0) [0; 1; 2; 3; 4; 5] = [5; 15; 25; 35; 45; 55]) /\
  (exists ds', rank_lines 0 6 8 2 4 2 ex_rank Dot 4 5 0 [0; 1] (mkV 1 1 (fun _ _ => 0)) = Ok ds' /\ v_dat ds' 0 0 = 45) /\
  (exists dl, rank_lines 0 6 8 2 4 2 ex_rank Col 0 4 0 [1; 0] (mkV 1 6 (fun _ _ => 0)) = Ok dl /\ map (v_dat dl 0) [0; 1; 2; 3; 4; 5] = [-1; -1; -1; -1; -1; -1]) /\
  (exists dr, rank_lines 0 6 8 2 4 2 ex_rank Col 0 4 0 [0; 1] (mkV 1 6 (fun _ _ => 0)) = Ok dr /\ map (v_dat dr 0) [0; 1; 2; 3; 4; 5] = [4; 14; 24; 34; 44; 54]) /\
  rank_length 6 8 4 2 Row 0 = 4 /\ rank_line 0 6 8 2 4 2 ex_rank Row 2 0 0 1 (mkV 1 4 (fun _ _ => 0)) = Fatal /\
  rank_owns 6 8 2 4 2 1 1 0 4 5.
Proof.
  split.
  { split; [lia|]. split; [intros r Hr; replace r with 1 by lia; vm_compute; split; discriminate|].
    intros r Hr. assert (r = 0 \/ r = 1) as [->| ->] by lia; now vm_compute. }
  split; [eexists; split; [vm_compute; reflexivity|vm_compute; reflexivity]|].
  split; [eexists; split; [vm_compute; reflexivity|vm_compute; reflexivity]|].
  split; [eexists; split; [vm_compute; reflexivity|vm_compute; reflexivity]|].
  split; [eexists; split; [vm_compute; reflexivity|vm_compute; reflexivity]|].
  split; [eexists; split; [vm_compute; reflexivity|vm_compute; reflexivity]|].
  split; [reflexivity|]. split; [vm_compute; reflexivity|]. unfold rank_owns. change (4 / 2) with 2.
  change (bound 6 2 0 1) with 3. change (bound 6 2 0 (1 + 1)) with 6. change (rank_bz 8 4 2 1 0) with 4. change (rank_bz 8 4 2 1 (0 + 1)) with 6. lia.
Qed.

Print Assumptions C137_rectangle.
Print Assumptions C137_column_partial.
Print Assumptions C137_dot_partial.
Print Assumptions C137_column_refuted.
Print Assumptions C137_row_refuted.
Print Assumptions C137_maps_refuted.
Print Assumptions C137_ex.
