(** Theorems about the library that reads the results (lib/python/picopic): properties C165 - C170. *)
From Coq Require Import Reals Lra String Ascii ZifyBool.
From Verif Require Import Base GridModel DecompModel RndUtil PushModel TimeModel OutModel OutProofs ThmOut ProbeModel CfgModel CheckModel CfgJsonModel CfgJsonProofs ThmCfgJson ReaderModel ReaderProofs.
Open Scope Z_scope.

(** * C165: what is read is what was written *)
(** an array of sizes [d], the value at the place [l] being as [P] says *)
Definition shows {T} (r : py (nd T)) (d : list Z) (P : list Z -> T -> Prop) : Prop :=
  exists a, r = Val a /\ dims a = d /\ forall l, within l d -> P l (at_ a l).
(** the name under which the values of a probe are asked for: the species after the quantity *)
Definition asked_as (p : prob) (c : string) : Prop :=
  In (p_component p) particle_quantities /\ c = (p_component p ++ "/" ++ p_specie p)%string \/
  ~ In (p_component p) particle_quantities /\ c = p_component p.
(** the probe of a configuration, its rectangle and schedule *)
Definition rectangle (nr nz : Z) (p : prob) (c : string) (p0 p1 p2 p3 s : Z) : Prop :=
  (exists e, says_probe nr nz e p) /\ asked_as p c /\ p_probe p = {| p_shape := 0; p_dims := [p0; p1; p2; p3]; p_schedule := s |}.

Theorem C165_path : forall nr nz p c p0 p1 p2 p3 s, rectangle nr nz p c p0 p1 p2 p3 s ->
  names (p_path p) = names (ds_path c PRec (p0, p1, p2, p3)) /\ 0 <= p0 <= p2 /\ p2 <= nr /\ 0 <= p1 <= p3 /\ p3 <= nz.
Proof.
  intros nr nz p c p0 p1 p2 p3 s ((e & _ & _ & _ & r0 & z0 & r1 & z1 & t & (? & _ & ? & _ & _ & ?) & (? & _ & ? & _ & _ & ?) & (? & _ & ? & _ & _ & ?) & (? & _ & ? & _ & _ & ?) & _ & I1 & I2 & E & P1 & P2) & A & E').
  rewrite E' in E. injection E as -> -> -> -> ->. split; [|lia]. rewrite rec_names by lia.
  assert (X : forall q, names (q ++ "/rec/" ++ extent_of r0 z0 r1 z1) = (names q ++ ["rec"%string; extent_of r0 z0 r1 z1])%list).
  { intros q. change (names (q ++ String "/" ("rec" ++ String "/" (extent_of r0 z0 r1 z1))) = (names q ++ ["rec"%string; extent_of r0 z0 r1 z1])%list).
    rewrite !names_slash, extent_names. reflexivity. }
  destruct A as [[I ->]|[N ->]].
  - rewrite (P1 I). rewrite <- X. f_equal. rewrite !app_ass. reflexivity.
  - rewrite (P2 N). apply X.
Qed.
(** the path leads to no other rectangle of the same values *)
Theorem C165_path_only : forall c p0 p1 p2 p3 q0 q1 q2 q3,
  0 <= p0 -> 0 <= p1 -> 0 <= p2 -> 0 <= p3 -> 0 <= q0 -> 0 <= q1 -> 0 <= q2 -> 0 <= q3 ->
  names (ds_path c PRec (p0, p1, p2, p3)) = names (ds_path c PRec (q0, q1, q2, q3)) -> (p0, p1, p2, p3) = (q0, q1, q2, q3).
Proof.
  intros c p0 p1 p2 p3 q0 q1 q2 q3 ? ? ? ? ? ? ? ? E. rewrite !rec_names in E by lia. apply app_inv_head in E. injection E as E.
  apply extent_inj in E as (-> & -> & -> & ->); auto.
Qed.

(** a run of [k] steps that wrote the probe, and the file it left *)
Section Run.
Context {T : Type}.
Variable zero : T.
Variables NR NZ R C : Z.
Variable G : Z -> Z -> Z -> grid T.
Variables (p : prob) (c : string) (p0 p1 p2 p3 s : Z) (k : nat) (ds : dataset T) (file : h5file T).
(** the value of the cell (i, j) of the area at step [n] *)
Definition cell_at (n i j : Z) (v : T) : Prop :=
  exists r z, owns NR NZ R C 0 0 r z i j /\ v = cell (G n r z) (i - bound NR R 0 r + os (G n r z)) (j - bound NZ C 0 z + os (G n r z)).
Definition written : Prop :=
  (forall n, 0 <= n -> divided NR NZ R C 0 0 (G n)) /\ rectangle NR NZ p c p0 p1 p2 p3 s /\ off_border NR R 0 p0 p2 /\ 1 <= s <= 65535 /\
  record_rec zero R C (bound NR R 0) (bound NZ C 0) G p0 p1 p2 p3 s k = Ok ds /\ file (names (p_path p)) = Some (of_rec zero ds).
(** the number of frames: those of the steps 0, s, 2 s, ... (but at least one) *)
Definition amount : Z := if (k =? 0)%nat then 1 else (Z.of_nat k - 1) / s + 1.

Lemma written_facts : written -> frames ds = amount /\ n0 ds = p2 - p0 /\ n1 ds = p3 - p1 /\ 0 <= p0 < p2 /\ p2 <= NR /\ 0 <= p1 <= p3 /\ p3 <= NZ /\
  (forall f, 0 <= f < amount -> k <> O -> f * s < Z.of_nat k) /\
  (forall f i j, 0 <= f -> f * s < Z.of_nat k -> p0 <= i < p2 -> p1 <= j < p3 -> cell_at (f * s) i j (dat ds f (i - p0) (j - p1))) /\
  forall n, rec_ file c (p0, p1, p2, p3) n = index (mkNd [frames ds; n0 ds; n1 ds] (fun l => match l with [f; a; b] => dat ds f a b | _ => zero end)) n.
Proof.
  intros (HG & HR & HO & Hs & E & F). destruct (C165_path _ _ _ _ _ _ _ _ _ HR) as (P & I1 & I2 & I3 & I4).
  assert (HI : probe_inside NR NZ 0 0 p0 p1 p2 p3) by (unfold probe_inside; lia).
  destruct (record_ok zero NR NZ R C 0 0 G p0 p1 p2 p3 s HG HI HO Hs k) as (ds' & E' & A1 & A2 & A3 & A4).
  rewrite E in E'. injection E' as <-. destruct HO as (HO1 & _).
  split; [|split; [exact A2|]; split; [exact A3|]; split; [lia|]; split; [lia|]; split; [lia|]; split; [lia|]].
  { rewrite A1. unfold amount. destruct k as [|k']; [reflexivity|]. cbn [Nat.eqb multiples]. replace (Z.of_nat (S k') - 1) with (Z.of_nat k') by lia.
    assert (0 <= Z.of_nat k' / s) by (apply Z.div_pos; lia). lia. }
  split; [|split].
  - intros f Hf N. unfold amount in Hf. destruct (k =? 0)%nat eqn:K; [apply Nat.eqb_eq in K; contradiction|].
    pose proof (Z.div_mod (Z.of_nat k - 1) s ltac:(lia)). pose proof (Z.mod_pos_bound (Z.of_nat k - 1) s ltac:(lia)). nia.
  - intros f i j Hf Hk Hi Hj. specialize (A4 f i j Hf Hk Hi Hj). destruct (HG (f * s) ltac:(nia)) as (S1 & S2 & _).
    destruct (C16_one_owner NR NZ R C 0 0 p0 p1 p2 p3 i j S1 S2 HI Hi Hj) as (r & z & O & _). exists r, z. split; [exact O|]. now apply A4.
  - intros n. unfold rec_, frame_get, file_get. rewrite <- P, F. reflexivity.
Qed.

(** frame [f] of the rectangle: the values of the step [f * s] *)
Definition rec_values (f : Z) (l : list Z) (v : T) : Prop := match l with [a; b] => cell_at (f * s) (p0 + a) (p1 + b) v | _ => False end.
Lemma within2 l m n : within l [m; n] -> exists a b, l = [a; b] /\ 0 <= a < m /\ 0 <= b < n.
Proof. intros W. inversion W as [|a ? l1 ? Ha W1]; subst. inversion W1 as [|b ? l2 ? Hb W2]; subst. inversion W2; subst. eauto. Qed.
Lemma within1 l n : within l [n] -> exists b, l = [b] /\ 0 <= b < n.
Proof. intros W. inversion W as [|a ? l1 ? Ha W1]; subst. inversion W1; subst. eauto. Qed.
Lemma within0 l : within l [] -> l = [].
Proof. intros W. now inversion W. Qed.

Theorem C165_rec : written -> forall f, 0 <= f -> f * s < Z.of_nat k ->
  shows (rec_ file c (p0, p1, p2, p3) f) [p2 - p0; p3 - p1] (rec_values f).
Proof.
  intros W f Hf Hk. pose proof W as (_ & _ & _ & Hs & _). destruct (written_facts W) as (A1 & A2 & A3 & I1 & I2 & I3 & I4 & L & V & RR).
  rewrite RR. unfold index. cbn [dims]. rewrite position_ok.
  2:{ rewrite A1. unfold amount. destruct (k =? 0)%nat eqn:K; [apply Nat.eqb_eq in K; lia|].
      split; [lia|]. apply Z.lt_succ_r, Z.div_le_lower_bound; lia. }
  cbn [pbind]. eexists. split; [reflexivity|]. cbn [dims]. split; [now rewrite A2, A3|]. intros l Wl. apply within2 in Wl as (a & b & -> & Ha & Hb). cbn [at_ rec_values].
  specialize (V f (p0 + a) (p1 + b) Hf Hk ltac:(lia) ltac:(lia)). replace (p0 + a - p0) with a in V by lia. now replace (p1 + b - p1) with b in V by lia.
Qed.
(** no other frames; numbers from -1 on count from the last frame *)
Theorem C165_rec_other : written -> forall n,
  (amount <= n \/ n < - amount -> rec_ file c (p0, p1, p2, p3) n = Raise IndexError) /\
  (- amount <= n < 0 -> rec_ file c (p0, p1, p2, p3) n = rec_ file c (p0, p1, p2, p3) (amount + n)).
Proof.
  intros W n. destruct (written_facts W) as (A1 & _ & _ & _ & _ & _ & _ & _ & _ & RR).
  assert (1 <= amount). { unfold amount. destruct W as (_ & _ & _ & Hs & _). destruct (k =? 0)%nat eqn:K; [lia|]. apply Nat.eqb_neq in K. assert (0 <= (Z.of_nat k - 1) / s) by (apply Z.div_pos; lia). lia. }
  rewrite !RR. unfold index. cbn [dims]. rewrite A1. split; intros Hn.
  - now rewrite position_out by lia.
  - rewrite position_neg by lia. rewrite position_ok by lia. now rewrite Z.add_comm.
Qed.
(** a range of frames *)
Theorem C165_rec_range : written -> forall start stop, 0 <= start <= stop -> (stop - 1) * s < Z.of_nat k ->
  shows (rec_range zero file c (p0, p1, p2, p3) start (Some stop)) [stop - start; p2 - p0; p3 - p1]
    (fun l v => match l with x :: l => rec_values (start + x) l v | [] => False end).
Proof.
  intros W start stop H Hk. pose proof W as (_ & _ & _ & Hs & _). destruct (written_facts W) as (_ & _ & _ & I1 & I2 & I3 & I4 & _).
  unfold rec_range. cbn [till pbind rec_size fst snd s0 s1 s2 s3].
  assert (F : forall i, start <= i < stop -> exists v, rec_ file c (p0, p1, p2, p3) i = Val v /\ dims v = [p2 - p0; p3 - p1] /\
     forall l, within l [p2 - p0; p3 - p1] -> at_ v l = match rec_ file c (p0, p1, p2, p3) i with Val v => at_ v l | Raise _ => zero end).
  { intros i Hi. destruct (C165_rec W i ltac:(lia) ltac:(nia)) as (v & E & D & _). exists v. split; [exact E|]. split; [exact D|]. intros. now rewrite E. }
  destruct (collect_ok zero _ (fun i l => match rec_ file c (p0, p1, p2, p3) i with Val v => at_ v l | Raise _ => zero end) [p2 - p0; p3 - p1] start stop ltac:(lia) ltac:(repeat constructor; lia) F) as (a & E & D & V).
  exists a. split; [exact E|]. split; [exact D|]. intros l Wl. inversion Wl as [|x ? l' ? Hx Wl']; subst. rewrite V by assumption.
  destruct (C165_rec W (start + x) ltac:(lia) ltac:(nia)) as (v & E' & D' & V'). rewrite E'. now apply V'.
Qed.
(** rows, columns and dots of the rectangle, counted from its corner *)
Theorem C165_row_rec : written -> forall f r, 0 <= f -> f * s < Z.of_nat k -> 0 <= r < p2 - p0 ->
  shows (row_rec file c r (p0, p1, p2, p3) f) [p3 - p1] (fun l v => match l with [b] => cell_at (f * s) (p0 + r) (p1 + b) v | _ => False end).
Proof.
  intros W f r Hf Hk Hr. destruct (C165_rec W f Hf Hk) as (a & E & D & V). unfold row_rec. rewrite E. cbn [pbind]. unfold index. rewrite D, position_ok by lia. cbn [pbind].
  eexists. split; [reflexivity|]. split; [reflexivity|]. intros l Wl. apply within1 in Wl as (b & -> & Hb). cbn [at_]. apply (V [r; b]). repeat constructor; lia.
Qed.
Theorem C165_col_rec : written -> forall f z, 0 <= f -> f * s < Z.of_nat k -> 0 <= z < p3 - p1 ->
  shows (col_rec zero file c z (p0, p1, p2, p3) f) [p2 - p0] (fun l v => match l with [a] => cell_at (f * s) (p0 + a) (p1 + z) v | _ => False end).
Proof.
  intros W f z Hf Hk Hz. destruct (C165_rec W f Hf Hk) as (a & E & D & V). unfold col_rec. rewrite E. cbn [pbind]. unfold index2. rewrite D, position_ok by lia. cbn [pbind].
  eexists. split; [reflexivity|]. split; [reflexivity|]. intros l Wl. apply within1 in Wl as (b & -> & Hb). cbn [at_]. apply (V [b; z]). repeat constructor; lia.
Qed.
Theorem C165_dot_rec : written -> forall f r z, 0 <= f -> f * s < Z.of_nat k -> 0 <= r < p2 - p0 -> 0 <= z < p3 - p1 ->
  shows (dot_rec file c r z (p0, p1, p2, p3) f) [] (fun l v => cell_at (f * s) (p0 + r) (p1 + z) v).
Proof.
  intros W f r z Hf Hk Hr Hz. destruct (C165_rec W f Hf Hk) as (a & E & D & V). unfold dot_rec. rewrite E. cbn [pbind]. unfold index at 1. rewrite D, position_ok by lia. cbn [pbind].
  unfold index. cbn [dims]. rewrite position_ok by lia. cbn [pbind at_].
  eexists. split; [reflexivity|]. split; [reflexivity|]. intros l Wl. apply within0 in Wl as ->. cbn [at_]. apply (V [r; z]). repeat constructor; lia.
Qed.
(** their ranges: of rectangles as wide (as high) as the whole area *)
Lemma collect_shows (f : Z -> py (nd T)) (P : Z -> list Z -> T -> Prop) d start stop : start <= stop -> Forall (fun n => 0 <= n) d ->
  (forall i, start <= i < stop -> shows (f i) d (P i)) ->
  shows (a <-- zeros zero (stop - start :: d); collect f start stop a) (stop - start :: d) (fun l v => match l with x :: l => P (start + x) l v | [] => False end).
Proof.
  intros H N F.
  assert (F' : forall i, start <= i < stop -> exists v, f i = Val v /\ dims v = d /\
     forall l, within l d -> at_ v l = match f i with Val v => at_ v l | Raise _ => zero end).
  { intros i Hi. destruct (F i Hi) as (v & E & D & _). exists v. split; [exact E|]. split; [exact D|]. intros. now rewrite E. }
  destruct (collect_ok zero f (fun i l => match f i with Val v => at_ v l | Raise _ => zero end) d start stop H N F') as (a & E & D & V).
  exists a. split; [exact E|]. split; [exact D|]. intros l Wl. inversion Wl as [|x ? l' ? Hx Wl']; subst. rewrite V by assumption.
  destruct (F (start + x) ltac:(lia)) as (v & E' & D' & V'). rewrite E'. now apply V'.
Qed.
Theorem C165_row_rec_range : written -> forall r start stop, p1 = 0 -> p3 = NZ -> 0 <= r < p2 - p0 -> 0 <= start <= stop -> (stop - 1) * s < Z.of_nat k ->
  shows (row_rec_range zero NZ file c r (p0, p1, p2, p3) start (Some stop)) [stop - start; NZ]
    (fun l v => match l with [x; b] => cell_at ((start + x) * s) (p0 + r) b v | _ => False end).
Proof.
  intros W r start stop E1 E3 Hr H Hk. pose proof W as (_ & _ & _ & Hs & _). destruct (written_facts W) as (_ & _ & _ & I1 & I2 & I3 & I4 & _).
  unfold row_rec_range. cbn [till_rec pbind].
  destruct (collect_shows (row_rec file c r (p0, p1, p2, p3)) (fun i l v => match l with [b] => cell_at (i * s) (p0 + r) (p1 + b) v | _ => False end) [NZ] start stop ltac:(lia)) as (a & E & D & V).
  { repeat constructor; lia. }
  { intros i Hi. replace NZ with (p3 - p1) by lia. apply C165_row_rec; try assumption; nia. }
  exists a. split; [exact E|]. split; [exact D|]. intros l Wl. specialize (V l Wl). apply within2 in Wl as (x & b & -> & _ & _). now replace (p1 + b) with b in V by lia.
Qed.
Theorem C165_col_rec_range : written -> forall z start stop, p0 = 0 -> p2 = NR -> 0 <= z < p3 - p1 -> 0 <= start <= stop -> (stop - 1) * s < Z.of_nat k ->
  shows (col_rec_range zero NR file c z (p0, p1, p2, p3) start (Some stop)) [stop - start; NR]
    (fun l v => match l with [x; a] => cell_at ((start + x) * s) a (p1 + z) v | _ => False end).
Proof.
  intros W z start stop E0 E2 Hz H Hk. pose proof W as (_ & _ & _ & Hs & _). destruct (written_facts W) as (_ & _ & _ & I1 & I2 & I3 & I4 & _).
  unfold col_rec_range. cbn [till_rec pbind].
  destruct (collect_shows (col_rec zero file c z (p0, p1, p2, p3)) (fun i l v => match l with [a] => cell_at (i * s) (p0 + a) (p1 + z) v | _ => False end) [NR] start stop ltac:(lia)) as (a & E & D & V).
  { repeat constructor; lia. }
  { intros i Hi. replace NR with (p2 - p0) by lia. apply C165_col_rec; try assumption; nia. }
  exists a. split; [exact E|]. split; [exact D|]. intros l Wl. specialize (V l Wl). apply within2 in Wl as (x & b & -> & _ & _). now replace (p0 + b) with b in V by lia.
Qed.
Theorem C165_dot_rec_range : written -> forall r z start stop, 0 <= r < p2 - p0 -> 0 <= z < p3 - p1 -> 0 <= start <= stop -> (stop - 1) * s < Z.of_nat k ->
  shows (dot_rec_range zero file c r z (p0, p1, p2, p3) start (Some stop)) [stop - start]
    (fun l v => match l with [x] => cell_at ((start + x) * s) (p0 + r) (p1 + z) v | _ => False end).
Proof.
  intros W r z start stop Hr Hz H Hk. pose proof W as (_ & _ & _ & Hs & _).
  unfold dot_rec_range. cbn [till_rec pbind].
  destruct (collect_shows (dot_rec file c r z (p0, p1, p2, p3)) (fun i l v => cell_at (i * s) (p0 + r) (p1 + z) v) [] start stop ltac:(lia)) as (a & E & D & V).
  { constructor. }
  { intros i Hi. apply C165_dot_rec; try assumption; nia. }
  exists a. split; [exact E|]. split; [exact D|]. intros l Wl. specialize (V l Wl). apply within1 in Wl as (x & -> & _). exact V.
Qed.
(** ... others than such, and not of one cell, are refused *)
Lemma collect_misfit (f : Z -> py (nd T)) m n start stop : start < stop -> 0 <= n -> m <> n -> m <> 1 ->
  (exists v, f start = Val v /\ dims v = [m]) -> (a <-- zeros zero [stop - start; n]; collect f start stop a) = Raise ValueError.
Proof.
  intros H N M1 M2 (v & E & D). rewrite zeros_ok by (repeat constructor; lia). cbn [pbind]. unfold collect. destruct (Z.to_nat (stop - start)) eqn:K; [lia|]. cbn [fill].
  rewrite E. cbn [pbind]. unfold store. cbn [dims]. rewrite D, position_ok by lia. cbn [pbind rev app broadcast].
  destruct ((m =? n) || (m =? 1)) eqn:X; [lia|]. reflexivity.
Qed.
Theorem C168_part_range_refuted : written -> forall i start stop, 0 <= start < stop -> start * s < Z.of_nat k ->
  (0 <= i < p2 - p0 -> p3 - p1 <> NZ -> p3 - p1 <> 1 -> row_rec_range zero NZ file c i (p0, p1, p2, p3) start (Some stop) = Raise ValueError) /\
  (0 <= i < p3 - p1 -> p2 - p0 <> NR -> p2 - p0 <> 1 -> col_rec_range zero NR file c i (p0, p1, p2, p3) start (Some stop) = Raise ValueError).
Proof.
  intros W i start stop H Hk. destruct (written_facts W) as (_ & _ & _ & I1 & I2 & I3 & I4 & _). split; intros Hi N1 N2.
  - unfold row_rec_range. cbn [till_rec pbind]. apply (collect_misfit _ (p3 - p1)); try lia. destruct (C165_row_rec W start i ltac:(lia) Hk Hi) as (v & E & D & _). eauto.
  - unfold col_rec_range. cbn [till_rec pbind]. apply (collect_misfit _ (p2 - p0)); try lia. destruct (C165_col_rec W start i ltac:(lia) Hk Hi) as (v & E & D & _). eauto.
Qed.
(** without the last number no range can be read *)
Theorem C168_all_frames_refuted : written -> forall start,
  rec_range zero file c (p0, p1, p2, p3) start None = Raise AttributeError /\
  forall r z, row_rec_range zero NZ file c r (p0, p1, p2, p3) start None = Raise NameError /\
    col_rec_range zero NR file c z (p0, p1, p2, p3) start None = Raise NameError /\ dot_rec_range zero file c r z (p0, p1, p2, p3) start None = Raise NameError.
Proof.
  intros (_ & HR & _ & _ & _ & F) start. destruct (C165_path _ _ _ _ _ _ _ _ _ HR) as (P & _). split; [|repeat split].
  unfold rec_range, till, ds_range, file_get. rewrite <- P, F. reflexivity.
Qed.
End Run.

(** ** Columns, rows and dots *)
(** the path of the other probes (cfg.cpp:269, 280, 292) *)
Definition col_at (c : string) (z : Z) : string := (c ++ "/col/" ++ to_string z)%string.
Definition row_at (c : string) (r : Z) : string := (c ++ "/row/" ++ to_string r)%string.
Definition dot_at (c : string) (r z : Z) : string := (c ++ "/dot/" ++ to_string r ++ "_" ++ to_string z)%string.
(** a dot is found *)
Theorem C165_dot : forall T (zero : T) (file : h5file T) c r z ds f, 0 <= r -> 0 <= z -> file (names (dot_at c r z)) = Some (of_line zero ds) -> v_n ds = 1 ->
  0 <= f < v_frames ds -> shows (dot_ file c r z f) [1] (fun l v => v = v_dat ds f 0).
Proof.
  intros T zero file c r z ds f Hr Hz F N Hf. unfold dot_, validate. destruct (f <? 0) eqn:E; [lia|]. cbn [pbind]. unfold frame_get, file_get.
  rewrite dot_names by (cbn [s2 s3]; lia). cbn [s2 s3].
  assert (X : names (dot_at c r z) = (names c ++ ["dot"; to_string r ++ "_" ++ to_string z]%string)%list).
  { pose proof (dot_names c (0, 0, z, r) Hr Hz) as Y. cbn [s2 s3] in Y. rewrite <- Y. unfold ds_path. cbn [s2 s3]. rewrite !str_of_nonneg by lia. unfold dot_at.
    symmetry. exact (names_slash "" _). }
  rewrite <- X, F. cbn [pbind of_line]. unfold index. cbn [dims]. rewrite position_ok by lia. cbn [pbind]. rewrite N. eexists. split; [reflexivity|]. split; [reflexivity|].
  intros l Wl. apply within1 in Wl as (b & -> & Hb). cbn [at_]. now replace b with 0 by lia.
Qed.
Theorem C165_dot_range : forall T (zero : T) (file : h5file T) c r z ds start stop, 0 <= r -> 0 <= z -> file (names (dot_at c r z)) = Some (of_line zero ds) -> v_n ds = 1 ->
  0 <= start <= stop -> stop <= v_frames ds ->
  shows (dot_range zero file c r z start (Some stop)) [stop - start] (fun l v => match l with [x] => v = v_dat ds (start + x) 0 | _ => False end).
Proof.
  intros T zero file c r z ds start stop Hr Hz F N H1 H2. unfold dot_range. cbn [till pbind]. rewrite zeros_ok by (repeat constructor; lia). cbn [pbind]. unfold collect.
  assert (D : forall i, start <= i < stop -> exists v, dot_ file c r z i = Val v /\ dims v = [1] /\ at_ v [0] = v_dat ds i 0).
  { intros i Hi. destruct (C165_dot T zero file c r z ds i Hr Hz F N ltac:(lia)) as (v & E & Dv & V). exists v. split; [exact E|]. split; [exact Dv|]. apply V. repeat constructor; lia. }
  assert (X : forall k i a, start <= i -> i + Z.of_nat k = stop -> dims a = [stop - start] -> (forall x, 0 <= x < i - start -> at_ a [x] = v_dat ds (start + x) 0) ->
    exists a', fill (dot_ file c r z) start i k a = Val a' /\ dims a' = [stop - start] /\ forall x, 0 <= x < stop - start -> at_ a' [x] = v_dat ds (start + x) 0).
  { induction k as [|k IH]; intros i a Hs He Da A; cbn [fill].
    - exists a. split; [reflexivity|]. split; [exact Da|]. intros x Hx. apply A. lia.
    - destruct (D i ltac:(lia)) as (v & E & Dv & V). rewrite E. cbn [pbind]. unfold store. rewrite Da, Dv, position_ok by lia. cbn [pbind rev app broadcast pick].
      cbn [Z.eqb Pos.eqb andb pbind]. apply IH; try lia; [reflexivity|]. intros x Hx. cbn [at_ rev app pick]. destruct (x =? i - start) eqn:Ex.
      + cbn [Z.eqb Pos.eqb pick rev app]. rewrite V. f_equal. lia.
      + apply A. lia. }
  destruct (X (Z.to_nat (stop - start)) start (mkNd [stop - start] (fun _ => zero))) as (a & E & Da & V); try lia; [reflexivity|].
  exists a. split; [exact E|]. split; [exact Da|]. intros l Wl. apply within1 in Wl as (x & -> & Hx). now apply V.
Qed.
(** every column asked for is column 0, every row is row 0 *)
Theorem C168_col_refuted : forall T (file : h5file T) c z n, col_ file c z n = col_ file c 0 n.
Proof. reflexivity. Qed.
Theorem C168_row_refuted : forall T (file : h5file T) c r n, row_ file c r n = row_ file c 0 n.
Proof. reflexivity. Qed.
(** so that the data of a run with one probe of column [z] are found only for [z = 0] *)
Theorem C168_col_partial : forall T (zero : T) (file : h5file T) c z ds f, 0 <= z -> 0 <= f < v_frames ds ->
  (forall p, file p = if list_eq_dec string_dec p (names (col_at c z)) then Some (of_line zero ds) else None) ->
  (z = 0 -> shows (col_ file c z f) [v_n ds] (fun l v => match l with [a] => v = v_dat ds f a | _ => False end)) /\
  (z <> 0 -> col_ file c z f = Raise KeyError).
Proof.
  intros T zero file c z ds f Hz Hf F. unfold col_, validate. destruct (f <? 0) eqn:E; [lia|]. cbn [pbind]. unfold frame_get, file_get. rewrite col_names by (cbn [s3]; lia). cbn [s3].
  assert (X : names (col_at c z) = (names c ++ ["col"%string; to_string z])%list).
  { pose proof (col_names c (0, 0, 0, z) Hz) as Y. cbn [s3] in Y. rewrite <- Y. unfold ds_path. cbn [s3]. rewrite !str_of_nonneg by lia. symmetry. exact (names_slash "" _). }
  rewrite F, X. split; intros H.
  - subst z. destruct (list_eq_dec string_dec _ _) as [_|N]; [|contradiction]. cbn [pbind of_line]. unfold index. cbn [dims]. rewrite position_ok by lia. cbn [pbind].
    eexists. split; [reflexivity|]. split; [reflexivity|]. intros l Wl. apply within1 in Wl as (a & -> & Ha). reflexivity.
  - destruct (list_eq_dec string_dec _ _) as [Y|_]; [|reflexivity]. exfalso. apply app_inv_head in Y. injection Y as Y. apply to_string_inj in Y; lia.
Qed.
Theorem C168_row_partial : forall T (zero : T) (file : h5file T) c r ds f, 0 <= r -> 0 <= f < v_frames ds ->
  (forall p, file p = if list_eq_dec string_dec p (names (row_at c r)) then Some (of_line zero ds) else None) ->
  (r = 0 -> shows (row_ file c r f) [v_n ds] (fun l v => match l with [a] => v = v_dat ds f a | _ => False end)) /\
  (r <> 0 -> row_ file c r f = Raise KeyError).
Proof.
  intros T zero file c z ds f Hz Hf F. unfold row_, validate. destruct (f <? 0) eqn:E; [lia|]. cbn [pbind]. unfold frame_get, file_get. rewrite row_names by (cbn [s2]; lia). cbn [s2].
  assert (X : names (row_at c z) = (names c ++ ["row"%string; to_string z])%list).
  { pose proof (row_names c (0, 0, z, 0) Hz) as Y. cbn [s2] in Y. rewrite <- Y. unfold ds_path. cbn [s2]. rewrite !str_of_nonneg by lia. symmetry. exact (names_slash "" _). }
  rewrite F, X. split; intros H.
  - subst z. destruct (list_eq_dec string_dec _ _) as [_|N]; [|contradiction]. cbn [pbind of_line]. unfold index. cbn [dims]. rewrite position_ok by lia. cbn [pbind].
    eexists. split; [reflexivity|]. split; [reflexivity|]. intros l Wl. apply within1 in Wl as (a & -> & Ha). reflexivity.
  - destruct (list_eq_dec string_dec _ _) as [Y|_]; [|reflexivity]. exfalso. apply app_inv_head in Y. injection Y as Y. apply to_string_inj in Y; lia.
Qed.
(** no range of columns can be read *)
Theorem C168_col_range_refuted : forall T (zero : T) nr (file : h5file T) c z start stop, start < stop ->
  col_range zero nr file c z start (Some stop) = Raise ValueError.
Proof.
  intros T zero nr file c z start stop H. unfold col_range. cbn [till pbind]. unfold zeros. cbn [forallb]. destruct (0 <=? start - stop) eqn:E; [lia|]. reflexivity.
Qed.

(** * C166: times, radii and longitudes *)
Open Scope R_scope.
Lemma round_near x : Rabs (x - IZR (py_round x)) <= 1 / 2.
Proof.
  unfold py_round, rlt. destruct (base_Int_part x) as [B1 B2]. set (n := Int_part x) in *.
  destruct (Rlt_dec (x - IZR n) (1 / 2)); [apply Rabs_le; lra|]. destruct (Rlt_dec (1 / 2) (x - IZR n)); [rewrite plus_IZR; apply Rabs_le; lra|].
  destruct (Z.even n); rewrite ?plus_IZR; apply Rabs_le; lra.
Qed.
Lemma round_only x n : Rabs (x - IZR n) < 1 / 2 -> py_round x = n.
Proof.
  intros H. pose proof (round_near x) as N. apply Rabs_def2 in H as (H1 & H2). pose proof (Rle_trans _ _ _ (Rle_abs _) N) as N1.
  rewrite <- Rabs_Ropp in N. pose proof (Rle_trans _ _ _ (Rle_abs _) N) as N2.
  assert (L1 : (py_round x < n + 1)%Z) by (apply lt_IZR; rewrite plus_IZR; lra). assert (L2 : (n < py_round x + 1)%Z) by (apply lt_IZR; rewrite plus_IZR; lra). lia.
Qed.
Lemma round_Z n : py_round (IZR n) = n.
Proof. apply round_only. replace (IZR n - IZR n) with 0 by ring. rewrite Rabs_R0. lra. Qed.

(** frame [f] of a probe with the schedule [s] shows the time at which it was written *)
Theorem C166_time : forall dt (f s : nat), timestamp_by_frame_number dt (Z.of_nat f) (INR s) = timeR (fun x => x) dt (f * s).
Proof.
  intros dt f s. assert (T : forall n, timeR (fun x => x) dt n = INR n * dt).
  { induction n as [|n IH]; [cbn [timeR INR]; ring|]. rewrite S_INR. cbn [timeR]. rewrite IH. ring. }
  rewrite T, mult_INR. unfold timestamp_by_frame_number. rewrite <- INR_IZR_INZ. ring.
Qed.
Theorem C166_frame : forall step f interval, step <> 0 -> interval <> 0 ->
  frame_number_by_timestamp step (timestamp_by_frame_number step f interval) interval = f.
Proof.
  intros step f i H1 H2. unfold frame_number_by_timestamp, timestamp_by_frame_number. replace (IZR f * step * i / step / i) with (IZR f) by (field; auto). apply round_Z.
Qed.
(** for any time, the frame nearest to it *)
Theorem C166_nearest : forall step t interval, 0 < step -> 0 < interval -> forall g,
  Rabs (t - timestamp_by_frame_number step (frame_number_by_timestamp step t interval) interval) <= Rabs (t - timestamp_by_frame_number step g interval) /\
  Rabs (t - timestamp_by_frame_number step (frame_number_by_timestamp step t interval) interval) <= step * interval / 2.
Proof.
  intros step t i H1 H2 g. unfold frame_number_by_timestamp, timestamp_by_frame_number. set (x := t / step / i).
  assert (P : 0 < step * i) by (apply Rmult_lt_0_compat; assumption).
  assert (E : forall n, Rabs (t - IZR n * step * i) = Rabs (x - IZR n) * (step * i)).
  { intros n. rewrite <- (Rabs_right (step * i)) by lra. rewrite <- Rabs_mult. f_equal. unfold x. field. lra. }
  rewrite !E. pose proof (round_near x) as N. split.
  - apply Rmult_le_compat_r; [lra|]. destruct (Rlt_le_dec (Rabs (x - IZR g)) (1 / 2)) as [L|L]; [|lra]. rewrite (round_only x g L). lra.
  - apply (Rmult_le_compat_r (step * i)) in N; lra.
Qed.
(** rows (columns) and radii (longitudes) *)
Theorem C166_row : forall grid size i, grid <> 0 -> size <> 0 -> row_by_radius grid size (radius_by_row grid size i) = i.
Proof. intros g s i H1 H2. unfold row_by_radius, radius_by_row. replace (IZR i * s / g * g / s) with (IZR i) by (field; auto). apply round_Z. Qed.
(** the row of a radius begins nearer to it than any other *)
Theorem C166_row_nearest : forall grid size r, 0 < grid -> 0 < size -> forall i,
  Rabs (r - radius_by_row grid size (row_by_radius grid size r)) <= Rabs (r - radius_by_row grid size i) /\
  Rabs (r - radius_by_row grid size (row_by_radius grid size r)) <= size / grid / 2.
Proof.
  intros g s r H1 H2 i. unfold row_by_radius, radius_by_row. set (x := r * g / s).
  assert (P : 0 < s / g) by (apply Rdiv_lt_0_compat; assumption).
  assert (E : forall n, Rabs (r - IZR n * s / g) = Rabs (x - IZR n) * (s / g)).
  { intros n. rewrite <- (Rabs_right (s / g)) by lra. rewrite <- Rabs_mult. f_equal. unfold x. field. lra. }
  rewrite !E. pose proof (round_near x) as N. split.
  - apply Rmult_le_compat_r; [lra|]. destruct (Rlt_le_dec (Rabs (x - IZR i)) (1 / 2)) as [L|L]; [|lra]. rewrite (round_only x i L). lra.
  - apply (Rmult_le_compat_r (s / g)) in N; lra.
Qed.
(** the row of the cell that contains the radius: only in the lower half of the cell, in the upper half it is the next *)
Definition in_cell (grid size : Rdefinitions.R) (r : Rdefinitions.R) (i : Z) : Prop := IZR i * (size / grid) <= r < (IZR i + 1) * (size / grid).
Theorem C169_cell_partial : forall grid size r i, 0 < grid -> 0 < size -> in_cell grid size r i -> r < (IZR i + 1 / 2) * (size / grid) -> row_by_radius grid size r = i.
Proof.
  intros g s r i H1 H2 (L & _) U. assert (P : 0 < s / g) by (apply Rdiv_lt_0_compat; assumption). unfold row_by_radius. apply round_only.
  assert (E : r = r * g / s * (s / g)) by (field; lra). set (x := r * g / s) in *. rewrite E in L, U.
  apply Rmult_le_reg_r in L; [|exact P]. apply Rmult_lt_reg_r in U; [|exact P]. apply Rabs_def1; lra.
Qed.
Theorem C169_cell_refuted : forall grid size r i, 0 < grid -> 0 < size -> in_cell grid size r i -> (IZR i + 1 / 2) * (size / grid) < r -> row_by_radius grid size r = (i + 1)%Z.
Proof.
  intros g s r i H1 H2 (_ & U) L. assert (P : 0 < s / g) by (apply Rdiv_lt_0_compat; assumption). unfold row_by_radius. apply round_only. rewrite plus_IZR.
  assert (E : r = r * g / s * (s / g)) by (field; lra). set (x := r * g / s) in *. rewrite E in L, U.
  apply Rmult_lt_reg_r in L; [|exact P]. apply Rmult_lt_reg_r in U; [|exact P]. apply Rabs_def1; lra.
Qed.
Open Scope Z_scope.
(** so that the outermost half cell of the area cannot be read by its radius *)
Theorem C169_outermost_refuted : forall T (zero : T) NR NZ R C G p c p1 p3 s k ds file,
  written zero NR NZ R C G p c 0 p1 NR p3 s k ds file -> forall f size r, 0 <= f -> f * s < Z.of_nat k -> (0 < size)%R ->
  in_cell (IZR NR) size r (NR - 1) -> ((IZR (NR - 1) + 1 / 2) * (size / IZR NR) < r)%R ->
  row_rec file c (row_by_radius (IZR NR) size r) (0, p1, NR, p3) f = Raise IndexError.
Proof.
  intros T zero NR NZ R C G p c p1 p3 s k ds file W f size r Hf Hk Hs I L. destruct (written_facts _ _ _ _ _ _ _ _ _ _ _ _ _ _ _ _ W) as (_ & _ & _ & I1 & _).
  assert (P : (0 < IZR NR)%R) by (apply IZR_lt; lia).
  rewrite (C169_cell_refuted _ _ r (NR - 1) P Hs I L). replace (NR - 1 + 1) with NR by lia.
  destruct (C165_rec _ _ _ _ _ _ _ _ _ _ _ _ _ _ _ _ W f Hf Hk) as (a & E & D & _). unfold row_rec. rewrite E. cbn [pbind]. unfold index. rewrite D. rewrite position_out by lia. reflexivity.
Qed.

(** * C167: the configuration of the run, as MetaReader shows it *)
Open Scope string_scope.
Lemma items_under p : forall j v, items_ p j = Val v <-> under p j = Some v.
Proof.
  induction p as [|k p IH]; intros j v; cbn [items_ under]; [split; intros [= ->]; reflexivity|].
  unfold item. destruct j; cbn [pbind]; try (split; discriminate). destruct (lookup k m); cbn [pbind]; [apply IH|split; discriminate].
Qed.
Lemma item_under k j v : item k j = Val v <-> under [k] j = Some v.
Proof. rewrite <- items_under. cbn [items_]. destruct (item k j); cbn [pbind]; reflexivity. Qed.
Lemma each_path_all ps j : forall vs, each_path ps j = Val vs <-> Forall2 (fun p v => under p j = Some v) ps vs.
Proof.
  induction ps as [|p ps IH]; intros vs; cbn; [split; [intros [= <-]; constructor|intros F; inversion F; reflexivity]|].
  fold (each_path ps j). destruct (items_ p j) as [v|e] eqn:E; cbn [pbind].
  - destruct (each_path ps j) as [r|e] eqn:E2; cbn [pbind].
    + split; [intros [= <-]; constructor; [now apply items_under|now apply IH]|]. intros F. inversion F as [|? v' ? r' U F']; subst. apply items_under in U. apply IH in F'. congruence.
    + split; [discriminate|]. intros F. inversion F as [|? v' ? r' U F']; subst. apply IH in F'. discriminate.
  - split; [discriminate|]. intros F. inversion F as [|? v' ? r' U F']; subst. apply items_under in U. congruence.
Qed.
Lemma each_path_some ps j : (exists vs, each_path ps j = Val vs) <-> Forall (fun p => field p (fun _ => True) j) ps.
Proof.
  split.
  - intros (vs & E). apply each_path_all in E. induction E as [|p v ps vs U F IH]; constructor; [exists v; auto|exact IH].
  - intros F. assert (X : exists vs, Forall2 (fun p v => under p j = Some v) ps vs); [|destruct X as (vs & X); exists vs; now apply each_path_all].
    induction F as [|p ps (v & U & _) F (vs & IH)]; [exists []; constructor|]. exists (v :: vs). now constructor.
Qed.
Lemma each_all {A} (f : json -> py A) l : forall r, each_ f l = Val r <-> Forall2 (fun x y => f x = Val y) l r.
Proof.
  induction l as [|x l IH]; intros r; cbn [each_]; [split; [intros [= <-]; constructor|intros F; inversion F; reflexivity]|].
  destruct (f x) as [y|e] eqn:E; cbn [pbind].
  - destruct (each_ f l) as [r'|e] eqn:E2; cbn [pbind].
    + split; [intros [= <-]; constructor; [exact E|now apply IH]|]. intros F. inversion F as [|? v' ? r2 U F']; subst. apply IH in F'. congruence.
    + split; [discriminate|]. intros F. inversion F as [|? v' ? r' U F']; subst. apply IH in F'. discriminate.
  - split; [discriminate|]. intros F. inversion F as [|? v' ? r' U F']; subst. congruence.
Qed.
(** the value under the names is that one *)
Lemma field_under p Q j v : under p j = Some v -> field p Q j -> Q v.
Proof. intros U (w & U' & H). rewrite U in U'. now injection U' as <-. Qed.

(** what is shown of a species, of a beam and of a probe *)
Definition shows_species (vs : list json) (s : species) : Prop := exists q w m, 
  vs = [Str (s_name s); Num (s_left s); Num (s_right s); Num (s_temp s); q; w] /\ int32 (s_charge s) q /\ int32 m w /\ s_mass s = (m mod 2 ^ 32)%Z.
Definition shows_beam (vs : list json) (b : beam) : Prop := exists name q w m a,
  vs = [Str name; Num (b_velocity b); q; w; Num (b_start b); Num (b_density b); a; Num (b_length b); Num (b_radius b); Num (b_distance b)] /\
  b_name b = "beam_" ++ name /\ int32 (b_charge b) q /\ int32 m w /\ b_mass b = (m mod 2 ^ 32)%Z /\ int32 (b_amount b) a.
Definition shows_probe (v : list json * list json * option json) (p : prob) : Prop := exists s size sp w,
  v = ([Str "rec"; Str (p_component p); s], size, sp) /\ int32 w s /\ p_schedule (p_probe p) = (w mod 2 ^ 32)%Z /\
  Forall2 (fun v n => size64 n v) size (p_dims (p_probe p)) /\ (sp = Some (Str (p_specie p)) \/ (forall s, sp <> Some (Str s)) /\ p_specie p = "unknown").

Lemma path_cons p ps j vs : each_path (p :: ps) j = Val vs -> exists v r, vs = v :: r /\ (forall Q, field p Q j -> Q v) /\ each_path ps j = Val r.
Proof. intros E. apply each_path_all in E. inversion E as [|? v ? r U F]; subst. exists v, r. split; [reflexivity|]. split; [intros Q; now apply field_under|now apply each_path_all]. Qed.
Lemma path_nil j vs : each_path [] j = Val vs -> vs = [].
Proof. now intros [= <-]. Qed.
Ltac paths E := 
  lazymatch type of E with
  | each_path (_ :: _) _ = Val _ => let v := fresh "v" in let r := fresh "r" in let H := fresh "H" in apply path_cons in E as (v & r & -> & H & E); paths E
  | each_path [] _ = Val _ => apply path_nil in E as ->
  end.
Ltac known_fields := repeat match goal with H : forall Q, field ?p Q ?j -> Q ?v, F : field ?p (number ?x) ?j |- _ => specialize (H _ F); unfold number in H; subst v
  | H : forall Q, field ?p Q ?j -> Q ?v, F : field ?p (text ?x) ?j |- _ => specialize (H _ F); unfold text in H; subst v
  | H : forall Q, field ?p Q ?j -> Q ?v, F : field ?p (flag ?x) ?j |- _ => specialize (H _ F); unfold flag in H; subst v
  | H : forall Q, field ?p Q ?j -> Q ?v, F : field ?p ?Q ?j |- _ => specialize (H _ F) end.
Lemma species_shown e s vs : says_species e s -> meta_species e = Val vs -> shows_species vs s.
Proof.
  intros (A1 & _ & (m & A2 & M) & A3 & A4 & A5 & A6) E. unfold meta_species in E. paths E. known_fields.
  assert (X : s_right s = s_left s). { destruct A4 as (w & U & ->), A5 as (w' & U' & W). rewrite U in U'. injection U' as <-. injection W as W. congruence. }
  unfold shows_species. rewrite X. do 3 eexists. split; [reflexivity|]. split; [eassumption|]. split; [eassumption|exact M].
Qed.
Lemma beam_shown e b vs : says_beam e b -> meta_beam e = Val vs -> shows_beam vs b.
Proof.
  intros ((name & A1 & N & _) & (m & A2 & M) & A3 & A4 & A5 & A6 & A7 & A8 & A9 & A10 & _) E. unfold meta_beam in E. paths E. known_fields.
  do 5 eexists. split; [reflexivity|]. split; [exact N|]. split; [eassumption|]. split; [eassumption|]. split; [exact M|eassumption].
Qed.
Lemma probes_shown nr nz es ps : Forall2 (says_probe nr nz) es ps -> forall size vs, meta_probes size es = Val vs -> Forall2 shows_probe vs ps.
Proof.
  induction 1 as [|e p es ps S F IH]; intros size vs E; cbn [meta_probes] in E; [injection E as <-; constructor|].
  destruct S as (A1 & A2 & A3 & r0 & z0 & r1 & z1 & w & B1 & B2 & B3 & B4 & B5 & _ & _ & Ep & _).
  assert (A3' : item "shape" e = Val (Str "rec")) by (apply item_under; destruct A3 as (v & U & ->); exact U).
  rewrite A3' in E. cbn [pbind j_eqb] in E. rewrite String.eqb_refl in E. cbn [orb] in E.
  destruct (each_path [["start"; "r"]; ["start"; "z"]; ["end"; "r"]; ["end"; "z"]] e) as [sz|] eqn:E1; cbn [pbind] in E; [|discriminate].
  destruct (each_path [["shape"]; ["component"]; ["schedule"]] e) as [wh|] eqn:E2; cbn [pbind] in E; [|discriminate].
  destruct (meta_probes sz es) as [r|] eqn:E3; cbn [pbind] in E; [|discriminate]. injection E as <-. constructor; [|exact (IH _ _ E3)].
  clear E3 IH. paths E1. paths E2. known_fields. do 4 eexists. split; [reflexivity|]. rewrite Ep. cbn [p_schedule p_dims].
  split; [eassumption|]. split; [reflexivity|]. split; [repeat (constructor; [eassumption|]); constructor|].
  destruct A2 as [(sv & U & ->)|[N ->]].
  - left. apply item_under in U. now rewrite U.
  - right. split; [|reflexivity]. intros s. destruct (item "specie" e) as [sv|] eqn:I; [|discriminate]. intros [= ->]. apply item_under in I. apply (N s). now exists (Str s).
Qed.
Lemma probes_ready nr nz es ps : Forall2 (says_probe nr nz) es ps -> forall size, exists vs, meta_probes size es = Val vs.
Proof.
  induction 1 as [|e p es ps S F IH]; intros size; cbn [meta_probes]; [eauto|].
  destruct S as (A1 & _ & A3 & r0 & z0 & r1 & z1 & w & B1 & B2 & B3 & B4 & B5 & _).
  assert (A3' : item "shape" e = Val (Str "rec")) by (apply item_under; destruct A3 as (v & U & ->); exact U).
  rewrite A3'. cbn [pbind j_eqb]. rewrite String.eqb_refl. cbn [orb].
  assert (W : forall p Q, field p Q e -> field p (fun _ => True) e) by (intros q Q (v & U & _); exists v; auto).
  destruct (proj2 (each_path_some [["start"; "r"]; ["start"; "z"]; ["end"; "r"]; ["end"; "z"]] e)) as [sz E1]; [repeat (constructor; [eapply W; eassumption|]); constructor|].
  destruct (proj2 (each_path_some [["shape"]; ["component"]; ["schedule"]] e)) as [wh E2]; [repeat (constructor; [eapply W; eassumption|]); constructor|].
  rewrite E1. cbn [pbind]. rewrite E2. cbn [pbind]. destruct (IH sz) as [r E3]. rewrite E3. cbn [pbind]. eauto.
Qed.

(** the run reads its values where MetaReader does *)
Lemma recorded_says light b j c j' : read_cfg light b j = Ok (c, j') -> says b j' c.
Proof. intros H. apply C156_again in H as (H & _). now apply C155_reads in H. Qed.
Lemma each_shown {A B} (S : json -> A -> Prop) (f : json -> py B) (P : B -> A -> Prop) es l : (forall e s v, S e s -> f e = Val v -> P v s) ->
  Forall2 S es l -> forall vs, each_ f es = Val vs -> Forall2 P vs l.
Proof.
  intros H F vs E. apply each_all in E. revert l F. induction E as [|x y es vs Ex F' IH]; intros l F; inversion F; subst; constructor; eauto.
Qed.
Lemma parts_of j m : meta_reader j = Val m ->
  each_path [["geometry"; "size"; "radius"]; ["geometry"; "size"; "longitude"]] j = Val (m_size m) /\
  each_path [["geometry"; "grid"; "radius"]; ["geometry"; "grid"; "longitude"]] j = Val (m_grid m) /\
  each_path [["geometry"; "domains_amount"; "radius"]; ["geometry"; "domains_amount"; "longitude"]] j = Val (m_domains m) /\
  each_path [["geometry"; "pml"; "left_wall"]; ["geometry"; "pml"; "right_wall"]; ["geometry"; "pml"; "outer_wall"]; ["geometry"; "pml"; "sigma_1"]; ["geometry"; "pml"; "sigma_2"]] j = Val (m_pml m) /\
  each_path [["time"; "start"]; ["time"; "end"]; ["time"; "step"]] j = Val (m_time m) /\
  (l <-- item "particles" j; for_in meta_species l) = Val (m_species m) /\ (l <-- item "beams" j; for_in meta_beam l) = Val (m_beams m) /\
  each_path [["data"; "compression"; "use"]; ["data"; "compression"; "level"]] j = Val (m_compression m) /\
  (l <-- items_ ["data"; "probes"] j; match l with Arr l => meta_probes [Num 0; Num 0; Num (-1); Num (-1)] l | Obj [] | Str "" => Val [] | _ => Raise TypeError end) = Val (m_probes m) /\
  each_path plot_keys j = Val (m_plot m).
Proof.
  unfold meta_reader. intros E.
  assert (B : forall A B (x : py A) (k : A -> py B) v, pbind x k = Val v -> exists a, x = Val a /\ k a = Val v) by (intros A B [a|e] k v; [eauto|discriminate]).
  repeat (apply B in E as (? & ? & E)).
  injection E as <-. cbn [m_size m_grid m_domains m_pml m_time m_species m_beams m_compression m_probes m_plot].
  repeat (split; [first [assumption|reflexivity]|]). assumption.
Qed.

Theorem C167_values : forall light b j c j' m, read_cfg light b j = Ok (c, j') -> meta_reader j' = Val m ->
  m_size m = [Num (a_radius (c_area c)); Num (a_longitude (c_area c))] /\
  Forall2 (fun v n => size64 n v) (m_grid m) [a_nr (c_area c); a_nz (c_area c)] /\
  m_time m = [Num (t_start (c_time c)); Num (t_end (c_time c)); Num (t_step (c_time c))] /\
  Forall2 shows_species (m_species m) (c_particles c) /\ Forall2 shows_beam (m_beams m) (c_beams c) /\
  (exists l, m_compression m = [Bool (o_compress (c_output c)); l] /\ int32 (o_level (c_output c)) l) /\
  Forall2 shows_probe (m_probes m) (c_probes c) /\
  (single b = false -> exists x y, Forall2 (fun v n => int32 n v) (m_domains m) [x; y] /\ a_dom_r (c_area c) = (x mod 2 ^ 64)%Z /\ a_dom_z (c_area c) = (y mod 2 ^ 64)%Z) /\
  (has_pml b = true -> exists l vl vr vo, a_pml (c_area c) = Some l /\ m_pml m = [vl; vr; vo; Num (l_s1 l); Num (l_s2 l)] /\
    part_of (a_nz (c_area c)) (l_left l) vl /\ part_of (a_nz (c_area c)) (l_right l) vr /\ part_of (a_nr (c_area c)) (l_outer l) vo).
Proof.
  intros light b j c j' m H E. pose proof (recorded_says _ _ _ _ _ H) as (_ & _ & _ & SA & SC & SP & SB & SO & SR & _). clear H.
  destruct (parts_of _ _ E) as (E1 & E2 & E3 & E4 & E5 & E6 & E7 & E8 & E9 & E10). clear E.
  destruct SA as (G1 & G2 & G3 & G4 & _ & _ & G5 & G6). destruct SC as (T1 & T2 & T3 & _). destruct SO as (_ & O1 & O2).
  split; [clear - E1 G1 G2; revert E1; generalize (m_size m); intros vs E1; paths E1; known_fields; reflexivity|].
  split; [clear - E2 G3 G4; revert E2; generalize (m_grid m); intros vs E2; paths E2; known_fields; repeat (constructor; [eassumption|]); constructor|].
  split; [clear - E5 T1 T2 T3; revert E5; generalize (m_time m); intros vs E5; paths E5; known_fields; reflexivity|].
  split.
  { destruct SP as (v & U & es & -> & F). apply item_under in U. rewrite U in E6. cbn [pbind for_in] in E6. exact (each_shown _ _ _ _ _ species_shown F _ E6). }
  split.
  { destruct SB as (v & U & es & -> & F). apply item_under in U. rewrite U in E7. cbn [pbind for_in] in E7. exact (each_shown _ _ _ _ _ beam_shown F _ E7). }
  split; [clear - E8 O1 O2; revert E8; generalize (m_compression m); intros vs E8; paths E8; known_fields; eexists; split; [reflexivity|assumption]|].
  split.
  { destruct SR as (v & U & es & -> & F). apply items_under in U. rewrite U in E9. cbn [pbind] in E9. exact (probes_shown _ _ _ _ F _ _ E9). }
  split.
  - intros S. rewrite S in G6. destruct G6 as (x & y & D1 & D2 & D3 & D4). exists x, y. clear - E3 D1 D2 D3 D4; revert E3; generalize (m_domains m); intros vs E3; paths E3; known_fields.
    split; [repeat (constructor; [eassumption|]); constructor|auto].
  - intros S. rewrite S in G5. destruct G5 as (l & P & F). exists l. clear - E4 P F. revert E4. generalize (m_pml m). intros vs E4.
    assert (W : forall k Q, (forall v, says_layers (a_nr (c_area c)) (a_nz (c_area c)) v l -> field [k] Q v) -> field ["geometry"; "pml"; k] Q j').
    { intros k Q X. destruct F as (v & U & Sv). destruct (X v Sv) as (w & Uw & Qw). exists w. split; [|exact Qw]. clear - U Uw. cbn [under] in *.
      destruct j' as [| | | | |mm]; try discriminate. destruct (lookup "geometry" mm) as [[| | | | |m1]|]; try discriminate. destruct (lookup "pml" m1) as [w1|]; [|discriminate]. injection U as <-. exact Uw. }
    pose proof (W "left_wall" _ (fun v Sv => proj1 Sv)) as W1. pose proof (W "outer_wall" _ (fun v Sv => proj1 (proj2 Sv))) as W2. pose proof (W "right_wall" _ (fun v Sv => proj1 (proj2 (proj2 Sv)))) as W3.
    pose proof (W "sigma_1" _ (fun v Sv => proj1 (proj2 (proj2 (proj2 Sv))))) as W4. pose proof (W "sigma_2" _ (fun v Sv => proj2 (proj2 (proj2 (proj2 Sv))))) as W5.
    clear F W. paths E4. known_fields. do 3 eexists. split; [exact P|]. split; [reflexivity|]. auto.
Qed.

(** what MetaReader wants besides what the run wants *)
Definition wanted : list (list string) :=
  (map (fun k => ["geometry"; "domains_amount"; k]) ["radius"; "longitude"] ++
   map (fun k => ["geometry"; "pml"; k]) ["left_wall"; "right_wall"; "outer_wall"; "sigma_1"; "sigma_2"] ++
   map (fun k => "data" :: "plot" :: k)
     (["subplot"; "cmap"] :: map (fun k => ["subplot"; "ticks"; k]) ["x_amount"; "y_amount"; "z_amount"; "cbar_amount"] ++
      map (fun k => ["figure"; k]) ["color"; "width"; "height"; "dpi"] ++ map (fun k => ["figure"; "font"; k]) ["family"; "size"; "name"] ++
      map (fun k => ["video"; k]) ["codec"; "fps"; "bitrate"]))%list.
Lemma each_ready {A B} (S : json -> A -> Prop) (f : json -> py B) es l : (forall e s, S e s -> exists v, f e = Val v) -> Forall2 S es l -> exists vs, each_ f es = Val vs.
Proof.
  intros H F. induction F as [|e s es l He F IH]; cbn [each_]; [eauto|]. destruct (H e s He) as (v & ->). destruct IH as (r & ->). cbn [pbind]. eauto.
Qed.
Theorem C170_opens_partial : forall light b j c j', read_cfg light b j = Ok (c, j') ->
  ((exists m, meta_reader j' = Val m) <-> Forall (fun p => field p (fun _ => True) j) wanted).
Proof.
  intros light b j c j' H. pose proof (recorded_says _ _ _ _ _ H) as (_ & _ & _ & SA & SC & SP & SB & SO & SR & _).
  destruct (read_data _ _ _ _ _ H) as (mj & dj & psj & -> & Dj & Pj & _).
  assert (Ej : j' = recorded b (Obj mj)) by apply (C155_reads light b (Obj mj) c j'), H. clear H.
  assert (X : Forall (fun p => field p (fun _ => True) (Obj mj)) wanted <-> Forall (fun p => field p (fun _ => True) j') wanted).
  { rewrite Ej. rewrite !Forall_forall. split; intros Y p I; specialize (Y p I);
    (assert (Z : (exists k q, p = k :: q /\ k <> "data" /\ k <> "build_options") \/ exists k q, p = "data" :: k :: q /\ k <> "probes");
     [clear - I; cbn [wanted map app In] in I; repeat (destruct I as [<-|I]; [(left; eexists; eexists; split; [reflexivity|split; discriminate]) || (right; eexists; eexists; split; [reflexivity|discriminate])|]); destruct I|]);
    (destruct Z as [(k & q & -> & N1 & N2)|(k & q & -> & N)]; [apply (again_other b mj dj psj Dj Pj k q _ N1 N2); exact Y|apply (again_data b mj dj psj Dj Pj k q _ N); exact Y]). }
  rewrite X. clear X Ej Dj Pj. split.
  - intros (m & E). destruct (parts_of _ _ E) as (_ & _ & E3 & E4 & _ & _ & _ & _ & _ & E10).
    pose proof (proj1 (each_path_some _ _) (ex_intro _ _ E3)) as F1. pose proof (proj1 (each_path_some _ _) (ex_intro _ _ E4)) as F2. pose proof (proj1 (each_path_some _ _) (ex_intro _ _ E10)) as F3.
    unfold wanted. apply Forall_app. split; [exact F1|]. apply Forall_app. split; [exact F2|exact F3].
  - intros F. unfold wanted in F. apply Forall_app in F as (F1 & F). apply Forall_app in F as (F2 & F3).
    assert (W : forall p Q e, field p Q e -> field p (fun _ => True) e) by (intros q Q e (v & U & _); exists v; auto).
    destruct SA as (G1 & G2 & G3 & G4 & _). destruct SC as (T1 & T2 & T3 & _). destruct SO as (O0 & O1 & O2).
    assert (RS : forall e s, says_species e s -> exists v, meta_species e = Val v).
    { intros e s (A1 & _ & (mm & A2 & _) & A3 & A4 & A5 & A6). apply each_path_some. repeat (constructor; [eapply W; eassumption|]); constructor. }
    assert (RB : forall e s, says_beam e s -> exists v, meta_beam e = Val v).
    { intros e s ((nm & A1 & _) & (mm & A2 & _) & A3 & A4 & A5 & A6 & A7 & A8 & A9 & A10 & _). apply each_path_some. repeat (constructor; [eapply W; eassumption|]); constructor. }
    unfold meta_reader.
    destruct (proj2 (each_path_some [["geometry"; "size"; "radius"]; ["geometry"; "size"; "longitude"]] j')) as [? ->]; [repeat (constructor; [eapply W; eassumption|]); constructor|]. cbn [pbind].
    destruct (proj2 (each_path_some [["geometry"; "grid"; "radius"]; ["geometry"; "grid"; "longitude"]] j')) as [? ->]; [repeat (constructor; [eapply W; eassumption|]); constructor|]. cbn [pbind].
    destruct (proj2 (each_path_some _ _) F1) as [? E3]. cbn [map] in E3. rewrite E3. cbn [pbind]. destruct (proj2 (each_path_some _ _) F2) as [? E4]. cbn [map] in E4. rewrite E4. cbn [pbind].
    destruct (proj2 (each_path_some [["time"; "start"]; ["time"; "end"]; ["time"; "step"]] j')) as [? ->]; [repeat (constructor; [eapply W; eassumption|]); constructor|]. cbn [pbind].
    destruct SP as (v & U & es & -> & FS). apply item_under in U. rewrite U. cbn [pbind for_in].
    destruct (each_ready _ meta_species _ _ RS FS) as [? ->]. cbn [pbind].
    destruct SB as (vb & Ub & bs & -> & FB). apply item_under in Ub. rewrite Ub. cbn [pbind for_in].
    destruct (each_ready _ meta_beam _ _ RB FB) as [? ->]. cbn [pbind].
    destruct O0 as (vr & Ur & ->). apply items_under in Ur. rewrite Ur. cbn [pbind a_string].
    destruct (proj2 (each_path_some [["data"; "compression"; "use"]; ["data"; "compression"; "level"]] j')) as [? ->]; [repeat (constructor; [eapply W; eassumption|]); constructor|]. cbn [pbind].
    destruct SR as (vp & Up & qs & -> & FP). apply items_under in Up. rewrite Up. cbn [pbind].
    destruct (probes_ready _ _ _ _ FP [Num 0; Num 0; Num (-1); Num (-1)]) as [? ->]. cbn [pbind].
    destruct (proj2 (each_path_some _ _) F3) as [vplot E10]. change (each_path plot_keys j' = Val vplot) in E10. rewrite E10. cbn [pbind]. eauto.
Qed.

(** ** Witnesses *)
(** the run starts, its results cannot be opened *)
Theorem C170_opens_refuted : exists j c l j', start 3 plain j = Ok (c, l) /\ In ("metadata", Dump j') l /\ meta_reader j' = Raise KeyError.
Proof.
  assert (F : Forall2 (says_probe 1 1) [sample_probe "E/z" []] [sample_prob "E/z" "unknown" "E/z/rec/0-1_0-1"]) by (constructor; [exact sample_Ez|constructor]).
  exists (sample [sample_probe "E/z" []] [("comment", Str "none")]); do 3 eexists.
  split; [apply C157_attributes_partial; eexists; exists "none"; split; [apply sample_reads; exact F|]; split; [discriminate|]; split; reflexivity|].
  split; [left; reflexivity|]. reflexivity.
Qed.
(** a configuration with all that MetaReader wants *)
Definition rich_plot : json :=
  Obj [("subplot", Obj [("cmap", Str "terrain"); ("ticks", Obj [("x_amount", Num 20); ("y_amount", Num 8); ("z_amount", Num 10); ("cbar_amount", Num 3)])]);
       ("figure", Obj [("color", Str "None"); ("width", Num 10); ("height", Num 5); ("dpi", Num 100); ("font", Obj [("name", Str "DejaVu Sans"); ("family", Str "sans-serif"); ("size", Num 10)])]);
       ("video", Obj [("codec", Str "mjpeg"); ("fps", Num 20); ("bitrate", Num 32000)])].
Definition rich (probes : list json) : json :=
  Obj [("macro_amount", Num 4); ("beam_plasma_macro_size_ratio", Num 2); ("log_file", Str "log"); ("comment", Str "none");
    ("geometry", Obj [("size", Obj [("radius", Num 1); ("longitude", Num 1)]); ("grid", Obj [("radius", Num 1); ("longitude", Num 1)]);
       ("domains_amount", Obj [("radius", Num 1); ("longitude", Num 4)]);
       ("pml", Obj [("left_wall", Num 0); ("right_wall", Num 0); ("outer_wall", Num (1 / 8)); ("sigma_1", Num 1); ("sigma_2", Num 7)])]);
    ("time", Obj [("start", Num 0); ("end", Num 2); ("step", Num 1)]);
    ("particles", Arr [sample_species "electrons" 1 (-1); sample_species "ions" 1836 1]); ("beams", Arr []);
    ("data", Obj [("data_root", Str "out"); ("compression", Obj [("use", Bool false); ("level", Num 0)]); ("probes", Arr probes); ("plot", rich_plot)])].
Lemma rich_reads probes ps : Forall2 (says_probe 1 1) probes ps ->
  read_cfg 3 plain (rich probes) = Ok (sample_settings ps sample_messages, recorded plain (rich probes)).
Proof.
  intros F. apply C155_reads. split; [|split; [|split; [|split; [|split; [|reflexivity]]]]].
  - unfold says, rich. split; [here|]. split; [here|]. split; [here; apply integer_Z; lia|]. split.
    { unfold says_area. cbn [has_pml single plain sample_settings c_area a_radius a_longitude a_nr a_nz a_pml a_dom_r a_dom_z].
      repeat (split; [first [here; try (apply integer_Z; lia)|lra]|]). split; [reflexivity|]. split; reflexivity. }
    split; [unfold says_clock; cbn [sample_settings c_time t_start t_end t_step t_current]; repeat split; here|]. split.
    { here. exists [sample_species "electrons" 1 (-1); sample_species "ions" 1836 1]. split; [reflexivity|]. cbn [sample_settings c_particles].
      repeat (constructor; [unfold says_species, the_species, sample_species; cbn [s_name s_id s_mass s_charge s_left s_right s_temp];
        split; [here|]; split; [reflexivity|]; split; [eexists; split; [here; apply integer_Z; lia|reflexivity]|]; split; [here; apply integer_Z; lia|]; repeat split; here|]). constructor. }
    split; [here; exists []; split; [reflexivity|constructor]|]. split.
    { unfold says_output. cbn [sample_settings c_output o_root o_compress o_level]. split; [here|]. split; [here|]. here. apply integer_Z. lia. }
    split; [here; exists probes; split; [reflexivity|exact F]|]. reflexivity.
  - cbn [sample_settings c_particles map the_species s_name]. repeat constructor; cbn [In]; intuition discriminate.
  - constructor.
  - exact sample_shares.
  - destruct (sample_check 3 1) as [ms E]. assert (M : sample_messages = ms) by (unfold sample_messages_at; now rewrite E). rewrite M. exact E.
Qed.
Example C167_ex : let j := rich [sample_probe "E/z" []; sample_probe "density" [("specie", Str "ions")]] in
  exists c j' m, read_cfg 3 plain j = Ok (c, j') /\ meta_reader j' = Val m /\ Forall (fun p => field p (fun _ => True) j) wanted /\
    m_probes m = [([Str "rec"; Str "E/z"; Num 5], [Num 0; Num 0; Num 1; Num 1], Some Null); ([Str "rec"; Str "density"; Num 5], [Num 0; Num 0; Num 1; Num 1], Some (Str "ions"))].
Proof.
  intros j. eexists; eexists; eexists. split; [apply rich_reads; constructor; [exact sample_Ez|]; constructor; [exact (sample_density "ions")|constructor]|].
  split; [reflexivity|]. split; [|reflexivity]. repeat (constructor; [eexists; split; reflexivity|]). constructor.
Qed.
(** a build for one processor does not divide the area, the amount of domains that is shown is that of the file *)
Theorem C167_domains_refuted : exists j c j' m, read_cfg 3 plain j = Ok (c, j') /\ meta_reader j' = Val m /\ single plain = true /\
  m_domains m = [Num 1; Num 4] /\ a_dom_r (c_area c) = 1%Z /\ a_dom_z (c_area c) = 1%Z.
Proof.
  exists (rich [sample_probe "E/z" []]). do 3 eexists. split; [apply rich_reads; constructor; [exact sample_Ez|constructor]|]. repeat split.
Qed.

Open Scope Z_scope.
Definition frame_grid (n r z : Z) : grid Z := mkGrid 7 6 3 2 2 (fun a b => 1000 * n + 100 * (3 * r + (a - 2)) + (2 * z + (b - 2))).
Definition frame_json : json :=
  Obj [("component", Str "E/r"); ("shape", Str "rec"); ("schedule", Num 2); ("start", Obj [("r", Num 1); ("z", Num 1)]); ("end", Obj [("r", Num 5); ("z", Num 5)])]%string.
Definition frame_probe : prob :=
  {| p_component := "E/r"; p_specie := "unknown"; p_path := "E/r/rec/1-5_1-5"; p_probe := {| p_shape := 0; p_dims := [1; 1; 5; 5]; p_schedule := 2 |} |}.
Definition frame_file (ds : dataset Z) : h5file Z :=
  fun p => if list_eq_dec string_dec p ["E"; "r"; "rec"; "1-5_1-5"]%string then Some (of_rec 0 ds) else None.
(** five steps of a run of 2 x 3 domains, every second of them written: three frames *)
Definition frame_ds : dataset Z :=
  match record_rec 0 2 3 (bound 6 2 0) (bound 6 3 0) frame_grid 1 1 5 5 2 5 with Ok ds => ds | _ => mkDs 0 0 0 (fun _ _ _ => 0) end.
Definition value (r : py (nd Z)) (l : list Z) : py (list Z * Z) := a <-- r; Val (dims a, at_ a l).
Example C165_ex : written 0 6 6 2 3 frame_grid frame_probe "E/r" 1 1 5 5 2 5 frame_ds (frame_file frame_ds) /\ amount 2 5 = 3 /\
  value (dot_rec (frame_file frame_ds) "E/r" 3 2 (1, 1, 5, 5) 2) [] = Val ([], 4403) /\
  value (rec_range 0 (frame_file frame_ds) "E/r" (1, 1, 5, 5) 1 (Some 3)) [0; 0; 0] = Val ([2; 4; 4], 2101).
Proof.
  split; [|split; [reflexivity|split; vm_compute; reflexivity]].
  split; [|split; [|split; [|split; [lia|split; [|reflexivity]]]]].
  - intros n _. destruct (proj1 ex_C16_hyps) as (S1 & S2 & L1 & L2 & W). split; [exact S1|]. split; [exact S2|]. split; [exact L1|]. split; [exact L2|].
    intros r z Hr Hz. exact (W r z Hr Hz).
  - split; [exists frame_json|split; [right; split; [cbn; intuition discriminate|reflexivity]|reflexivity]].
    split; [here|]. split; [right; split; [|reflexivity]; intros t H; apply field_text in H; discriminate|]. split; [here|].
    exists 1, 1, 5, 5, 2. repeat (split; [first [here; apply integer_Z; lia|lia|reflexivity]|]). split; [cbn; intuition discriminate|reflexivity].
  - exact (proj2 (proj2 (proj2 ex_C16_hyps))).
  - unfold frame_ds. assert (E : exists d, record_rec 0 2 3 (bound 6 2 0) (bound 6 3 0) frame_grid 1 1 5 5 2 5 = Ok d) by (eexists; vm_compute; reflexivity).
    destruct E as [d E]. now rewrite E.
Qed.
Example C168_ex : let file := fun p => if list_eq_dec string_dec p ["E"; "r"; "col"; "3"]%string then Some (of_line 0 (mkV 2 4 (fun f a => 10 * f + a))) else
    if list_eq_dec string_dec p ["E"; "r"; "dot"; "3_2"]%string then Some (of_line 0 (mkV 2 1 (fun f a => 10 * f + a))) else None in
  col_ file "E/r" 3 1 = Raise KeyError /\ (exists a, dot_ file "E/r" 3 2 1 = Val a /\ at_ a [0] = 10) /\ dot_ file "E/r" 2 3 1 = Raise KeyError.
Proof. intros file. split; [reflexivity|]. split; [eexists; split; reflexivity|reflexivity]. Qed.
Example C166_ex : row_by_radius 10 1 (47 / 100) = 5 /\ in_cell 10 1 (47 / 100) 4 /\ frame_number_by_timestamp (1 / 10) (7 / 10) 2 = 4 /\ frame_number_by_timestamp (1 / 10) (5 / 10) 2 = 2.
Proof.
  split; [apply round_only, Rabs_def1; lra|]. split; [unfold in_cell; lra|].
  assert (F : forall x n, (IZR n <= x < IZR n + 1)%R -> Int_part x = n).
  { intros x n H. destruct (base_Int_part x). assert (L1 : Int_part x < n + 1) by (apply lt_IZR; rewrite plus_IZR; lra). assert (L2 : n < Int_part x + 1) by (apply lt_IZR; rewrite plus_IZR; lra). lia. }
  unfold frame_number_by_timestamp, py_round, rlt. rewrite (F _ 3), (F _ 2) by lra.
  split; repeat (destruct (Rlt_dec _ _); try lra); reflexivity.
Qed.

Print Assumptions C165_path.
Print Assumptions C165_path_only.
Print Assumptions C165_rec.
Print Assumptions C165_rec_other.
Print Assumptions C165_rec_range.
Print Assumptions C165_row_rec.
Print Assumptions C165_col_rec.
Print Assumptions C165_dot_rec.
Print Assumptions C165_row_rec_range.
Print Assumptions C165_col_rec_range.
Print Assumptions C165_dot_rec_range.
Print Assumptions C168_part_range_refuted.
Print Assumptions C168_all_frames_refuted.
Print Assumptions C165_dot.
Print Assumptions C165_dot_range.
Print Assumptions C168_col_refuted.
Print Assumptions C168_row_refuted.
Print Assumptions C168_col_partial.
Print Assumptions C168_row_partial.
Print Assumptions C168_col_range_refuted.
Print Assumptions C166_time.
Print Assumptions C166_frame.
Print Assumptions C166_nearest.
Print Assumptions C166_row.
Print Assumptions C166_row_nearest.
Print Assumptions C169_cell_partial.
Print Assumptions C169_cell_refuted.
Print Assumptions C169_outermost_refuted.
Print Assumptions C167_values.
Print Assumptions C170_opens_partial.
Print Assumptions C170_opens_refuted.
Print Assumptions C167_domains_refuted.
