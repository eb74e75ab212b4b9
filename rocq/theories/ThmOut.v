(** Theorems about the data output: properties C16 - C21. *)
From Verif Require Import Base GridModel GridProofs DecompModel DecompProofs OutModel OutProofs.
From Coq Require Import ZifyBool.

(** * C16 *)
(** The set-up: NR x NZ cells starting at (b0, b1), divided by the code into R x C domains, none of them
    wider than 32767 cells, each with a grid of its own size; a probe [p0, p2) x [p1, p3) inside. *)
Definition divided {T} NR NZ R C b0 b1 (G : Z -> Z -> grid T) : Prop :=
  sane NR R b0 /\ sane NZ C b1 /\
  (forall r, 0 <= r < R -> local_amount NR R b0 r < 2 ^ 15) /\
  (forall z, 0 <= z < C -> local_amount NZ C b1 z < 2 ^ 15) /\
  (forall r z, 0 <= r < R -> 0 <= z < C ->
     wf (G r z) /\ xs (G r z) = local_amount NR R b0 r /\ ys (G r z) = local_amount NZ C b1 z).
Definition probe_inside NR NZ b0 b1 p0 p1 p2 p3 : Prop :=
  b0 <= p0 <= p2 /\ p2 <= b0 + NR /\ b1 <= p1 <= p3 /\ p3 <= b1 + NZ.
(** domain (r, z) owns the cell (i, j) of the simulation area *)
Definition owns NR NZ R C b0 b1 r z i j : Prop :=
  0 <= r < R /\ 0 <= z < C /\
  bound NR R b0 r <= i < bound NR R b0 (r + 1) /\ bound NZ C b1 z <= j < bound NZ C b1 (z + 1).
(** no border between two domains (in r) lies on the first or last row of the probe; no domain is empty *)
Definition off_border NR R b0 p0 p2 : Prop :=
  p0 < p2 /\ (forall r, 0 < r < R -> p0 <> bound NR R b0 r /\ p2 <> bound NR R b0 r) /\
  (forall r, 0 <= r < R -> bound NR R b0 r < bound NR R b0 (r + 1)).
Definition probe_dataset {T} p0 p1 p2 p3 num (ds : dataset T) : Prop :=
  0 <= num < frames ds /\ n0 ds = p2 - p0 /\ n1 ds = p3 - p1.

Lemma divided_hyps {T} NR NZ R C b0 b1 (G : Z -> Z -> grid T) : divided NR NZ R C b0 b1 G ->
  0 <= bound NR R b0 0 /\ 0 <= bound NZ C b1 0 /\
  (forall r, 0 <= r < R -> bound NR R b0 r <= bound NR R b0 (r + 1) < bound NR R b0 r + 2 ^ 15) /\
  (forall z, 0 <= z < C -> bound NZ C b1 z <= bound NZ C b1 (z + 1) < bound NZ C b1 z + 2 ^ 15) /\
  bound NR R b0 R < 2 ^ 64 /\ bound NZ C b1 C < 2 ^ 64 /\
  (forall r z, 0 <= r < R -> 0 <= z < C ->
     wf (G r z) /\ xs (G r z) = bound NR R b0 (r + 1) - bound NR R b0 r /\
     ys (G r z) = bound NZ C b1 (z + 1) - bound NZ C b1 z).
Proof.
  intros (S1 & S2 & L1 & L2 & HG). pose proof S1 as (? & ? & ? & ? & ?). pose proof S2 as (? & ? & ? & ? & ?).
  rewrite !bound_0, !bound_n by auto. split; [lia|]. split; [lia|]. split; [|split; [|split; [lia|split; [lia|]]]].
  - intros r Hr. pose proof (bound_mono NR R b0 r (r + 1) S1 ltac:(lia) ltac:(lia)).
    specialize (L1 r Hr). rewrite local_amount_eq in L1 by auto. lia.
  - intros r Hr. pose proof (bound_mono NZ C b1 r (r + 1) S2 ltac:(lia) ltac:(lia)).
    specialize (L2 r Hr). rewrite local_amount_eq in L2 by auto. lia.
  - intros r z Hr Hz. destruct (HG r z Hr Hz) as (W & E1 & E2). rewrite local_amount_eq in E1, E2 by auto. auto.
Qed.

(** the whole frame is written: every cell of the rectangle holds the value of the domain that owns it,
    everything else in the dataset is unchanged *)
Theorem C16_frame_written : forall T (zero : T) NR NZ R C b0 b1 G p0 p1 p2 p3 num ds,
  divided NR NZ R C b0 b1 G -> probe_inside NR NZ b0 b1 p0 p1 p2 p3 ->
  probe_dataset p0 p1 p2 p3 num ds -> off_border NR R b0 p0 p2 ->
  exists ds',
    write_probe zero R C (bound NR R b0) (bound NZ C b1) G p0 p1 p2 p3 num ds = Ok ds' /\
    frames ds' = frames ds /\ n0 ds' = n0 ds /\ n1 ds' = n1 ds /\
    (forall i j r z, p0 <= i < p2 -> p1 <= j < p3 -> owns NR NZ R C b0 b1 r z i j ->
       dat ds' num (i - p0) (j - p1) =
       cell (G r z) (i - bound NR R b0 r + os (G r z)) (j - bound NZ C b1 z + os (G r z))) /\
    (forall f a b, ~ (f = num /\ 0 <= a < p2 - p0 /\ 0 <= b < p3 - p1) -> dat ds' f a b = dat ds f a b).
Proof.
  intros T zero NR NZ R C b0 b1 G p0 p1 p2 p3 num ds Hd (I1 & I2 & I3 & I4) Hds Hoff.
  destruct (divided_hyps _ _ _ _ _ _ _ Hd) as (A1 & A2 & A3 & A4 & A5 & A6 & A7).
  destruct Hd as (S1 & S2 & _). pose proof S1 as (? & ? & ? & ? & ?). pose proof S2 as (? & ? & ? & ? & ?).
  destruct (write_probe_spec zero R C (bound NR R b0) (bound NZ C b1) G A1 A2 A3 A4 A5 A6 A7 p0 p1 p2 p3 num) with (ds := ds)
    as (ds' & E & F1 & F2 & F3 & F4 & F5); auto; try (rewrite ?bound_0, ?bound_n by auto; lia).
  exists ds'. split; [exact E|]. split; [exact F1|]. split; [exact F2|]. split; [exact F3|]. split; [|exact F4].
  intros i j r z Hi Hj (O1 & O2 & O3 & O4). rewrite (F5 (i - p0) (j - p1) r z); try lia.
  - unfold owned_value. f_equal; lia.
  - unfold owner. repeat split; lia.
Qed.

(** every cell of the rectangle has exactly one owner *)
Theorem C16_one_owner : forall NR NZ R C b0 b1 p0 p1 p2 p3 i j,
  sane NR R b0 -> sane NZ C b1 -> probe_inside NR NZ b0 b1 p0 p1 p2 p3 -> p0 <= i < p2 -> p1 <= j < p3 ->
  exists r z, owns NR NZ R C b0 b1 r z i j /\ forall r' z', owns NR NZ R C b0 b1 r' z' i j -> r' = r /\ z' = z.
Proof.
  intros NR NZ R C b0 b1 p0 p1 p2 p3 i j S1 S2 (I1 & I2 & I3 & I4) Hi Hj.
  destruct (bound_owner NR R b0 i S1 ltac:(lia)) as (r & Hr & Br).
  destruct (bound_owner NZ C b1 j S2 ltac:(lia)) as (z & Hz & Bz).
  exists r, z. split; [now repeat split|]. intros r' z' (O1 & O2 & O3 & O4). split.
  - apply (bound_owner_unique NR R b0 i r' r S1); auto.
  - apply (bound_owner_unique NZ C b1 j z' z S2); auto.
Qed.

(** the tiles of two different domains do not overlap, and lie inside the frame *)
Definition in_tile (t : tile) (a b : Z) : Prop :=
  o0 t <= a < o0 t + (t2 t - t0 t) /\ o1 t <= b < o1 t + (t3 t - t1 t).
Theorem C16_tiles_disjoint : forall T NR NZ R C b0 b1 (G : Z -> Z -> grid T) p0 p1 p2 p3,
  divided NR NZ R C b0 b1 G -> probe_inside NR NZ b0 b1 p0 p1 p2 p3 ->
  forall r z r' z' t t' a b, 0 <= r < R -> 0 <= z < C -> 0 <= r' < R -> 0 <= z' < C ->
    tile_of p0 p1 p2 p3 (bound NR R b0 r) (bound NZ C b1 z) (bound NR R b0 (r + 1)) (bound NZ C b1 (z + 1)) = Some t ->
    tile_of p0 p1 p2 p3 (bound NR R b0 r') (bound NZ C b1 z') (bound NR R b0 (r' + 1)) (bound NZ C b1 (z' + 1)) = Some t' ->
    in_tile t a b -> in_tile t' a b -> (r, z) = (r', z') /\ 0 <= a < p2 - p0 /\ 0 <= b < p3 - p1.
Proof.
  intros T NR NZ R C b0 b1 G p0 p1 p2 p3 Hd (I1 & I2 & I3 & I4) r z r' z' t t' a b Hr Hz Hr' Hz'.
  destruct (divided_hyps _ _ _ _ _ _ _ Hd) as (A1 & A2 & A3 & A4 & A5 & A6 & _).
  destruct Hd as (S1 & S2 & _). pose proof S1 as (? & ? & ? & ? & ?). pose proof S2 as (? & ? & ? & ? & ?).
  pose proof (bound_range NR R b0 r S1 ltac:(lia)). pose proof (bound_range NR R b0 (r + 1) S1 ltac:(lia)).
  pose proof (bound_range NR R b0 r' S1 ltac:(lia)). pose proof (bound_range NR R b0 (r' + 1) S1 ltac:(lia)).
  pose proof (bound_range NZ C b1 z S2 ltac:(lia)). pose proof (bound_range NZ C b1 (z + 1) S2 ltac:(lia)).
  pose proof (bound_range NZ C b1 z' S2 ltac:(lia)). pose proof (bound_range NZ C b1 (z' + 1) S2 ltac:(lia)).
  pose proof (A3 r Hr). pose proof (A3 r' Hr'). pose proof (A4 z Hz). pose proof (A4 z' Hz').
  rewrite !tile_of_spec by lia.
  destruct ((p0 <=? bound NR R b0 (r + 1)) && (p1 <=? bound NZ C b1 (z + 1)) && (bound NR R b0 r <=? p2) && (bound NZ C b1 z <=? p3)) eqn:E1; [|discriminate].
  destruct ((p0 <=? bound NR R b0 (r' + 1)) && (p1 <=? bound NZ C b1 (z' + 1)) && (bound NR R b0 r' <=? p2) && (bound NZ C b1 z' <=? p3)) eqn:E2; [|discriminate].
  intros [= <-] [= <-]. unfold in_tile. cbn [t0 t1 t2 t3 o0 o1]. intros Q Q'. split; [|lia]. f_equal.
  - apply (bound_owner_unique NR R b0 (p0 + a) r r' S1); auto; lia.
  - apply (bound_owner_unique NZ C b1 (p1 + b) z z' S2); auto; lia.
Qed.

(** ** Example: 6 x 6 cells, 2 x 3 domains, a probe [1,5) x [1,5); each cell holds 100 i + j *)
Definition ex_G (r z : Z) : grid Z :=
  mkGrid 7 6 3 2 2 (fun a b => 100 * (3 * r + (a - 2)) + (2 * z + (b - 2))).
Definition ex_ds : dataset Z := mkDs 2 4 4 (fun _ _ _ => 7).
Example ex_C16_hyps : divided 6 6 2 3 0 0 ex_G /\ probe_inside 6 6 0 0 1 1 5 5 /\ probe_dataset 1 1 5 5 1 ex_ds /\
  off_border 6 2 0 1 5.
Proof.
  split; [|split; [|split]].
  - assert (Lr : forall r, 0 <= r < 2 -> local_amount 6 2 0 r = 3) by (intros r Hr; assert (D : r = 0 \/ r = 1) by lia; destruct D as [-> | ->]; reflexivity).
    assert (Lz : forall r, 0 <= r < 3 -> local_amount 6 3 0 r = 2) by (intros r Hr; assert (D : r = 0 \/ r = 1 \/ r = 2) by lia; destruct D as [-> |[-> | ->]]; reflexivity).
    unfold divided. split; [unfold sane; lia|]. split; [unfold sane; lia|].
    split; [intros r Hr; rewrite Lr; lia|]. split; [intros r Hr; rewrite Lz; lia|].
    intros r z Hr Hz. split; [unfold wf; cbn [ex_G xr yr xs ys os]; lia|]. rewrite Lr, Lz by lia. split; reflexivity.
  - unfold probe_inside. lia.
  - unfold probe_dataset. cbn. lia.
  - split; [lia|]. split; intros r Hr.
    + assert (r = 1) as -> by lia. cbv. lia.
    + assert (D : r = 0 \/ r = 1) by lia. destruct D as [-> | ->]; reflexivity.
Qed.
Example ex_C16_run :
  match write_probe 0 2 3 (bound 6 2 0) (bound 6 3 0) ex_G 1 1 5 5 1 ex_ds with
  | Ok ds => dat ds 1 0 0 = 101 /\ dat ds 1 3 3 = 404 /\ dat ds 1 1 2 = 203 /\ dat ds 0 1 2 = 7
  | _ => False end.
Proof. vm_compute. repeat split; reflexivity. Qed.

(** whatever a writer changes lies in the frame it writes, and in the rectangle its dataset has *)
Theorem C16_inside_file : forall T (zero : T) (g : grid T) num t ds ds', run_writer zero g num t ds = Ok ds' ->
  frames ds' = frames ds /\ n0 ds' = n0 ds /\ n1 ds' = n1 ds /\
  forall f a b, dat ds' f a b <> dat ds f a b -> f = num /\ f < frames ds /\ a < n0 ds /\ b < n1 ds.
Proof.
  intros T zero g num [t|] ds ds' E; cbn [run_writer] in E.
  2:{ injection E as <-. repeat split; contradiction. }
  destruct (grab zero g t) as [[[n m] val]| |]; cbn [bind] in E; try discriminate. unfold write_rec in E.
  destruct (n =? 0); [discriminate|]. destruct (_ && _ && _) eqn:B; [|discriminate]. injection E as <-. cbn [frames n0 n1 dat]. do 3 (split; [reflexivity|]).
  intros f a b. destruct (_ && _ && _ && _ && _) eqn:D; [|contradiction]. intros _. lia.
Qed.

(** * C17 *)
(** A probe is written without error when no border between domains lies on its first or last row ... *)
Theorem C17_written_partial : forall T (zero : T) NR NZ R C b0 b1 G p0 p1 p2 p3 num ds,
  divided NR NZ R C b0 b1 G -> probe_inside NR NZ b0 b1 p0 p1 p2 p3 ->
  probe_dataset p0 p1 p2 p3 num ds -> off_border NR R b0 p0 p2 ->
  exists ds', write_probe zero R C (bound NR R b0) (bound NZ C b1) G p0 p1 p2 p3 num ds = Ok ds'.
Proof. intros. edestruct C16_frame_written as (ds' & E & _); eauto. Qed.

(** ... and otherwise (all domains being non-empty) it always ends in undefined behaviour. *)
Theorem C17_border_ub : forall T (zero : T) NR NZ R C b0 b1 G p0 p1 p2 p3 num ds,
  divided NR NZ R C b0 b1 G -> probe_inside NR NZ b0 b1 p0 p1 p2 p3 ->
  probe_dataset p0 p1 p2 p3 num ds ->
  (p0 = p2 \/ exists r, 0 < r < R /\ (p0 = bound NR R b0 r \/ p2 = bound NR R b0 r)) ->
  write_probe zero R C (bound NR R b0) (bound NZ C b1) G p0 p1 p2 p3 num ds = UB.
Proof.
  intros T zero NR NZ R C b0 b1 G p0 p1 p2 p3 num ds Hd (I1 & I2 & I3 & I4) Hds Hco.
  destruct (divided_hyps _ _ _ _ _ _ _ Hd) as (A1 & A2 & A3 & A4 & A5 & A6 & A7).
  destruct Hd as (S1 & S2 & _). pose proof S1 as (? & ? & ? & ? & ?). pose proof S2 as (? & ? & ? & ? & ?).
  assert (Z0 : exists z, 0 <= z < C /\ p1 <= bound NZ C b1 (z + 1) /\ bound NZ C b1 z <= p3).
  { destruct (Z_lt_ge_dec p1 (b1 + NZ)) as [L|L].
    - destruct (bound_owner NZ C b1 p1 S2 ltac:(lia)) as (z & Hz & Bz). exists z. lia.
    - exists (C - 1). replace (C - 1 + 1) with C by lia. rewrite bound_n by auto.
      pose proof (bound_range NZ C b1 (C - 1) S2 ltac:(lia)). lia. }
  destruct Z0 as (z & Hz & B1 & B2).
  assert (R0 : exists r, 0 <= r < R /\ p0 <= bound NR R b0 (r + 1) /\ bound NR R b0 r <= p2 /\
              empty_rows (bound NR R b0) p0 p2 r).
  { unfold empty_rows. destruct Hco as [E|(r & Hr & [E|E])].
    - destruct (Z_lt_ge_dec p0 (b0 + NR)) as [L|L].
      + destruct (bound_owner NR R b0 p0 S1 ltac:(lia)) as (r & Hr & Br). exists r. lia.
      + exists (R - 1). replace (R - 1 + 1) with R by lia. rewrite bound_n by auto.
        pose proof (bound_range NR R b0 (R - 1) S1 ltac:(lia)). lia.
    - exists (r - 1). replace (r - 1 + 1) with r by lia.
      pose proof (bound_mono NR R b0 (r - 1) r S1 ltac:(lia) ltac:(lia)). lia.
    - exists r. pose proof (bound_mono NR R b0 r (r + 1) S1 ltac:(lia) ltac:(lia)). lia. }
  destruct R0 as (r & Hr & B3 & B4 & Hem).
  apply (write_probe_ub zero R C (bound NR R b0) (bound NZ C b1) G A1 A2 A3 A4 A5 A6 A7 p0 p1 p2 p3 num) with (r := r) (z := z); auto;
    try lia; rewrite ?bound_0, ?bound_n by auto; lia.
Qed.

(** a probe accepted by the configuration: the lower half of the area, two domains in r *)
Theorem C17_every_probe_refuted : exists NR NZ R C (G : Z -> Z -> grid Z) p0 p1 p2 p3 num ds,
  divided NR NZ R C 0 0 G /\ probe_inside NR NZ 0 0 p0 p1 p2 p3 /\ p0 < p2 /\ p1 < p3 /\
  probe_dataset p0 p1 p2 p3 num ds /\
  write_probe 0 R C (bound NR R 0) (bound NZ C 0) G p0 p1 p2 p3 num ds = UB.
Proof.
  exists 6, 6, 2, 3, ex_G, 0, 1, 3, 5, 0, (mkDs 1 3 4 (fun _ _ _ => 0)).
  split; [apply ex_C16_hyps|]. split; [unfold probe_inside; lia|]. split; [lia|]. split; [lia|].
  split; [unfold probe_dataset; cbn; lia|]. vm_compute. reflexivity.
Qed.

(** * C18 *)
(** number of multiples of [s] among 0 .. k-1 *)
Definition multiples (s : Z) (k : nat) : Z := match k with O => 0 | S k' => Z.of_nat k' / s + 1 end.

(** in the first [k] steps, frames 0, 1, 2, ... are written, in this order and each once, frame [f] at step
    [f * s]; no step fails; the dataset ends up with exactly the frames written (but at least one) *)
Theorem C18_frames : forall s k, 1 <= s <= 65535 ->
  exists fr ws, output_run s k = Ok (fr, ws) /\
    fr = Z.max 1 (multiples s k) /\
    length ws = Z.to_nat (multiples s k) /\
    forall f, (f < length ws)%nat -> nth_error ws f = Some (Z.of_nat f * s, Z.of_nat f).
Proof.
  intros s k Hs. rewrite output_run_spec by lia.
  assert (E : frames_by s (Z.of_nat k) = multiples s k).
  { unfold frames_by, multiples. destruct k; [reflexivity|]. replace (Z.of_nat (S k) <=? 0) with false by lia. do 2 f_equal. lia. }
  rewrite E. eexists _, _. split; [reflexivity|]. split; [reflexivity|].
  assert (L : forall n, length (zseq0 n) = n).
  { induction n as [|n IH]; [reflexivity|]. cbn [zseq0]. rewrite app_length, IH. cbn. lia. }
  rewrite map_length, L. split; [reflexivity|].
  assert (Nth : forall n f, (f < n)%nat -> nth_error (zseq0 n) f = Some (Z.of_nat f)).
  { induction n as [|n IH]; [lia|]. intros f Hf. cbn [zseq0]. destruct (Nat.eq_dec f n) as [-> | Hne].
    - rewrite nth_error_app2 by (rewrite L; lia). now rewrite L, Nat.sub_diag.
    - rewrite nth_error_app1 by (rewrite L; lia). apply IH. lia. }
  intros f Hf. erewrite map_nth_error by (now apply Nth). reflexivity.
Qed.

(** [multiples] counts what it should: f is below it iff step f * s is among the first k *)
Theorem C18_scheduled_steps : forall s k f, 1 <= s -> 0 <= f -> (f < multiples s k <-> f * s < Z.of_nat k).
Proof.
  intros s k f Hs Hf. destruct k as [|k]; cbn [multiples]; [nia|].
  pose proof (Z.div_mod (Z.of_nat k) s ltac:(lia)). pose proof (Z.mod_pos_bound (Z.of_nat k) s ltac:(lia)).
  split; intros H1; [|assert (f <= Z.of_nat k / s); [apply Z.div_le_lower_bound; lia|lia]]. nia.
Qed.
Example ex_C18 : output_run 3 8 = Ok (3, [(0, 0); (3, 1); (6, 2)]) /\ multiples 3 8 = 3.
Proof. split; reflexivity. Qed.

(** * C20 *)
Theorem C20_schedules_agree_iff : forall s, 0 <= s < 2 ^ 32 -> (u16 s = s <-> s < 65536).
Proof.
  intros s Hs. split; [|intros; apply u16_small; lia]. intros <-. unfold u16. apply Z.mod_pos_bound. lia.
Qed.
(** hence every schedule the probe can hold and the writer cannot is an error in the first period *)
Theorem C20_long_schedule_refuted : forall s, 65536 <= s < 2 ^ 32 ->
  exists n, 0 <= n < s /\ (output_step s n create_frames = UB \/ output_step s n create_frames = Fatal).
Proof.
  intros s Hs. pose proof (Z.mod_pos_bound s (2 ^ 16) ltac:(lia)) as Hm. fold (u16 s) in Hm.
  exists (u16 s). split; [lia|]. unfold output_step, create_frames. replace (s =? 0) with false by lia.
  destruct (u16 s =? 0) eqn:E; [now left|]. right.
  rewrite (Z.mod_small (u16 s) s) by lia. rewrite E. rewrite Z.mod_same by lia. rewrite Z.eqb_refl.
  now rewrite Z.div_same by lia.
Qed.
(** writer and dataset agree on every step for the other schedules *)
Theorem C20_short_schedule_partial : forall s n fr, 1 <= s < 65536 -> 0 <= n -> n / s <= fr ->
  exists fr', output_step s n fr = Ok (fr', if n mod s =? 0 then Some (n / s) else None) /\
    (n mod s = 0 -> n / s < fr') /\ fr <= fr'.
Proof.
  intros s n fr Hs Hn Hf. rewrite output_step_spec by lia. eexists. split; [reflexivity|].
  destruct (n mod s =? 0) eqn:E; cbn [andb]; [destruct (fr =? n / s) eqn:E1|]; lia.
Qed.
Example ex_C20 : output_step 65536 0 1 = UB /\ output_step 100000 34464 1 = Fatal /\
  output_step 65535 131070 2 = Ok (3, Some 2).
Proof. vm_compute. auto. Qed.

(** * C21 *)
(** the position kept by the writer, put back into the coordinates of the simulation area, is the part of the
    probe inside the domain, and its place in the dataset is right, if the domain is at most 32767 cells wide *)
Theorem C21_position_partial : forall p0 p1 p2 p3 d0 d1 d2 d3 t,
  0 <= p0 <= p2 -> 0 <= p1 <= p3 -> 0 <= d0 <= d2 -> 0 <= d1 <= d3 -> d2 < 2 ^ 64 -> d3 < 2 ^ 64 ->
  d2 - d0 < 2 ^ 15 -> d3 - d1 < 2 ^ 15 ->
  tile_of p0 p1 p2 p3 d0 d1 d2 d3 = Some t ->
  d0 + t0 t = Z.max p0 d0 /\ d0 + t2 t = Z.min p2 d2 /\ d1 + t1 t = Z.max p1 d1 /\ d1 + t3 t = Z.min p3 d3 /\
  p0 + o0 t = Z.max p0 d0 /\ p1 + o1 t = Z.max p1 d1.
Proof.
  intros p0 p1 p2 p3 d0 d1 d2 d3 t. intros. rewrite tile_of_spec in * by lia.
  destruct ((p0 <=? d2) && (p1 <=? d3) && (d0 <=? p2) && (d1 <=? p3)) eqn:E; [|discriminate].
  match goal with H : Some _ = Some t |- _ => injection H as <- end. cbn [t0 t1 t2 t3 o0 o1]. lia.
Qed.
Example ex_C21 : tile_of 40000 100 41000 200 39000 0 42000 150 = Some (mkTile 1000 100 2000 150 0 0).
Proof. reflexivity. Qed.
(** a single domain with more than 32767 rows: the end of the probe becomes negative, and the writer stops
    the program *)
Theorem C21_position_refuted : forall T (zero : T) (g : grid T) N p1 p3, 32768 <= N < 65536 -> 0 <= p1 <= p3 -> p3 < 2 ^ 15 ->
  exists t, tile_of 0 p1 N p3 0 0 N p3 = Some t /\ t2 t < 0 /\ grab zero g t = Fatal.
Proof.
  intros T zero g N p1 p3 HN Hp Hp3. unfold tile_of.
  replace ((0 <=? N) && (p1 <=? p3) && (0 <=? N) && (0 <=? p3)) with true by lia.
  eexists. split; [reflexivity|]. cbn [t2].
  replace (N <? N) with false by lia. replace (0 <? 0) with false by lia.
  assert (E : s16 (u64 (s16 N - 0)) = N - 2 ^ 16).
  { destruct (s16_eq N) as [k1 E1]. destruct (u64_eq (s16 N - 0)) as [k2 ->]. rewrite E1.
    replace (N + k1 * 2 ^ 16 - 0 + k2 * 2 ^ 64) with (N - 2 ^ 16 + (k1 + 1 + k2 * 2 ^ 48) * 2 ^ 16) by lia.
    rewrite s16_shift. apply s16_small. lia. }
  split; [rewrite E; lia|]. unfold grab. cbn [t0 t2]. rewrite E.
  replace (s16 (u64 (s16 0 - 0))) with 0 by reflexivity.
  now replace (N - 2 ^ 16 - 0 <? 0) with true by lia.
Qed.

Print Assumptions C16_frame_written.
Print Assumptions C16_one_owner.
Print Assumptions C16_tiles_disjoint.
Print Assumptions C17_written_partial.
Print Assumptions C17_border_ub.
Print Assumptions C17_every_probe_refuted.
Print Assumptions C18_frames.
Print Assumptions C18_scheduled_steps.
Print Assumptions C20_schedules_agree_iff.
Print Assumptions C20_long_schedule_refuted.
Print Assumptions C20_short_schedule_partial.
Print Assumptions C21_position_partial.
Print Assumptions C21_position_refuted.
Print Assumptions C16_inside_file.
