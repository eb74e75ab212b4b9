(** Lemmas about the data output. *)
From Verif Require Import Base GridModel GridProofs OutModel.
From Coq Require Import ZifyBool.

(** conversions to [short] only look at the value modulo 2^16 *)
Lemma s16_shift a k : s16 (a + k * 2 ^ 16) = s16 a.
Proof. unfold s16. replace (a + k * 2 ^ 16 + 2 ^ 15) with (a + 2 ^ 15 + k * 2 ^ 16) by lia. now rewrite Z_mod_plus_full. Qed.
Lemma s16_eq a : exists k, s16 a = a + k * 2 ^ 16.
Proof.
  unfold s16. exists (- ((a + 2 ^ 15) / 2 ^ 16)). pose proof (Z.div_mod (a + 2 ^ 15) (2 ^ 16) ltac:(lia)). lia.
Qed.
Lemma u64_eq a : exists k, u64 a = a + k * 2 ^ 64.
Proof. unfold u64. exists (- (a / 2 ^ 64)). pose proof (Z.div_mod a (2 ^ 64) ltac:(lia)). lia. Qed.
Lemma short_minus x d : 0 <= x - d < 2 ^ 15 -> s16 (u64 (s16 x - d)) = x - d.
Proof.
  intros H. destruct (s16_eq x) as [k1 ->]. destruct (u64_eq (x + k1 * 2 ^ 16 - d)) as [k2 ->].
  replace (x + k1 * 2 ^ 16 - d + k2 * 2 ^ 64) with (x - d + (k1 + k2 * 2 ^ 48) * 2 ^ 16) by lia.
  rewrite s16_shift. apply s16_small. lia.
Qed.

Lemma tile_of_spec p0 p1 p2 p3 d0 d1 d2 d3 :
  0 <= p0 -> 0 <= p1 -> 0 <= d0 <= d2 -> 0 <= d1 <= d3 -> p0 <= p2 -> p1 <= p3 ->
  d2 - d0 < 2 ^ 15 -> d3 - d1 < 2 ^ 15 -> d2 < 2 ^ 64 -> d3 < 2 ^ 64 ->
  tile_of p0 p1 p2 p3 d0 d1 d2 d3 =
    if (p0 <=? d2) && (p1 <=? d3) && (d0 <=? p2) && (d1 <=? p3) then
      Some (mkTile (Z.max p0 d0 - d0) (Z.max p1 d1 - d1) (Z.min p2 d2 - d0) (Z.min p3 d3 - d1)
                   (Z.max p0 d0 - p0) (Z.max p1 d1 - p1))
    else None.
Proof.
  intros. unfold tile_of. destruct ((p0 <=? d2) && (p1 <=? d3) && (d0 <=? p2) && (d1 <=? p3)) eqn:E; auto.
  replace (if p0 <? d0 then d0 else p0) with (Z.max p0 d0) by (destruct (p0 <? d0) eqn:?; lia).
  replace (if p1 <? d1 then d1 else p1) with (Z.max p1 d1) by (destruct (p1 <? d1) eqn:?; lia).
  replace (if d2 <? p2 then d2 else p2) with (Z.min p2 d2) by (destruct (d2 <? p2) eqn:?; lia).
  replace (if d3 <? p3 then d3 else p3) with (Z.min p3 d3) by (destruct (d3 <? p3) eqn:?; lia).
  rewrite !short_minus by lia. rewrite !u64_small by lia. do 2 f_equal; lia.
Qed.

Section Write.
Context {T : Type}.
Variable zero : T.

Lemma grab_spec (g : grid T) t : wf g -> 0 <= t0 t <= t2 t -> 0 <= t1 t <= t3 t -> t2 t <= xs g -> t3 t <= ys g ->
  exists val, grab zero g t = Ok (t2 t - t0 t, t3 t - t1 t, val) /\
    forall a b, 0 <= a < t2 t - t0 t -> 0 <= b < t3 t - t1 t -> val a b = cell g (t0 t + a + os g) (t1 t + b + os g).
Proof.
  intros (W1 & W2 & W3 & W4 & W5 & W6 & W7) H0 H1 H2 H3. unfold grab.
  replace ((t2 t - t0 t <? 0) || (t3 t - t1 t <? 0)) with false by lia.
  destruct (for_inv (fun i val => forall a b, 0 <= a < i - t0 t -> 0 <= b < t3 t - t1 t ->
      val a b = cell g (t0 t + a + os g) (t1 t + b + os g))
    (t0 t) (t2 t) (fun i => for_to (t1 t) (t3 t) (fun j val => do v <- get g i j; Ok (upd val (i - t0 t) (j - t1 t) v)))
    (fun _ _ => zero)) as (val & E & Hv).
  - lia.
  - intros; lia.
  - intros i val Hi Hval.
    destruct (for_inv (fun j val => forall a b, 0 <= a < i + 1 - t0 t -> 0 <= b < t3 t - t1 t ->
      (a < i - t0 t \/ b < j - t1 t) -> val a b = cell g (t0 t + a + os g) (t1 t + b + os g))
      (t1 t) (t3 t) (fun j val => do v <- get g i j; Ok (upd val (i - t0 t) (j - t1 t) v)) val) as (val' & E & Hv').
    + lia.
    + intros a b Ha Hb [Hlt|Hlt]; [apply Hval; lia|lia].
    + intros j v Hj Hv. unfold get. rewrite !u32_small by lia. rewrite rd_in by lia. cbn [bind].
      eexists. split; [reflexivity|]. intros a b Ha Hb Hlt. unfold upd.
      destruct ((a =? i - t0 t) && (b =? j - t1 t)) eqn:Eab.
      * f_equal; lia.
      * apply Hv; lia.
    + exists val'. split; [exact E|]. intros a b Ha Hb. apply Hv'; lia.
  - rewrite E. cbn [bind]. exists val. split; [reflexivity|]. intros a b Ha Hb. apply Hv; lia.
Qed.

(** the set-up *)
Variables R C : Z.
Variables br bz : Z -> Z.
Variable G : Z -> Z -> grid T.
Hypothesis Hbr0 : 0 <= br 0.
Hypothesis Hbz0 : 0 <= bz 0.
Hypothesis Hbr : forall r, 0 <= r < R -> br r <= br (r + 1) < br r + 2 ^ 15.
Hypothesis Hbz : forall z, 0 <= z < C -> bz z <= bz (z + 1) < bz z + 2 ^ 15.
Hypothesis HbrR : br R < 2 ^ 64.
Hypothesis HbzC : bz C < 2 ^ 64.
Hypothesis HG : forall r z, 0 <= r < R -> 0 <= z < C ->
  wf (G r z) /\ xs (G r z) = br (r + 1) - br r /\ ys (G r z) = bz (z + 1) - bz z.

Lemma mono (b : Z -> Z) n : (forall r, 0 <= r < n -> b r <= b (r + 1)) ->
  forall r s, 0 <= r <= s -> s <= n -> b r <= b s.
Proof.
  intros H r s Hr Hs. remember (Z.to_nat (s - r)) as k eqn:Ek. revert s Hr Hs Ek.
  induction k as [|k IH]; intros s Hr Hs Ek.
  - replace s with r by lia. lia.
  - specialize (IH (s - 1) ltac:(lia) ltac:(lia) ltac:(lia)). specialize (H (s - 1) ltac:(lia)).
    replace (s - 1 + 1) with s in H by lia. lia.
Qed.
Lemma mono_br r s : 0 <= r <= s -> s <= R -> br r <= br s.
Proof. apply mono. intros; specialize (Hbr r0); lia. Qed.
Lemma mono_bz r s : 0 <= r <= s -> s <= C -> bz r <= bz s.
Proof. apply mono. intros; specialize (Hbz r0); lia. Qed.

Variables p0 p1 p2 p3 num : Z.
Hypothesis Hp0 : br 0 <= p0 <= p2.
Hypothesis Hp2 : p2 <= br R.
Hypothesis Hp1 : bz 0 <= p1 <= p3.
Hypothesis Hp3 : p3 <= bz C.

(** the value of the cell (a, b) of the rectangle, from the domain (r, z) that owns it *)
Definition owner (r z a b : Z) : Prop :=
  0 <= r < R /\ 0 <= z < C /\ br r <= p0 + a < br (r + 1) /\ bz z <= p1 + b < bz (z + 1).
Definition owned_value (r z a b : Z) : T :=
  cell (G r z) (p0 + a - br r + os (G r z)) (p1 + b - bz z + os (G r z)).

Lemma owner_unique r z r' z' a b : owner r z a b -> owner r' z' a b -> r = r' /\ z = z'.
Proof.
  intros (A1 & A2 & A3 & A4) (B1 & B2 & B3 & B4). split.
  - destruct (Z_lt_ge_dec r r'); [pose proof (mono_br (r + 1) r' ltac:(lia) ltac:(lia)); lia|].
    destruct (Z_lt_ge_dec r' r); [pose proof (mono_br (r' + 1) r ltac:(lia) ltac:(lia)); lia|lia].
  - destruct (Z_lt_ge_dec z z'); [pose proof (mono_bz (z + 1) z' ltac:(lia) ltac:(lia)); lia|].
    destruct (Z_lt_ge_dec z' z); [pose proof (mono_bz (z' + 1) z ltac:(lia) ltac:(lia)); lia|lia].
Qed.
Lemma find_cell (b : Z -> Z) n x : 0 <= n -> (forall r, 0 <= r < n -> b r <= b (r + 1)) -> b 0 <= x < b n ->
  exists r, 0 <= r < n /\ b r <= x < b (r + 1).
Proof.
  intros Hn Hm. pattern n. apply natlike_ind; [lia| |exact Hn].
  intros k Hk IH Hx. destruct (Z_lt_ge_dec x (b k)) as [Hlt|Hge].
  - destruct IH as (r & Hr & Hb); [lia|]. exists r. split; [lia|exact Hb].
  - exists k. split; [lia|]. unfold Z.succ in Hx. lia.
Qed.
Lemma owner_exists a b : 0 <= R -> 0 <= C -> 0 <= a < p2 - p0 -> 0 <= b < p3 - p1 -> exists r z, owner r z a b.
Proof.
  intros HR HC Ha Hb. destruct (find_cell br R (p0 + a)) as (r & Hr & E1); [lia| |lia|].
  { intros; specialize (Hbr r); lia. }
  destruct (find_cell bz C (p1 + b)) as (z & Hz & E2); [lia| |lia|].
  { intros; specialize (Hbz r0); lia. }
  exists r, z. now split; [|split].
Qed.

(** the frame of the dataset while the writers run *)
Definition frame_ok (ds : dataset T) : Prop := 0 <= num < frames ds /\ n0 ds = p2 - p0 /\ n1 ds = p3 - p1.

Definition tile_rc (r z : Z) : option tile := tile_of p0 p1 p2 p3 (br r) (bz z) (br (r + 1)) (bz (z + 1)).

Lemma bounds_rz r z : 0 <= r < R -> 0 <= z < C ->
  0 <= br r <= br (r + 1) /\ 0 <= bz z <= bz (z + 1) /\ br (r + 1) - br r < 2 ^ 15 /\ bz (z + 1) - bz z < 2 ^ 15 /\
  br (r + 1) < 2 ^ 64 /\ bz (z + 1) < 2 ^ 64.
Proof.
  intros Hr Hz. pose proof (Hbr r Hr). pose proof (Hbz z Hz).
  pose proof (mono_br 0 r ltac:(lia) ltac:(lia)). pose proof (mono_bz 0 z ltac:(lia) ltac:(lia)).
  pose proof (mono_br (r + 1) R ltac:(lia) ltac:(lia)). pose proof (mono_bz (z + 1) C ltac:(lia) ltac:(lia)). lia.
Qed.

(** a writer with an empty set of rows *)
Definition empty_rows (r : Z) : Prop := p0 = br (r + 1) \/ p2 = br r \/ p0 = p2.

Lemma run_writer_spec r z ds : 0 <= r < R -> 0 <= z < C -> frame_ok ds ->
  (tile_rc r z <> None -> empty_rows r \/ br r = br (r + 1) -> run_writer zero (G r z) num (tile_rc r z) ds = UB) /\
  (tile_rc r z = None \/ (~ empty_rows r /\ br r < br (r + 1)) ->
   exists ds', run_writer zero (G r z) num (tile_rc r z) ds = Ok ds' /\
     frames ds' = frames ds /\ n0 ds' = n0 ds /\ n1 ds' = n1 ds /\
     (forall f a b, ~ (f = num /\ 0 <= a < p2 - p0 /\ 0 <= b < p3 - p1 /\ owner r z a b) -> dat ds' f a b = dat ds f a b) /\
     (forall a b, 0 <= a < p2 - p0 -> 0 <= b < p3 - p1 -> owner r z a b -> dat ds' num a b = owned_value r z a b)).
Proof.
  intros Hr Hz (F1 & F2 & F3). destruct (bounds_rz r z Hr Hz) as (B1 & B2 & B3 & B4 & B5 & B6).
  unfold tile_rc. rewrite tile_of_spec by lia.
  destruct ((p0 <=? br (r + 1)) && (p1 <=? bz (z + 1)) && (br r <=? p2) && (bz z <=? p3)) eqn:E.
  2:{ split; [congruence|]. intros _. exists ds. cbn [run_writer]. repeat split; auto.
      intros a b Ha Hb (O1 & O2 & O3 & O4). lia. }
  destruct (HG r z Hr Hz) as (Wf & Ex & Ey).
  destruct (grab_spec (G r z) (mkTile (Z.max p0 (br r) - br r) (Z.max p1 (bz z) - bz z) (Z.min p2 (br (r + 1)) - br r)
              (Z.min p3 (bz (z + 1)) - bz z) (Z.max p0 (br r) - p0) (Z.max p1 (bz z) - p1))) as (val & Eg & Hval);
    cbn [t0 t1 t2 t3]; auto; [lia..|]. cbn [t0 t1 t2 t3] in Eg, Hval.
  split.
  - intros _ Hemp. cbn [run_writer]. rewrite Eg. cbn [bind]. unfold write_rec.
    unfold empty_rows in Hemp.
    now replace (Z.min p2 (br (r + 1)) - br r - (Z.max p0 (br r) - br r) =? 0) with true by lia.
  - intros [Hn|[Hn Hne]]; [discriminate|]. unfold empty_rows in Hn.
    cbn [run_writer]. rewrite Eg. cbn [bind]. unfold write_rec. cbn [o0 o1].
    replace (Z.min p2 (br (r + 1)) - br r - (Z.max p0 (br r) - br r) =? 0) with false by lia.
    match goal with |- context [if ?c then _ else Fatal] => replace c with true by lia end.
    eexists. split; [reflexivity|]. cbn [frames n0 n1 dat]. repeat split; auto.
    + intros f a b Hno.
      match goal with |- (if ?c then _ else _) = _ => destruct c eqn:Ec end; [|reflexivity].
      exfalso. apply Hno. unfold owner. repeat split; lia.
    + intros a b Ha Hb (O1 & O2 & O3 & O4).
      match goal with |- (if ?c then _ else _) = _ => replace c with true by lia end.
      rewrite Hval by lia. unfold owned_value. f_equal; lia.
Qed.

Definition before2 (r z r' z' : Z) : bool := (r' <? r) || ((r' =? r) && (z' <? z)).

(** no radial border of a domain coincides with an edge of the probe *)
Definition no_coincidence : Prop :=
  p0 < p2 /\ (forall r, 0 < r < R -> p0 <> br r /\ p2 <> br r) /\ (forall r, 0 <= r < R -> br r < br (r + 1)).

Lemma write_probe_spec ds : 0 <= R -> 0 <= C -> frame_ok ds -> no_coincidence ->
  exists ds', write_probe zero R C br bz G p0 p1 p2 p3 num ds = Ok ds' /\
    frames ds' = frames ds /\ n0 ds' = n0 ds /\ n1 ds' = n1 ds /\
    (forall f a b, ~ (f = num /\ 0 <= a < p2 - p0 /\ 0 <= b < p3 - p1) -> dat ds' f a b = dat ds f a b) /\
    (forall a b r z, 0 <= a < p2 - p0 -> 0 <= b < p3 - p1 -> owner r z a b -> dat ds' num a b = owned_value r z a b).
Proof.
  intros HR HC Hf (N1 & N2 & N3). unfold write_probe.
  pose (I := fun r z (d : dataset T) => frames d = frames ds /\ n0 d = n0 ds /\ n1 d = n1 ds /\
    (forall f a b, ~ (f = num /\ 0 <= a < p2 - p0 /\ 0 <= b < p3 - p1) -> dat d f a b = dat ds f a b) /\
    (forall a b r' z', 0 <= a < p2 - p0 -> 0 <= b < p3 - p1 -> owner r' z' a b -> before2 r z r' z' = true ->
       dat d num a b = owned_value r' z' a b)).
  destruct (for_inv (fun r d => I r 0 d) 0 R (fun r => for_to 0 C (fun z d =>
      run_writer zero (G r z) num (tile_of p0 p1 p2 p3 (br r) (bz z) (br (r + 1)) (bz (z + 1))) d)) ds)
    as (ds' & E & I1 & I2 & I3 & I4 & I5).
  - lia.
  - unfold I. repeat split; auto. unfold before2. intros a b r' z' _ _ (O1 & O2 & _). lia.
  - intros r d Hr Hd.
    destruct (for_inv (fun z d => I r z d) 0 C (fun z d =>
      run_writer zero (G r z) num (tile_of p0 p1 p2 p3 (br r) (bz z) (br (r + 1)) (bz (z + 1))) d) d)
      as (d' & E & I1 & I2 & I3 & I4 & I5); auto.
    + intros z e Hz (J1 & J2 & J3 & J4 & J5).
      destruct (run_writer_spec r z e Hr Hz) as [_ X].
      { unfold frame_ok in *. lia. }
      destruct X as (e' & E & K1 & K2 & K3 & K4 & K5).
      { right. unfold empty_rows. pose proof (N3 r Hr).
        destruct (Z.eq_dec (r + 1) R) as [E1|E1]; destruct (Z.eq_dec r 0) as [E0|E0].
        - assert (br (r + 1) = br R) by (now f_equal). assert (br r = br 0) by (now f_equal). lia.
        - assert (br (r + 1) = br R) by (now f_equal). pose proof (N2 r ltac:(lia)). lia.
        - pose proof (N2 (r + 1) ltac:(lia)). assert (br r = br 0) by (now f_equal). lia.
        - pose proof (N2 (r + 1) ltac:(lia)). pose proof (N2 r ltac:(lia)). lia. }
      exists e'. split; [exact E|]. unfold I. split; [congruence|]. split; [congruence|]. split; [congruence|]. split.
      * intros f a b Hno. rewrite K4 by tauto. now apply J4.
      * intros a b r' z' Ha Hb Ho Hbf. destruct (Z.eq_dec r' r) as [Er|Er]; [destruct (Z.eq_dec z' z) as [Ez|Ez]|].
        -- subst. now apply K5.
        -- rewrite K4; [apply J5; auto; unfold before2 in *; lia|].
           intros (_ & _ & _ & Ho'). destruct (owner_unique _ _ _ _ _ _ Ho Ho'). contradiction.
        -- rewrite K4; [apply J5; auto; unfold before2 in *; lia|].
           intros (_ & _ & _ & Ho'). destruct (owner_unique _ _ _ _ _ _ Ho Ho'). contradiction.
    + exists d'. split; [exact E|]. unfold I. repeat split; auto.
      intros a b r' z' Ha Hb Ho Hbf. apply I5; auto. destruct Ho as (O1 & O2 & _). unfold before2 in *. lia.
  - exists ds'. split; [exact E|]. repeat split; auto. intros a b r z Ha Hb Ho. apply I5; auto.
    destruct Ho as (O1 & _). unfold before2. lia.
Qed.

(** ... and if one does, the writers evaluate [data[0]] of an empty array *)
Lemma write_probe_ub ds r z : 0 <= C -> 0 <= r < R -> 0 <= z < C -> frame_ok ds ->
  empty_rows r -> br r <= p2 -> p0 <= br (r + 1) -> p1 <= bz (z + 1) -> bz z <= p3 ->
  write_probe zero R C br bz G p0 p1 p2 p3 num ds = UB.
Proof.
  intros HC Hr Hz Hf He H1 H2 H3 H4. unfold write_probe.
  assert (Step : forall r z d, 0 <= r < R -> 0 <= z < C -> frame_ok d ->
    (exists d', run_writer zero (G r z) num (tile_of p0 p1 p2 p3 (br r) (bz z) (br (r + 1)) (bz (z + 1))) d = Ok d' /\ frame_ok d') \/
    run_writer zero (G r z) num (tile_of p0 p1 p2 p3 (br r) (bz z) (br (r + 1)) (bz (z + 1))) d = UB).
  { intros r' z' d Hr' Hz' Hd. destruct (run_writer_spec r' z' d Hr' Hz' Hd) as [A B].
    destruct (Z.eq_dec (br r') (br (r' + 1))) as [E0|E0].
    - destruct (tile_rc r' z') eqn:Et.
      + right. unfold tile_rc in Et. rewrite Et. apply A; [discriminate|now right].
      + left. destruct (B ltac:(now left)) as (d' & E & X1 & X2 & X3 & _). exists d'. unfold tile_rc in Et. rewrite Et. split; auto.
        unfold frame_ok in *. lia.
    - assert (D : empty_rows r' \/ ~ empty_rows r') by (unfold empty_rows; lia). destruct D as [D|D].
      + destruct (tile_rc r' z') eqn:Et.
        * right. unfold tile_rc in Et. rewrite Et. apply A; [discriminate|now left].
        * left. destruct (B ltac:(now left)) as (d' & E & X1 & X2 & X3 & _). exists d'. unfold tile_rc in Et. rewrite Et. split; auto.
          unfold frame_ok in *. lia.
      + left. pose proof (Hbr r' Hr'). destruct (B ltac:(right; split; [exact D|lia])) as (d' & E & X1 & X2 & X3 & _).
        exists d'. split; [exact E|]. unfold frame_ok in *. lia. }
  assert (Inner : forall r d, 0 <= r < R -> frame_ok d ->
    (exists d', for_to 0 C (fun z d => run_writer zero (G r z) num (tile_of p0 p1 p2 p3 (br r) (bz z) (br (r + 1)) (bz (z + 1))) d) d = Ok d' /\ frame_ok d') \/
    for_to 0 C (fun z d => run_writer zero (G r z) num (tile_of p0 p1 p2 p3 (br r) (bz z) (br (r + 1)) (bz (z + 1))) d) d = UB).
  { intros r' d Hr' Hd. unfold for_to.
    assert (L : forall n i e, 0 <= i -> i + Z.of_nat n <= C -> frame_ok e ->
      (exists d', loop n i (fun z d => run_writer zero (G r' z) num (tile_of p0 p1 p2 p3 (br r') (bz z) (br (r' + 1)) (bz (z + 1))) d) e = Ok d' /\ frame_ok d') \/
      loop n i (fun z d => run_writer zero (G r' z) num (tile_of p0 p1 p2 p3 (br r') (bz z) (br (r' + 1)) (bz (z + 1))) d) e = UB).
    { induction n as [|n IH]; intros i e Hi Hn He'; cbn [loop]; [left; now exists e|].
      destruct (Step r' i e Hr' ltac:(lia) He') as [(e' & E & He2)|E]; rewrite E; cbn [bind]; [|now right].
      apply IH; auto; lia. }
    apply L; auto; lia. }
  apply (for_ub (fun _ d => frame_ok d) 0 R r); auto.
  - intros k d Hk Hd. apply Inner; [lia|exact Hd].
  - intros d Hd. apply (for_ub (fun _ d => frame_ok d) 0 C z); auto.
    + intros k e Hk He2. apply Step; [lia|lia|exact He2].
    + intros e He2. destruct (run_writer_spec r z e Hr Hz He2) as [A _]. apply A; [|now left].
      unfold tile_rc. destruct (bounds_rz r z Hr Hz) as (B1 & B2 & B3 & B4 & B5 & B6). rewrite tile_of_spec by lia.
      replace ((p0 <=? br (r + 1)) && (p1 <=? bz (z + 1)) && (br r <=? p2) && (bz z <=? p3)) with true by lia. discriminate.
Qed.
End Write.

(** * Schedule *)
Lemma output_step_spec s n fr : 0 < s < 2 ^ 16 -> 0 <= n -> n / s <= fr ->
  output_step s n fr = Ok (if (n mod s =? 0) && (fr =? n / s) then fr + 1 else fr, if n mod s =? 0 then Some (n / s) else None).
Proof.
  intros Hs Hn Hf. unfold output_step. rewrite u16_small by lia.
  replace (s =? 0) with false by lia. unfold extend_frames.
  destruct (n mod s =? 0) eqn:E; [|reflexivity]. cbn [andb].
  destruct (n / s <? fr) eqn:E1.
  - rewrite E1. now replace (fr =? n / s) with false by lia.
  - replace (fr =? n / s) with true by lia. replace (n / s <? n / s + 1) with true by lia. do 2 f_equal. lia.
Qed.

Fixpoint zseq0 (n : nat) : list Z := match n with O => [] | S k => zseq0 k ++ [Z.of_nat k] end.
(** frames written by the steps 0 .. k-1 : number of multiples of s below k *)
Definition frames_by (s k : Z) : Z := if k <=? 0 then 0 else (k - 1) / s + 1.

Lemma output_run_spec s k : 0 < s < 2 ^ 16 ->
  output_run s k = Ok (Z.max 1 (frames_by s (Z.of_nat k)), map (fun f => (f * s, f)) (zseq0 (Z.to_nat (frames_by s (Z.of_nat k))))).
Proof.
  intros Hs. induction k as [|k IH]; [reflexivity|]. cbn [output_run]. rewrite IH. cbn [bind].
  assert (Hk : frames_by s (Z.of_nat k) = if Z.of_nat k mod s =? 0 then Z.of_nat k / s else Z.of_nat k / s + 1).
  { unfold frames_by. destruct (Z.of_nat k <=? 0) eqn:E.
    - replace (Z.of_nat k) with 0 by lia. rewrite Z.mod_0_l, Z.div_0_l by lia. reflexivity.
    - pose proof (Z.div_mod (Z.of_nat k) s ltac:(lia)). pose proof (Z.mod_pos_bound (Z.of_nat k) s ltac:(lia)).
      destruct (Z.of_nat k mod s =? 0) eqn:E0.
      + assert ((Z.of_nat k - 1) / s = Z.of_nat k / s - 1); [|lia]. symmetry. apply (Z.div_unique _ _ _ (s - 1)); [lia|]. nia.
      + f_equal. symmetry. apply (Z.div_unique _ _ _ (Z.of_nat k mod s - 1)); [lia|]. nia. }
  assert (Hk1 : frames_by s (Z.of_nat (S k)) = Z.of_nat k / s + 1).
  { unfold frames_by. replace (Z.of_nat (S k) <=? 0) with false by lia. do 2 f_equal. lia. }
  assert (0 <= Z.of_nat k / s) by (apply Z.div_pos; lia).
  rewrite output_step_spec by (try lia; destruct (Z.of_nat k mod s =? 0); lia). cbn [bind]. rewrite Hk1, Hk.
  pose proof (Z.div_mod (Z.of_nat k) s ltac:(lia)).
  destruct (Z.of_nat k mod s =? 0) eqn:E0; cbn [andb].
  - f_equal. f_equal.
    + destruct (Z.max 1 (Z.of_nat k / s) =? Z.of_nat k / s) eqn:E1; lia.
    + replace (Z.to_nat (Z.of_nat k / s + 1)) with (S (Z.to_nat (Z.of_nat k / s))) by lia.
      cbn [zseq0]. rewrite map_app. cbn [map]. rewrite Z2Nat.id by lia. repeat f_equal; lia.
  - repeat f_equal; lia.
Qed.
