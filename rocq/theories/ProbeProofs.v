(** Lemmas about column, row and dot probes. *)
From Verif Require Import Base GridModel GridProofs OutModel OutProofs ProbeModel.
From Coq Require Import ZifyBool.
Open Scope Z_scope.

Lemma place_start d : 0 <= d -> s16 (u64 (s16 (if 0 <? d then d else 0) - d)) = 0.
Proof.
  intros H. replace (if 0 <? d then d else 0) with d by (destruct (0 <? d) eqn:?; lia).
  rewrite short_minus by lia. lia.
Qed.
Lemma place_o0 p2 p3 d0 d1 d2 d3 : 0 <= d0 < 2 ^ 64 -> o0 (place 0 0 p2 p3 d0 d1 d2 d3) = d0.
Proof. intros H. unfold place. cbv zeta. cbn [o0]. rewrite place_start by lia. rewrite u64_small; lia. Qed.
Lemma place_o1 p2 p3 d0 d1 d2 d3 : 0 <= d1 < 2 ^ 64 -> o1 (place 0 0 p2 p3 d0 d1 d2 d3) = d1.
Proof. intros H. unfold place. cbv zeta. cbn [o1]. rewrite place_start by lia. rewrite u64_small; lia. Qed.
Lemma place_t2 p2 p3 d0 d1 d2 d3 : d0 <= p2 <= d2 -> d2 - d0 < 2 ^ 15 -> t2 (place 0 0 p2 p3 d0 d1 d2 d3) = p2 - d0.
Proof. intros H L. unfold place. cbv zeta. cbn [t2]. replace (d2 <? p2) with false by lia. apply short_minus. lia. Qed.
Lemma place_t3 p2 p3 d0 d1 d2 d3 : d1 <= p3 <= d3 -> d3 - d1 < 2 ^ 15 -> t3 (place 0 0 p2 p3 d0 d1 d2 d3) = p3 - d1.
Proof. intros H L. unfold place. cbv zeta. cbn [t3]. replace (d3 <? p3) with false by lia. apply short_minus. lia. Qed.

Section Line.
Context {T : Type}.
Variable zero : T.

Lemma grab_col_spec (g : grid T) c : wf g -> 0 <= c < ys g + os g ->
  exists val, grab_col zero g c = Ok val /\ forall a, 0 <= a < xs g -> val a = cell g (a + os g) (c + os g).
Proof.
  intros (W1 & W2 & W3 & W4 & W5 & W6 & W7) Hc. unfold grab_col.
  destruct (for_inv (fun i val => forall a, 0 <= a < i -> val a = cell g (a + os g) (c + os g)) 0 (xs g)
    (fun i val => do v <- get g i c; Ok (upd1 val i v)) (fun _ => zero)) as (val & E & Hv); [lia|intros; lia| |].
  - intros i val Hi Hval. unfold get. rewrite !u32_small by lia. rewrite rd_in by lia. cbn [bind]. eexists. split; [reflexivity|].
    intros a Ha. unfold upd1. destruct (a =? i) eqn:E; [f_equal; lia|apply Hval; lia].
  - exists val. split; [exact E|exact Hv].
Qed.
Lemma grab_row_spec (g : grid T) c : wf g -> 0 <= c < xs g + os g ->
  exists val, grab_row zero g c = Ok val /\ forall a, 0 <= a < ys g -> val a = cell g (c + os g) (a + os g).
Proof.
  intros (W1 & W2 & W3 & W4 & W5 & W6 & W7) Hc. unfold grab_row.
  destruct (for_inv (fun i val => forall a, 0 <= a < i -> val a = cell g (c + os g) (a + os g)) 0 (ys g)
    (fun i val => do v <- get g c i; Ok (upd1 val i v)) (fun _ => zero)) as (val & E & Hv); [lia|intros; lia| |].
  - intros i val Hi Hval. unfold get. rewrite !u32_small by lia. rewrite rd_in by lia. cbn [bind]. eexists. split; [reflexivity|].
    intros a Ha. unfold upd1. destruct (a =? i) eqn:E; [f_equal; lia|apply Hval; lia].
  - exists val. split; [exact E|exact Hv].
Qed.

Variables R C : Z.
Variables br bz : Z -> Z.
Variable G : Z -> Z -> grid T.
Hypothesis HR : 0 <= R.
Hypothesis HC : 0 <= C.
Hypothesis Hbr0 : br 0 = 0.
Hypothesis Hbz0 : 0 <= bz 0.
Hypothesis Hbr : forall r, 0 <= r < R -> br r <= br (r + 1) < br r + 2 ^ 15.
Hypothesis Hbz : forall z, 0 <= z < C -> bz z <= bz (z + 1) < bz z + 2 ^ 15.
Hypothesis HbrR : br R < 2 ^ 64.
Hypothesis HbzC : bz C < 2 ^ 64.
Hypothesis HG : forall r z, 0 <= r < R -> 0 <= z < C ->
  wf (G r z) /\ 1 <= os (G r z) /\ xs (G r z) = br (r + 1) - br r /\ ys (G r z) = bz (z + 1) - bz z.
Variables p2 p3 num : Z.

Lemma mbr r s : 0 <= r <= s -> s <= R -> br r <= br s.
Proof using Hbr. apply (OutProofs.mono br R). intros q Hq; specialize (Hbr q Hq); lia. Qed.
Lemma mbz r s : 0 <= r <= s -> s <= C -> bz r <= bz s.
Proof using Hbz. apply (OutProofs.mono bz C). intros q Hq; specialize (Hbz q Hq); lia. Qed.
Lemma bnds r z : 0 <= r < R -> 0 <= z < C ->
  0 <= br r <= br (r + 1) /\ 0 <= bz z <= bz (z + 1) /\ br (r + 1) - br r < 2 ^ 15 /\ bz (z + 1) - bz z < 2 ^ 15 /\
  br (r + 1) <= br R /\ bz (z + 1) <= bz C.
Proof using Hbr0 Hbz0 Hbr Hbz.
  intros Hr Hz. pose proof (Hbr r Hr). pose proof (Hbz z Hz). pose proof (mbr 0 r ltac:(lia) ltac:(lia)). pose proof (mbz 0 z ltac:(lia) ltac:(lia)).
  pose proof (mbr (r + 1) R ltac:(lia) ltac:(lia)). pose proof (mbz (z + 1) C ltac:(lia) ltac:(lia)). lia.
Qed.

(** what one writer does *)
Lemma run_col r z ds : 0 <= r < R -> 0 <= z < C -> 0 <= num < v_frames ds -> v_n ds = br R -> bz z <= p3 <= bz (z + 1) ->
  exists ds', run_line zero Col (G r z) num (place 0 0 p2 p3 (br r) (bz z) (br (r + 1)) (bz (z + 1))) ds = Ok ds' /\
    v_frames ds' = v_frames ds /\ v_n ds' = v_n ds /\
    (forall a, br r <= a < br (r + 1) -> v_dat ds' num a = cell (G r z) (a - br r + os (G r z)) (p3 - bz z + os (G r z))) /\
    (forall f a, ~ (f = num /\ br r <= a < br (r + 1)) -> v_dat ds' f a = v_dat ds f a).
Proof using Hbr0 Hbz0 Hbr Hbz HbrR HG.
  intros Hr Hz Hn En Hp. destruct (bnds r z Hr Hz) as (B1 & B2 & B3 & B4 & B5 & B6). destruct (HG r z Hr Hz) as (W & O & Ex & Ey).
  cbn [run_line]. rewrite place_o0, place_t3 by lia.
  destruct (grab_col_spec (G r z) (p3 - bz z) W) as (val & E & Hv); [lia|]. rewrite E. cbn [bind]. unfold write_vec.
  replace ((num <? v_frames ds) && (br r + xs (G r z) <=? v_n ds)) with true by lia. eexists. split; [reflexivity|]. cbn [v_frames v_n v_dat].
  repeat split.
  - intros a Ha. replace ((num =? num) && (br r <=? a) && (a <? br r + xs (G r z))) with true by lia. rewrite Hv by lia. reflexivity.
  - intros f a N. destruct ((f =? num) && (br r <=? a) && (a <? br r + xs (G r z))) eqn:Q; [exfalso; apply N; lia|reflexivity].
Qed.
Lemma run_row r z ds : 0 <= r < R -> 0 <= z < C -> 0 <= num < v_frames ds -> v_n ds = bz C -> br r <= p2 <= br (r + 1) ->
  exists ds', run_line zero Row (G r z) num (place 0 0 p2 p3 (br r) (bz z) (br (r + 1)) (bz (z + 1))) ds = Ok ds' /\
    v_frames ds' = v_frames ds /\ v_n ds' = v_n ds /\
    (forall a, bz z <= a < bz (z + 1) -> v_dat ds' num a = cell (G r z) (p2 - br r + os (G r z)) (a - bz z + os (G r z))) /\
    (forall f a, ~ (f = num /\ bz z <= a < bz (z + 1)) -> v_dat ds' f a = v_dat ds f a).
Proof using Hbr0 Hbz0 Hbr Hbz HbzC HG.
  intros Hr Hz Hn En Hp. destruct (bnds r z Hr Hz) as (B1 & B2 & B3 & B4 & B5 & B6). destruct (HG r z Hr Hz) as (W & O & Ex & Ey).
  cbn [run_line]. rewrite place_o1, place_t2 by lia.
  destruct (grab_row_spec (G r z) (p2 - br r) W) as (val & E & Hv); [lia|]. rewrite E. cbn [bind]. unfold write_vec.
  replace ((num <? v_frames ds) && (bz z + ys (G r z) <=? v_n ds)) with true by lia. eexists. split; [reflexivity|]. cbn [v_frames v_n v_dat].
  repeat split.
  - intros a Ha. replace ((num =? num) && (bz z <=? a) && (a <? bz z + ys (G r z))) with true by lia. rewrite Hv by lia. reflexivity.
  - intros f a N. destruct ((f =? num) && (bz z <=? a) && (a <? bz z + ys (G r z))) eqn:Q; [exfalso; apply N; lia|reflexivity].
Qed.
Lemma run_dot r z ds : 0 <= r < R -> 0 <= z < C -> 0 <= num < v_frames ds -> v_n ds = 1 -> br r <= p2 <= br (r + 1) -> bz z <= p3 <= bz (z + 1) ->
  exists ds', run_line zero Dot (G r z) num (place 0 0 p2 p3 (br r) (bz z) (br (r + 1)) (bz (z + 1))) ds = Ok ds' /\
    v_frames ds' = v_frames ds /\ v_n ds' = v_n ds /\
    v_dat ds' num 0 = cell (G r z) (p2 - br r + os (G r z)) (p3 - bz z + os (G r z)) /\
    (forall f a, ~ (f = num /\ a = 0) -> v_dat ds' f a = v_dat ds f a).
Proof using Hbr0 Hbz0 Hbr Hbz HG.
  intros Hr Hz Hn En Hp Hq. destruct (bnds r z Hr Hz) as (B1 & B2 & B3 & B4 & B5 & B6). destruct (HG r z Hr Hz) as (W & O & Ex & Ey).
  destruct W as (W1 & W2 & W3 & W4 & W5 & W6 & W7).
  cbn [run_line]. rewrite place_t2, place_t3 by lia. unfold get. rewrite !u32_small by lia. rewrite rd_in by lia. cbn [bind].
  unfold write_dot, write_vec. replace ((num <? v_frames ds) && (0 + 1 <=? v_n ds)) with true by lia. eexists. split; [reflexivity|]. cbn [v_frames v_n v_dat].
  repeat split.
  - replace ((num =? num) && (0 <=? 0) && (0 <? 0 + 1)) with true by lia. reflexivity.
  - intros f a N. destruct ((f =? num) && (0 <=? a) && (a <? 0 + 1)) eqn:Q; [exfalso; apply N; lia|reflexivity].
Qed.

(** the last writer of the column: it is the owner, or the last domain for a column at the outer border *)
Definition last_of (b : Z -> Z) (n p z : Z) : Prop := 0 <= z < n /\ b z <= p <= b (z + 1) /\ forall z', z < z' < n -> p < b z'.
Lemma cols_written zl ds : 0 <= num < v_frames ds -> v_n ds = br R -> last_of bz C p3 zl ->
  exists ds', write_line zero Col R C br bz G p2 p3 num ds = Ok ds' /\ v_frames ds' = v_frames ds /\ v_n ds' = v_n ds /\
    (forall r a, 0 <= r < R -> br r <= a < br (r + 1) -> v_dat ds' num a = cell (G r zl) (a - br r + os (G r zl)) (p3 - bz zl + os (G r zl))) /\
    (forall f a, ~ (f = num /\ 0 <= a < br R) -> v_dat ds' f a = v_dat ds f a).
Proof using HR HC Hbr0 Hbz0 Hbr Hbz HbrR HG.
  intros Hn En (L1 & L2 & L3). unfold write_line.
  pose (I := fun r z (d : vds T) => v_frames d = v_frames ds /\ v_n d = v_n ds /\
    (forall r' a, 0 <= r' < R -> r' < r \/ (r' = r /\ zl < z) -> br r' <= a < br (r' + 1) ->
       v_dat d num a = cell (G r' zl) (a - br r' + os (G r' zl)) (p3 - bz zl + os (G r' zl))) /\
    (forall f a, ~ (f = num /\ 0 <= a < br R) -> v_dat d f a = v_dat ds f a)).
  destruct (for_inv (fun r d => I r 0 d) 0 R (fun r => for_to 0 C (fun z ds =>
    if meets Col p2 p3 (br r) (bz z) (br (r + 1)) (bz (z + 1))
    then run_line zero Col (G r z) num (place 0 0 p2 p3 (br r) (bz z) (br (r + 1)) (bz (z + 1))) ds else Ok ds)) ds) as (ds' & E & J1 & J2 & J3 & J4).
  - lia.
  - repeat split; auto. intros; lia.
  - intros r d Hr Id.
    destruct (for_inv (fun z d => I r z d) 0 C (fun z ds =>
      if meets Col p2 p3 (br r) (bz z) (br (r + 1)) (bz (z + 1))
      then run_line zero Col (G r z) num (place 0 0 p2 p3 (br r) (bz z) (br (r + 1)) (bz (z + 1))) ds else Ok ds) d) as (d' & E & K); [lia|exact Id| |].
    + intros z d1 Hz (I1 & I2 & I3 & I4). unfold meets. destruct ((bz z <=? p3) && (p3 <=? bz (z + 1))) eqn:M.
      * destruct (run_col r z d1 Hr Hz) as (d2 & E2 & F1 & F2 & F3 & F4); [lia|lia|lia|]. exists d2. split; [exact E2|].
        assert (z <= zl). { destruct (Z_le_gt_dec z zl); [assumption|]. specialize (L3 z ltac:(lia)). lia. }
        destruct (bnds r z Hr Hz) as (B1 & B2 & B3 & B4 & B5 & B6).
        split; [lia|]. split; [lia|]. split.
        -- intros r' a Hr' Hb Ha. destruct (Z.eq_dec r' r) as [->|Ne].
           ++ replace zl with z by lia. apply F3, Ha.
           ++ rewrite F4. { apply I3; try lia. } 
              intros [_ A]. destruct (Z_lt_ge_dec r' r); [pose proof (mbr (r' + 1) r ltac:(lia) ltac:(lia))|]; lia.
        -- intros f a N. rewrite F4; [apply I4, N|]. intros [-> A]. apply N. lia.
      * exists d1. split; [reflexivity|]. split; [lia|]. split; [lia|]. split; [|exact I4].
        intros r' a Hr' Hb Ha. destruct (Z.eq_dec zl z) as [->|Nz]; [|apply I3; lia].
        destruct Hb as [Hb|Hb]; [apply I3; lia|]. lia.
    + exists d'. split; [exact E|]. destruct K as (K1 & K2 & K3 & K4). split; [lia|]. split; [lia|]. split; [|exact K4].
      intros r' a Hr' Hb Ha. apply K3; try lia.
  - exists ds'. split; [exact E|]. split; [lia|]. split; [lia|]. split; [|exact J4]. intros r a Hr Ha. apply J3; lia.
Qed.
Lemma rows_written rl ds : 0 <= num < v_frames ds -> v_n ds = bz C -> last_of br R p2 rl ->
  exists ds', write_line zero Row R C br bz G p2 p3 num ds = Ok ds' /\ v_frames ds' = v_frames ds /\ v_n ds' = v_n ds /\
    (forall z a, 0 <= z < C -> bz z <= a < bz (z + 1) -> v_dat ds' num a = cell (G rl z) (p2 - br rl + os (G rl z)) (a - bz z + os (G rl z))) /\
    (forall f a, ~ (f = num /\ 0 <= a < bz C) -> v_dat ds' f a = v_dat ds f a).
Proof using HR HC Hbr0 Hbz0 Hbr Hbz HbzC HG.
  intros Hn En (L1 & L2 & L3). unfold write_line.
  pose (I := fun r z (d : vds T) => v_frames d = v_frames ds /\ v_n d = v_n ds /\
    (forall z' a, 0 <= z' < C -> rl < r \/ (rl = r /\ z' < z) -> bz z' <= a < bz (z' + 1) ->
       v_dat d num a = cell (G rl z') (p2 - br rl + os (G rl z')) (a - bz z' + os (G rl z'))) /\
    (forall f a, ~ (f = num /\ 0 <= a < bz C) -> v_dat d f a = v_dat ds f a)).
  destruct (for_inv (fun r d => I r 0 d) 0 R (fun r => for_to 0 C (fun z ds =>
    if meets Row p2 p3 (br r) (bz z) (br (r + 1)) (bz (z + 1))
    then run_line zero Row (G r z) num (place 0 0 p2 p3 (br r) (bz z) (br (r + 1)) (bz (z + 1))) ds else Ok ds)) ds) as (ds' & E & J1 & J2 & J3 & J4).
  - lia.
  - repeat split; auto. intros; lia.
  - intros r d Hr Id.
    destruct (for_inv (fun z d => I r z d) 0 C (fun z ds =>
      if meets Row p2 p3 (br r) (bz z) (br (r + 1)) (bz (z + 1))
      then run_line zero Row (G r z) num (place 0 0 p2 p3 (br r) (bz z) (br (r + 1)) (bz (z + 1))) ds else Ok ds) d) as (d' & E & K); [lia|exact Id| |].
    + intros z d1 Hz (I1 & I2 & I3 & I4). unfold meets. destruct ((br r <=? p2) && (p2 <=? br (r + 1))) eqn:M.
      * destruct (run_row r z d1 Hr Hz) as (d2 & E2 & F1 & F2 & F3 & F4); [lia|lia|lia|]. exists d2. split; [exact E2|].
        assert (r <= rl). { destruct (Z_le_gt_dec r rl); [assumption|]. specialize (L3 r ltac:(lia)). lia. }
        destruct (bnds r z Hr Hz) as (B1 & B2 & B3 & B4 & B5 & B6).
        split; [lia|]. split; [lia|]. split.
        -- intros z' a Hz' Hb Ha. destruct Hb as [Hb|[-> Hb]]; [lia|]. destruct (Z.eq_dec z' z) as [->|Ne]; [apply F3, Ha|].
           rewrite F4. { apply I3; try lia. } 
           intros [_ A]. pose proof (mbz (z' + 1) z ltac:(lia) ltac:(lia)). lia.
        -- intros f a N. rewrite F4; [apply I4, N|]. intros [-> A]. apply N. lia.
      * exists d1. split; [reflexivity|]. split; [lia|]. split; [lia|]. split; [|exact I4].
        intros z' a Hz' Hb Ha. destruct Hb as [Hb|[-> Hb]]; [apply I3; lia|]. lia.
    + exists d'. split; [exact E|]. destruct K as (K1 & K2 & K3 & K4). split; [lia|]. split; [lia|]. split; [|exact K4].
      intros z' a Hz' Hb Ha. apply K3; try lia.
  - exists ds'. split; [exact E|]. split; [lia|]. split; [lia|]. split; [|exact J4]. intros z a Hz Ha. apply J3; lia.
Qed.
Lemma dot_written rl zl ds : 0 <= num < v_frames ds -> v_n ds = 1 -> last_of br R p2 rl -> last_of bz C p3 zl ->
  exists ds', write_line zero Dot R C br bz G p2 p3 num ds = Ok ds' /\ v_frames ds' = v_frames ds /\ v_n ds' = v_n ds /\
    v_dat ds' num 0 = cell (G rl zl) (p2 - br rl + os (G rl zl)) (p3 - bz zl + os (G rl zl)) /\
    (forall f a, ~ (f = num /\ a = 0) -> v_dat ds' f a = v_dat ds f a).
Proof using HR HC Hbr0 Hbz0 Hbr Hbz HG.
  intros Hn En (L1 & L2 & L3) (M1 & M2 & M3). unfold write_line.
  pose (I := fun r z (d : vds T) => v_frames d = v_frames ds /\ v_n d = v_n ds /\
    (rl < r \/ (rl = r /\ zl < z) -> v_dat d num 0 = cell (G rl zl) (p2 - br rl + os (G rl zl)) (p3 - bz zl + os (G rl zl))) /\
    (forall f a, ~ (f = num /\ a = 0) -> v_dat d f a = v_dat ds f a)).
  destruct (for_inv (fun r d => I r 0 d) 0 R (fun r => for_to 0 C (fun z ds =>
    if meets Dot p2 p3 (br r) (bz z) (br (r + 1)) (bz (z + 1))
    then run_line zero Dot (G r z) num (place 0 0 p2 p3 (br r) (bz z) (br (r + 1)) (bz (z + 1))) ds else Ok ds)) ds) as (ds' & E & J1 & J2 & J3 & J4).
  - lia.
  - repeat split; auto. intros; lia.
  - intros r d Hr Id.
    destruct (for_inv (fun z d => I r z d) 0 C (fun z ds =>
      if meets Dot p2 p3 (br r) (bz z) (br (r + 1)) (bz (z + 1))
      then run_line zero Dot (G r z) num (place 0 0 p2 p3 (br r) (bz z) (br (r + 1)) (bz (z + 1))) ds else Ok ds) d) as (d' & E & K); [lia|exact Id| |].
    + intros z d1 Hz (I1 & I2 & I3 & I4). unfold meets. destruct ((br r <=? p2) && (p2 <=? br (r + 1)) && (bz z <=? p3) && (p3 <=? bz (z + 1))) eqn:M.
      * destruct (run_dot r z d1 Hr Hz) as (d2 & E2 & F1 & F2 & F3 & F4); [lia|lia|lia|lia|]. exists d2. split; [exact E2|].
        assert (r <= rl). { destruct (Z_le_gt_dec r rl); [assumption|]. specialize (L3 r ltac:(lia)). lia. }
        assert (z <= zl). { destruct (Z_le_gt_dec z zl); [assumption|]. specialize (M3 z ltac:(lia)). lia. }
        split; [lia|]. split; [lia|]. split.
        -- intros [Hb|[-> Hb]]; [lia|]. replace zl with z by lia. exact F3.
        -- intros f a N. rewrite F4; [apply I4, N|exact N].
      * exists d1. split; [reflexivity|]. split; [lia|]. split; [lia|]. split; [|exact I4].
        intros Hb. destruct Hb as [Hb|[-> Hb]]; [apply I3; lia|]. destruct (Z.eq_dec zl z) as [->|Nz]; [lia|]. apply I3. right. split; [reflexivity|]. lia.
    + exists d'. split; [exact E|]. destruct K as (K1 & K2 & K3 & K4). split; [lia|]. split; [lia|]. split; [|exact K4].
      intros Hb. apply K3; lia.
  - exists ds'. split; [exact E|]. split; [lia|]. split; [lia|]. split; [|exact J4]. apply J3; lia.
Qed.
End Line.
