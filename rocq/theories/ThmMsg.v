(** Theorems about the text of the elapsed time and the square root: properties C138 and C139. *)
From Coq Require Import Reals String Ascii.
From Verif Require Import Base MsgModel.
From Coq Require Import ZifyBool.
Open Scope Z_scope.

(** * C138 *)
(** what a reader understands: numbers followed by the units d, h, m and s, separated by spaces *)
Fixpoint read (s : string) (n total : Z) : option Z :=
  match s with
  | EmptyString => Some total
  | String c s =>
    let k := Z.of_nat (nat_of_ascii c) in
    if (48 <=? k) && (k <=? 57) then read s (10 * n + (k - 48)) total
    else if Ascii.eqb c "d" then read s 0 (total + 86400 * n)
    else if Ascii.eqb c "h" then read s 0 (total + 3600 * n)
    else if Ascii.eqb c "m" then read s 0 (total + 60 * n)
    else if Ascii.eqb c "s" then read s 0 (total + n)
    else if Ascii.eqb c " " then read s n total else None
  end.
Definition reads (s : string) : option Z := read s 0 0.

Lemma digit_code d : 0 <= d < 10 -> Z.of_nat (nat_of_ascii (digit d)) = 48 + d.
Proof. intros H. unfold digit. rewrite nat_ascii_embedding; lia. Qed.
Lemma read_dec f : forall n acc t, (1 <= f)%nat -> 0 <= n < 10 ^ Z.of_nat f -> read (dec_fuel f n acc) 0 t = read acc n t.
Proof.
  induction f as [|f IH]; intros n acc t Hf Hn; [lia|]. cbn [dec_fuel].
  pose proof (Z.mod_pos_bound n 10 ltac:(lia)). pose proof (digit_code (n mod 10) ltac:(lia)) as DC.
  pose proof (Z.div_mod n 10 ltac:(lia)). destruct (n <? 10) eqn:E.
  - cbn [read]. rewrite DC. replace ((48 <=? 48 + n mod 10) && (48 + n mod 10 <=? 57)) with true by lia. f_equal. rewrite Z.mod_small; lia.
  - rewrite Nat2Z.inj_succ, Z.pow_succ_r in Hn by lia. rewrite IH.
    + cbn [read]. rewrite DC. replace ((48 <=? 48 + n mod 10) && (48 + n mod 10 <=? 57)) with true by lia. f_equal. lia.
    + destruct f; [cbn in Hn; lia|lia].
    + split; [apply Z.div_pos; lia|apply Z.div_lt_upper_bound; lia].
Qed.
Lemma app_assoc_s a b c : ((a ++ b) ++ c = a ++ (b ++ c))%string.
Proof. induction a as [|x a IH]; cbn; [reflexivity|now rewrite IH]. Qed.
Lemma dec_app f : forall n acc, dec_fuel f n acc = (dec_fuel f n "" ++ acc)%string.
Proof.
  induction f as [|f IH]; intros n acc; [reflexivity|]. cbn [dec_fuel]. destruct (n <? 10); [reflexivity|].
  rewrite IH, (IH _ (String _ "")). now rewrite app_assoc_s.
Qed.
Lemma read_num n rest t : 0 <= n < 2 ^ 31 -> read (dec n ++ rest) 0 t = read rest n t.
Proof. intros H. unfold dec. rewrite <- dec_app. apply read_dec; [lia|]. change (10 ^ Z.of_nat 10) with 10000000000. lia. Qed.
Lemma len_dec f : forall n acc k, 0 <= n < 10 ^ Z.of_nat k -> (1 <= k)%nat -> (String.length (dec_fuel f n acc) <= k + String.length acc)%nat.
Proof.
  induction f as [|f IH]; intros n acc k Hn Hk; [cbn; lia|]. cbn [dec_fuel]. destruct (n <? 10) eqn:E; [cbn; lia|].
  destruct k as [|k]; [lia|]. rewrite Nat2Z.inj_succ, Z.pow_succ_r in Hn by lia.
  specialize (IH (n / 10) (String (digit (n mod 10)) acc) k). cbn [String.length] in IH.
  destruct k as [|k]; [cbn in Hn; lia|].
  assert (0 <= n / 10 < 10 ^ Z.of_nat (S k)) by (split; [apply Z.div_pos; lia|apply Z.div_lt_upper_bound; lia]). specialize (IH H ltac:(lia)). lia.
Qed.
Lemma len_app a b : String.length (a ++ b) = (String.length a + String.length b)%nat.
Proof. induction a as [|c a IH]; cbn; [reflexivity|now rewrite IH]. Qed.
Lemma len_pos n : (1 <= String.length (dec n))%nat.
Proof.
  unfold dec. cbn [dec_fuel]. assert (A : forall f m c s, (1 <= String.length (dec_fuel f m (String c s)))%nat).
  { induction f as [|f IH]; intros m c s; cbn [dec_fuel]; [cbn; lia|]. destruct (m <? 10); [cbn; lia|]. apply IH. }
  destruct (n <? 10); [cbn; lia|]. exact (A 9%nat (n / 10) _ _).
Qed.
(** the parts of the time in the order days, hours, minutes, seconds *)
Definition parts (t d h m s : Z) : Prop := t = 86400 * d + 3600 * h + 60 * m + s /\ 0 <= d /\ 0 <= h < 24 /\ 0 <= m < 60 /\ 0 <= s < 60.
(** without leading zeros *)
Definition clock_text (d h m s : Z) : string :=
  if 0 <? d then (dec d ++ "d " ++ dec h ++ "h " ++ dec m ++ "m " ++ dec s ++ "s")%string
  else if 0 <? h then (dec h ++ "h " ++ dec m ++ "m " ++ dec s ++ "s")%string
  else if 0 <? m then (dec m ++ "m " ++ dec s ++ "s")%string else (dec s ++ "s")%string.

Lemma unit_d r n t : read ("d " ++ r) n t = read r 0 (t + 86400 * n).
Proof. reflexivity. Qed.
Lemma unit_h r n t : read ("h " ++ r) n t = read r 0 (t + 3600 * n).
Proof. reflexivity. Qed.
Lemma unit_m r n t : read ("m " ++ r) n t = read r 0 (t + 60 * n).
Proof. reflexivity. Qed.
Lemma unit_s n t : read "s" n t = Some (t + n).
Proof. reflexivity. Qed.
Lemma duration_eq t d h m s : parts t d h m s -> t <> 60 -> t <> 3600 -> t <> 86400 -> duration t = clock_text d h m s.
Proof.
  intros (E & Hd & Hh & Hm & Hs) N1 N2 N3. unfold duration, clock_text.
  destruct (0 <? d) eqn:Ed.
  { replace ((60 <? t) && (t <? 3600)) with false by lia. replace ((3600 <? t) && (t <? 86400)) with false by lia. replace (86400 <? t) with true by lia.
    cbv zeta. replace (t / 86400) with d by (apply (Z.div_unique _ _ _ (3600 * h + 60 * m + s)); lia).
    replace ((t - d * 86400) / 3600) with h by (apply (Z.div_unique _ _ _ (60 * m + s)); lia).
    replace ((t - d * 86400 - h * 3600) / 60) with m by (apply (Z.div_unique _ _ _ s); lia).
    now replace (t - d * 86400 - h * 3600 - m * 60) with s by lia. }
  assert (d = 0) by lia. subst d. destruct (0 <? h) eqn:Eh.
  { replace ((60 <? t) && (t <? 3600)) with false by lia. replace ((3600 <? t) && (t <? 86400)) with true by lia.
    cbv zeta. replace (t / 3600) with h by (apply (Z.div_unique _ _ _ (60 * m + s)); lia).
    replace ((t - h * 3600) / 60) with m by (apply (Z.div_unique _ _ _ s); lia). now replace (t - h * 3600 - m * 60) with s by lia. }
  assert (h = 0) by lia. subst h. destruct (0 <? m) eqn:Em.
  { replace ((60 <? t) && (t <? 3600)) with true by lia. cbv zeta. replace (t / 60) with m by (apply (Z.div_unique _ _ _ s); lia).
    now replace (t - m * 60) with s by lia. }
  assert (m = 0) by lia. subst m. replace ((60 <? t) && (t <? 3600)) with false by lia. replace ((3600 <? t) && (t <? 86400)) with false by lia.
  replace (86400 <? t) with false by lia. now replace t with s by lia.
Qed.
Lemma parts_exist t : 0 <= t -> exists d h m s, parts t d h m s.
Proof.
  intros Ht. exists (t / 86400), (t mod 86400 / 3600), (t mod 3600 / 60), (t mod 60).
  assert (A : forall a b k, 0 <= a -> 0 < b -> 0 < k -> a mod (b * k) = b * (a mod (b * k) / b) + a mod b).
  { intros a b k Ha Hb Hk. rewrite (Z.div_mod (a mod (b * k)) b) at 1 by lia. f_equal. rewrite Z.rem_mul_r by lia.
    rewrite Z.mul_comm, Z.mod_add by lia. apply Z.mod_mod. lia. }
  pose proof (A t 60 60 Ht ltac:(lia) ltac:(lia)) as A1. pose proof (A t 3600 24 Ht ltac:(lia) ltac:(lia)) as A2.
  change (60 * 60) with 3600 in A1. change (3600 * 24) with 86400 in A2.
  pose proof (Z.div_mod t 86400 ltac:(lia)). pose proof (Z.mod_pos_bound t 86400 ltac:(lia)). pose proof (Z.mod_pos_bound t 3600 ltac:(lia)).
  pose proof (Z.mod_pos_bound t 60 ltac:(lia)). unfold parts.
  assert (0 <= t / 86400) by (apply Z.div_pos; lia). lia.
Qed.
(** The text denotes the elapsed time; apart from the first second of the first minute, hour and day it is the usual one; 24 bytes suffice *)
Theorem C138_text_partial : forall t, 0 <= t < 2 ^ 31 ->
  reads (duration t) = Some t /\
  (forall d h m s, parts t d h m s -> t <> 60 -> t <> 3600 -> t <> 86400 -> duration t = clock_text d h m s) /\
  sprintf 24 (duration t) = Ok (duration t).
Proof.
  intros t Ht. assert (SP : t = 60 \/ t = 3600 \/ t = 86400 \/ (t <> 60 /\ t <> 3600 /\ t <> 86400)) by lia.
  destruct SP as [->|[->|[->|(N1 & N2 & N3)]]]; [split; [reflexivity|split; [lia|reflexivity]]..|].
  destruct (parts_exist t ltac:(lia)) as (d & h & m & s & Q). rewrite (duration_eq t d h m s Q N1 N2 N3). pose proof Q as (E & Hd & Hh & Hm & Hs).
  assert (d < 10 ^ Z.of_nat 5) by (change (10 ^ Z.of_nat 5) with 100000; lia).
  split; [|split].
  - unfold reads, clock_text. destruct (0 <? d) eqn:Ed; [|destruct (0 <? h) eqn:Eh; [|destruct (0 <? m) eqn:Em]].
    + rewrite read_num, unit_d, read_num, unit_h, read_num, unit_m, read_num, unit_s by lia. f_equal. lia.
    + rewrite read_num, unit_h, read_num, unit_m, read_num, unit_s by lia. f_equal. lia.
    + rewrite read_num, unit_m, read_num, unit_s by lia. f_equal. lia.
    + rewrite read_num, unit_s by lia. f_equal. lia.
  - intros d' h' m' s' Q' _ _ _. rewrite <- (duration_eq t d h m s Q N1 N2 N3). now apply duration_eq.
  - unfold sprintf. replace (_ <=? 24) with true; [reflexivity|]. symmetry. apply Z.leb_le.
    assert (L : forall n, 0 <= n < 60 -> (String.length (dec n) <= 2)%nat).
    { intros n Hn. unfold dec. rewrite (len_dec 10 n "" 2 ltac:(change (10 ^ Z.of_nat 2) with 100; lia) ltac:(lia)). cbn. lia. }
    assert (Ld : (String.length (dec d) <= 5)%nat).
    { unfold dec. rewrite (len_dec 10 d "" 5 ltac:(lia) ltac:(lia)). cbn. lia. }
    pose proof (L h ltac:(lia)). pose proof (L m ltac:(lia)). pose proof (L s ltac:(lia)).
    unfold clock_text. destruct (0 <? d); [|destruct (0 <? h); [|destruct (0 <? m)]]; rewrite !len_app; cbn [String.length]; lia.
Qed.
(** The block has one byte; every text has more *)
Theorem C138_refuted : forall start now, get_simulation_duration start now = UB.
Proof.
  intros start now. unfold get_simulation_duration, sprintf. replace (_ <=? 1) with false; [reflexivity|]. symmetry. apply Z.leb_gt.
  unfold duration. set (t := now - start). pose proof (len_pos (t / 60)). pose proof (len_pos (t / 3600)). pose proof (len_pos (t / 86400)). pose proof (len_pos t).
  destruct ((60 <? t) && (t <? 3600)); [|destruct ((3600 <? t) && (t <? 86400)); [|destruct (86400 <? t)]]; cbv zeta; rewrite len_app; lia.
Qed.
Theorem C138_first_second_refuted :
  duration 60 = "60s"%string /\ duration 3600 = "3600s"%string /\ duration 86400 = "86400s"%string /\
  parts 3600 0 1 0 0 /\ clock_text 0 1 0 0 = "1h 0m 0s"%string.
Proof. repeat split; try reflexivity; lia. Qed.
Example C138_ex :
  duration 59 = "59s"%string /\ duration 61 = "1m 1s"%string /\ duration 3725 = "1h 2m 5s"%string /\ duration 200000 = "2d 7h 33m 20s"%string /\
  parts 200000 2 7 33 20 /\ reads "2d 7h 33m 20s" = Some 200000 /\ reads "x" = None.
Proof. repeat split; try reflexivity; lia. Qed.

(** * C139 *)
(** at an address the instruction accepts the result is the square root *)
Theorem C139_partial : forall addr x, (32 | addr) -> (0 <= x)%R ->
  exists y, sq_rt_avx addr x = Ok y /\ (0 <= y)%R /\ (y * y = x)%R.
Proof.
  intros addr x [q ->] Hx. exists (sqrt x). unfold sq_rt_avx. rewrite Z.mod_mul by lia. split; [reflexivity|]. split; [apply sqrt_pos|now apply sqrt_sqrt].
Qed.
(** the alignment of a double does not suffice *)
Theorem C139_refuted : forall addr x, (8 | addr) -> ~ (32 | addr) -> sq_rt_avx addr x = UB.
Proof.
  intros addr x _ N. unfold sq_rt_avx. replace (addr mod 32 =? 0) with false; [reflexivity|]. symmetry. apply Z.eqb_neq. intros E. apply N.
  apply Z.mod_divide; lia.
Qed.
Example C139_ex : (8 | 140737488347144) /\ ~ (32 | 140737488347144) /\ (32 | 140737488347136).
Proof.
  split; [exists 17592186043393; reflexivity|]. split; [|exists 4398046510848; reflexivity].
  intros H. apply Z.mod_divide in H; [discriminate|lia].
Qed.

Print Assumptions C138_text_partial.
Print Assumptions C138_refuted.
Print Assumptions C138_first_second_refuted.
Print Assumptions C139_partial.
Print Assumptions C139_refuted.
