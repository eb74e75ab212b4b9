(** Theorems about the pairing of particles in the collision operators: properties C49 and C50. *)
From Coq Require Import Psatz ZifyBool.
From Verif Require Import Base CollModel.
Local Open Scope Z_scope.

(** * Specification *)
(** how many pairs the particle [i] takes part in *)
Definition occurs (i : Z) (p : Z * Z) : bool := (fst p =? i) || (snd p =? i).
Definition times (i : Z) (ps : list (Z * Z)) : nat := length (filter (occurs i) ps).
(** [a] in the first list, [b] in the second *)
Definition inside (n m : Z) (p : Z * Z) : Prop := 0 <= fst p < n /\ 0 <= snd p < m.
(** how often [i] is the second (first) of a pair *)
Definition times2 (i : Z) (ps : list (Z * Z)) : nat := length (filter (fun p => snd p =? i) ps).
Definition times1 (i : Z) (ps : list (Z * Z)) : nat := length (filter (fun p => fst p =? i) ps).

(** * C49 *)
Lemma by_two_spec : forall f k n, 0 <= k -> (n - k) mod 2 = 0 -> n <= k + 2 * Z.of_nat f ->
  (forall p, In p (by_two f k n) -> k <= fst p < n /\ k <= snd p < n /\ snd p = fst p + 1) /\
  (forall i, times i (by_two f k n) = if (k <=? i) && (i <? n) then 1%nat else 0%nat).
Proof.
  induction f as [|f IH]; intros k n Hk Hp Hf.
  - cbn [by_two]. split; [intros p []|]. intros i. cbn. destruct ((k <=? i) && (i <? n)) eqn:E; [lia|reflexivity].
  - cbn [by_two]. destruct (k <? n) eqn:E.
    + destruct (IH (k + 2) n) as [A B]; [lia| |lia|].
      { replace (n - (k + 2)) with (n - k + (-1) * 2) by ring. now rewrite Z.mod_add. }
      assert (k + 1 < n). { destruct (Z.eq_dec n (k + 1)) as [->|]; [|lia]. replace (k + 1 - k) with 1 in Hp by ring. discriminate. }
      split.
      * intros p [<-|H1]; [cbn; lia|]. specialize (A p H1). lia.
      * intros i. unfold times in *. cbn [filter]. unfold occurs at 1. cbn [fst snd].
        specialize (B i). destruct ((k =? i) || (k + 1 =? i)) eqn:E2; cbn [length]; rewrite B;
          destruct ((k + 2 <=? i) && (i <? n)) eqn:E3; destruct ((k <=? i) && (i <? n)) eqn:E4; try reflexivity; lia.
    + split; [intros p []|]. intros i. cbn. destruct ((k <=? i) && (i <? n)) eqn:E4; [lia|reflexivity].
Qed.
Lemma times_app i a b : times i (a ++ b) = (times i a + times i b)%nat.
Proof. unfold times. now rewrite filter_app, app_length. Qed.

(** every number of particles: how often each takes part *)
Theorem C49_times : forall n i, 2 <= n -> 0 <= i < n ->
  times i (pairs_same n) = if Z.even n then 1%nat else if i <? 3 then 2%nat else 1%nat.
Proof.
  intros n i Hn Hi. unfold pairs_same. rewrite Zmod_even. destruct (Z.even n) eqn:E; cbn [Z.eqb negb].
  - rewrite app_nil_r. destruct (by_two_spec (Z.to_nat n) 0 n) as [_ B]; [lia|rewrite Z.sub_0_r, Zmod_even, E; reflexivity|lia|].
    rewrite B. destruct ((0 <=? i) && (i <? n)) eqn:F; [reflexivity|lia].
  - assert (O : n mod 2 = 1) by (rewrite Zmod_even, E; reflexivity). assert (n <> 2) by (intros ->; discriminate).
    rewrite app_nil_l. rewrite times_app. destruct (3 <=? n) eqn:F; [|lia].
    assert (T : times i (if 5 <=? n then by_two (Z.to_nat n) 3 n else []) = if i <? 3 then 0%nat else 1%nat).
    { destruct (5 <=? n) eqn:G.
      - destruct (by_two_spec (Z.to_nat n) 3 n) as [_ B]; [lia| |lia|].
        { rewrite Zminus_mod, O. reflexivity. }
        rewrite B. destruct (i <? 3) eqn:I; destruct ((3 <=? i) && (i <? n)) eqn:J; try reflexivity; lia.
      - cbn. destruct (i <? 3) eqn:I; [reflexivity|]. assert (n <> 4) by (intros ->; discriminate). lia. }
    rewrite T. unfold times. cbn [filter]. unfold occurs. cbn [fst snd].
    destruct (i <? 3) eqn:I.
    + assert (K : i = 0 \/ i = 1 \/ i = 2) by lia. destruct K as [->|[->| ->]]; reflexivity.
    + replace (0 =? i) with false by lia. replace (1 =? i) with false by lia. replace (2 =? i) with false by lia. reflexivity.
Qed.
Theorem C49_inside : forall n p, 2 <= n -> In p (pairs_same n) -> inside n n p /\ fst p <> snd p.
Proof.
  intros n p Hn Hi. unfold pairs_same in Hi. rewrite Zmod_even in Hi. unfold inside.
  destruct (Z.even n) eqn:E; cbn [Z.eqb negb] in Hi.
  - rewrite app_nil_r in Hi. destruct (by_two_spec (Z.to_nat n) 0 n) as [A _]; [lia|rewrite Z.sub_0_r, Zmod_even, E; reflexivity|lia|].
    specialize (A p Hi). lia.
  - assert (O : n mod 2 = 1) by (rewrite Zmod_even, E; reflexivity). assert (n <> 2) by (intros ->; discriminate).
    rewrite app_nil_l in Hi. destruct (3 <=? n) eqn:F; [|lia]. apply in_app_or in Hi. destruct Hi as [Hi|Hi].
    + cbn in Hi. destruct Hi as [<-|[<-|[<-|[]]]]; cbn; lia.
    + destruct (5 <=? n) eqn:G; [|destruct Hi].
      destruct (by_two_spec (Z.to_nat n) 3 n) as [A _]; [lia| |lia|].
      { rewrite Zminus_mod, O. reflexivity. }
      specialize (A p Hi). lia.
Qed.
(** a lone particle is not paired *)
Theorem C49_alone : pairs_same 1 = [] /\ pairs_same 0 = [].
Proof. split; reflexivity. Qed.
Example C49_ex : pairs_same 7 = [(0, 1); (1, 2); (2, 0); (3, 4); (5, 6)] /\ pairs_same 4 = [(0, 1); (2, 3)].
Proof. split; reflexivity. Qed.

(** * C50 *)
Lemma rne_err num m : 0 < m -> 0 <= num -> 2 * Z.abs (rne num m * m - num) <= m /\ (num mod m = 0 -> rne num m = num / m).
Proof.
  intros Hm Hn. unfold rne. assert (D := Z.div_mod num m ltac:(lia)). assert (B := Z.mod_pos_bound num m Hm).
  set (q := num / m) in *. set (r := num mod m) in *. cbv zeta. split.
  - destruct (2 * r <? m) eqn:E1; [nia|]. destruct (m <? 2 * r) eqn:E2; [nia|]. destruct (Z.even q); nia.
  - intros Z0. rewrite Z0. destruct (2 * 0 <? m) eqn:E1; [reflexivity|lia].
Qed.
Lemma pow_split e : 0 <= e <= 23 -> 2 ^ (23 - e) * 2 ^ e = 2 ^ 23.
Proof. intros H. rewrite <- Z.pow_add_r by lia. f_equal. lia. Qed.
(** the quotient: relative error at most 2^-24, exact if the division is *)
Lemma quot23_err n m : 0 < m <= n -> n < 2 ^ 24 ->
  2 * Z.abs (quot23 n m * m - n * 2 ^ 23) <= n /\ (n mod m = 0 -> quot23 n m = n / m * 2 ^ 23).
Proof.
  intros Hm Hn. unfold quot23. cbv zeta. set (e := Z.log2 (n / m)).
  assert (Hq : 1 <= n / m) by (apply Z.div_le_lower_bound; lia).
  assert (E := Z.log2_spec (n / m) ltac:(lia)). fold e in E. destruct E as [E1 E2].
  assert (e0 : 0 <= e) by apply Z.log2_nonneg.
  assert (Hq2 : n / m < 2 ^ 24) by (apply Z.div_lt_upper_bound; nia).
  assert (e23 : e <= 23). { assert (e < 24); [|lia]. apply Z.log2_lt_pow2; lia. }
  assert (P := pow_split e ltac:(lia)). set (s := 2 ^ (23 - e)) in *. set (t := 2 ^ e) in *.
  assert (0 < s) by (apply Z.pow_pos_nonneg; lia). assert (0 < t) by (apply Z.pow_pos_nonneg; lia).
  destruct (rne_err (n * s) m ltac:(lia) ltac:(nia)) as [R1 R2].
  set (r := rne (n * s) m) in *. rewrite <- P. split.
  - assert (M : m * t <= n). { assert (D := Z.mul_div_le n m ltac:(lia)). nia. }
    replace (r * t * m - n * (s * t)) with ((r * m - n * s) * t) by ring. rewrite Z.abs_mul, (Z.abs_eq t) by lia.
    assert (2 * (Z.abs (r * m - n * s) * t) <= m * t) by nia. lia.
  - intros Z0. assert (D := Z.div_mod n m ltac:(lia)). rewrite Z0, Z.add_0_r in D.
    assert (K : n * s = n / m * s * m) by nia.
    rewrite R2; [|rewrite K; apply Z.mod_mul; lia]. rewrite K, Z.div_mul by lia. ring.
Qed.
(** single-precision floor of a quotient is the integer quotient *)
Lemma floor_quot_eq k b : 0 <= k < 2 ^ 23 -> 0 < b <= 2 ^ 23 -> floor_quot k b = k / b.
Proof.
  intros Hk Hb. unfold floor_quot. destruct (k <? b) eqn:E.
  - destruct (rne_err (k * 2 ^ 24) b ltac:(lia) ltac:(lia)) as [R _]. rewrite Z.div_small by lia.
    destruct (2 ^ 24 <=? rne (k * 2 ^ 24) b) eqn:F; [|reflexivity]. exfalso.
    set (r := rne (k * 2 ^ 24) b) in *. change (2 ^ 24) with 16777216 in *. change (2 ^ 23) with 8388608 in *.
    assert (16777216 * b <= r * b) by nia. lia.
  - destruct (quot23_err k b ltac:(lia)) as [R1 R2]; [change (2 ^ 24) with 16777216; change (2 ^ 23) with 8388608 in Hk; lia|].
    set (q := quot23 k b) in *. change (2 ^ 23) with 8388608 in *.
    assert (D := Z.div_mod k b ltac:(lia)). assert (B := Z.mod_pos_bound k b ltac:(lia)). set (c := k / b) in *.
    symmetry. apply Z.div_unique with (q - c * 8388608); [|ring]. left.
    destruct (Z.eq_dec (k mod b) 0) as [Z0|NZ].
    + rewrite R2 by assumption. lia.
    + clear R2. split.
      * assert (X : c * 8388608 * b < q * b + b) by nia. assert (c * 8388608 < q + 1) by nia. lia.
      * assert (X : q * b < (c + 1) * 8388608 * b) by nia. assert (q < (c + 1) * 8388608) by nia. lia.
Qed.
Section Groups.
Variables n m : Z.
Hypothesis Hm : 0 < m < n.
Hypothesis Hn : n < 2 ^ 23.
Let q := quot23 n m.
(** error of the quotient, in units of 2^-23, times the divisor *)
Let d := q * m - n * 2 ^ 23.
Let ci := n / m.
Let r := n mod m.
Lemma g_ci : q / 2 ^ 23 = ci.
Proof.
  assert (F := floor_quot_eq n m ltac:(lia) ltac:(lia)). unfold floor_quot in F.
  replace (n <? m) with false in F by lia. exact F.
Qed.
Lemma g_d : 2 * Z.abs d <= n.
Proof. destruct (quot23_err n m ltac:(lia)) as [R _]; [change (2 ^ 24) with 16777216; change (2 ^ 23) with 8388608 in Hn; lia|exact R]. Qed.
Lemma g_exact : r = 0 -> d = 0.
Proof.
  destruct (quot23_err n m ltac:(lia)) as [_ R]; [change (2 ^ 24) with 16777216; change (2 ^ 23) with 8388608 in Hn; lia|].
  intros Z0. unfold d, q. rewrite (R Z0). assert (D := Z.div_mod n m ltac:(lia)). fold r in D. rewrite Z0 in D. nia.
Qed.
Lemma g_range : 1 <= ci /\ 0 <= r < m /\ n = ci * m + r /\ 0 <= q - ci * 2 ^ 23 < 2 ^ 23.
Proof.
  assert (D := Z.div_mod n m ltac:(lia)). assert (B := Z.mod_pos_bound n m ltac:(lia)). fold ci r in D, B.
  assert (G := g_ci). assert (1 <= ci) by (apply Z.div_le_lower_bound; lia).
  assert (D2 := Z.div_mod q (2 ^ 23) ltac:(lia)). assert (B2 := Z.mod_pos_bound q (2 ^ 23) ltac:(lia)). rewrite G in D2. lia.
Qed.
Lemma g_crm : (q - ci * 2 ^ 23) * m = 2 ^ 23 * r + d.
Proof. destruct g_range as (_ & _ & E & _). unfold d. assert (F : n * 2 ^ 23 = (ci * m + r) * 2 ^ 23) by (f_equal; exact E). lia. Qed.
Lemma groups_eq : groups n m =
  (ci, (ci + 1) * r + ((ci + 1) * d) / 2 ^ 23, r + d / 2 ^ 23, ci * (m - r) + (- (ci * d)) / 2 ^ 23).
Proof.
  unfold groups. fold q. cbv zeta. rewrite g_ci. assert (E := g_crm).
  replace ((ci + 1) * (q - ci * 2 ^ 23) * m) with ((ci + 1) * d + (ci + 1) * r * 2 ^ 23) by nia.
  replace ((q - ci * 2 ^ 23) * m) with (d + r * 2 ^ 23) by nia.
  replace (ci * (2 ^ 23 - (q - ci * 2 ^ 23)) * m) with (- (ci * d) + ci * (m - r) * 2 ^ 23) by nia.
  rewrite !Z.div_add by lia. rewrite (Z.add_comm _ (_ * r)), (Z.add_comm _ r), (Z.add_comm _ (ci * (m - r))). reflexivity.
Qed.
End Groups.

Lemma in_indices k n : In k (indices n) <-> 0 <= k < n.
Proof.
  unfold indices. rewrite in_map_iff. split.
  - intros (x & <- & H). apply in_seq in H. lia.
  - intros H. exists (Z.to_nat k). split; [lia|]. apply in_seq. lia.
Qed.
Lemma times2_map (f : Z -> Z) (s k : Z) (a b : nat) :
  times2 k (map (fun j => (f j, j + s)) (map Z.of_nat (seq a b))) =
  if (s + Z.of_nat a <=? k) && (k <? s + Z.of_nat a + Z.of_nat b) then 1%nat else 0%nat.
Proof.
  revert a. induction b as [|b IH]; intros a; cbn [seq map].
  - cbn. destruct ((s + Z.of_nat a <=? k) && (k <? s + Z.of_nat a + 0)) eqn:E; [lia|reflexivity].
  - unfold times2 in *. cbn [filter]. cbn [snd]. specialize (IH (S a)).
    destruct (Z.of_nat a + s =? k) eqn:E; cbn [length]; rewrite IH;
      destruct ((s + Z.of_nat (S a) <=? k) && (k <? s + Z.of_nat (S a) + Z.of_nat b)) eqn:E1;
      destruct ((s + Z.of_nat a <=? k) && (k <? s + Z.of_nat a + Z.of_nat (S b))) eqn:E2; try reflexivity; lia.
Qed.
Lemma times2_app k a b : times2 k (a ++ b) = (times2 k a + times2 k b)%nat.
Proof. unfold times2. now rewrite filter_app, app_length. Qed.
Lemma times2_2b n m k ci g1 s1 g2 : groups n m = (ci, g1, s1, g2) -> 0 <= g1 -> 0 <= g2 -> 0 <= k ->
  times2 k (pairs_2b n m) = if k <? g1 + g2 then 1%nat else 0%nat.
Proof.
  intros E H1 H2 Hk. unfold pairs_2b. rewrite E, times2_app. unfold indices.
  assert (T1 := times2_map (fun j => floor_quot j (ci + 1)) 0 k 0 (Z.to_nat g1)).
  assert (T2 := times2_map (fun j => floor_quot j ci + s1) g1 k 0 (Z.to_nat g2)). cbv beta in T1, T2.
  rewrite T2. erewrite map_ext with (g := fun j => (floor_quot j (ci + 1), j + 0)) by (intros; now rewrite Z.add_0_r).
  rewrite T1. cbn [Z.of_nat].
  destruct ((0 + 0 <=? k) && (k <? 0 + 0 + Z.of_nat (Z.to_nat g1))) eqn:A;
    destruct ((g1 + 0 <=? k) && (k <? g1 + 0 + Z.of_nat (Z.to_nat g2))) eqn:B; destruct (k <? g1 + g2) eqn:C; try reflexivity; lia.
Qed.

(** all indices are inside the lists, for every two lengths *)
Theorem C50_inside_2b : forall n m p, 0 < m < n -> n < 2 ^ 23 -> In p (pairs_2b n m) -> inside m n p.
Proof.
  intros n m p Hm Hn. unfold pairs_2b. rewrite (groups_eq n m Hm Hn).
  assert (G := g_range n m Hm Hn). assert (Gd := g_d n m Hm Hn). assert (Gc := g_crm n m Hm Hn).
  set (d := quot23 n m * m - n * 2 ^ 23) in *. set (ci := n / m) in *. set (r := n mod m) in *.
  set (cr := quot23 n m - ci * 2 ^ 23) in *. destruct G as (C1 & Hr & E & Hcr).
  set (g1 := (ci + 1) * r + _). set (s1 := r + _). set (g2 := ci * (m - r) + _).
  change (2 ^ 23) with 8388608 in *.
  assert (G1 : g1 * 8388608 <= (ci + 1) * (cr * m)).
  { unfold g1. assert (X := Z.mul_div_le ((ci + 1) * d) 8388608 ltac:(lia)). nia. }
  assert (G1' : (ci + 1) * (cr * m) < (g1 + 1) * 8388608).
  { unfold g1. assert (X := Z.mul_succ_div_gt ((ci + 1) * d) 8388608 ltac:(lia)). nia. }
  assert (S1 : s1 * 8388608 <= cr * m).
  { unfold s1. assert (X := Z.mul_div_le d 8388608 ltac:(lia)). nia. }
  assert (S1' : cr * m < (s1 + 1) * 8388608).
  { unfold s1. assert (X := Z.mul_succ_div_gt d 8388608 ltac:(lia)). nia. }
  assert (G2 : g2 * 8388608 <= ci * ((8388608 - cr) * m)).
  { unfold g2. assert (X := Z.mul_div_le (- (ci * d)) 8388608 ltac:(lia)). nia. }
  assert (G2' : ci * ((8388608 - cr) * m) < (g2 + 1) * 8388608).
  { unfold g2. assert (X := Z.mul_succ_div_gt (- (ci * d)) 8388608 ltac:(lia)). nia. }
  assert (P1 : 0 <= cr * m) by nia. assert (P2 : 0 <= (8388608 - cr) * m) by nia.
  assert (0 <= g1) by nia. assert (0 <= s1) by lia. assert (0 <= g2) by nia.
  assert (T : (g1 + g2) * 8388608 <= n * 8388608 + d) by nia.
  assert (g1 + g2 <= n) by lia.
  assert (Cn : ci <= n) by (apply Z.div_le_upper_bound; nia).
  clearbody g1 s1 g2 d cr.
  rewrite in_app_iff, !in_map_iff. unfold inside. intros [(k & <- & K)|(k & <- & K)]; apply in_indices in K; cbn [fst snd].
  - rewrite floor_quot_eq by (change (2 ^ 23) with 8388608; lia). split; [|lia]. split; [apply Z.div_pos; lia|].
    apply Z.div_lt_upper_bound; [lia|]. assert (k * 8388608 < (ci + 1) * (cr * m)) by lia.
    assert (cr * m <= 8388608 * m) by nia. nia.
  - rewrite floor_quot_eq by (change (2 ^ 23) with 8388608; lia). split; [|lia]. 
    assert (0 <= k / ci) by (apply Z.div_pos; lia). split; [lia|].
    assert (X := Z.mul_div_le k ci ltac:(lia)). set (t := k / ci) in *.
    assert (Y : ci * (t * 8388608) < ci * ((8388608 - cr) * m)) by nia.
    apply Z.mul_lt_mono_pos_l in Y; lia.
Qed.
(** the quotient is exact (for instance, it is an integer or the shorter length is a power of two): everything is paired once *)
Theorem C50_exact_2b : forall n m k, 0 < m < n -> n < 2 ^ 23 -> quot23 n m * m = n * 2 ^ 23 -> 0 <= k < n ->
  times2 k (pairs_2b n m) = 1%nat.
Proof.
  intros n m k Hm Hn Hd Hk. assert (E := groups_eq n m Hm Hn). destruct (g_range n m Hm Hn) as (C1 & Hr & En & _).
  rewrite Hd, Z.sub_diag, !Z.mul_0_r, Z.opp_0, Z.div_0_l in E by lia.
  rewrite (times2_2b _ _ k _ _ _ _ E) by nia. destruct (k <? _) eqn:F; [reflexivity|]. nia.
Qed.
(** otherwise the last particle of the longer list is left out, the others are paired once *)
Theorem C50_inexact_2b : forall n m k, 0 < m < n -> n < 2 ^ 23 -> (n / m + 1) * n < 2 ^ 24 ->
  quot23 n m * m <> n * 2 ^ 23 -> 0 <= k < n ->
  times2 k (pairs_2b n m) = if k =? n - 1 then 0%nat else 1%nat.
Proof.
  intros n m k Hm Hn Hb Hd Hk. assert (E := groups_eq n m Hm Hn). destruct (g_range n m Hm Hn) as (C1 & Hr & En & _).
  assert (Gd := g_d n m Hm Hn). assert (Ge := g_exact n m Hm Hn).
  set (d := quot23 n m * m - n * 2 ^ 23) in *. assert (Nd : d <> 0) by (unfold d; lia).
  assert (Nr : n mod m <> 0) by auto. set (ci := n / m) in *. set (r := n mod m) in *. clearbody d.
  change (2 ^ 23) with 8388608 in *. change (2 ^ 24) with 16777216 in *.
  assert (A1 : (ci + 1) * Z.abs d < 8388608) by nia. assert (A2 : 0 < ci * Z.abs d < 8388608) by nia.
  assert (X1 : (ci + 1) * d / 8388608 = if 0 <? d then 0 else -1).
  { destruct (0 <? d) eqn:F; symmetry; [apply Z.div_unique with ((ci + 1) * d)|apply Z.div_unique with ((ci + 1) * d + 8388608)]; nia. }
  assert (X2 : - (ci * d) / 8388608 = if 0 <? d then -1 else 0).
  { destruct (0 <? d) eqn:F; symmetry; [apply Z.div_unique with (- (ci * d) + 8388608)|apply Z.div_unique with (- (ci * d))]; nia. }
  assert (K1 : 0 < (ci + 1) * r) by (apply Z.mul_pos_pos; lia). assert (K2 : 0 < ci * (m - r)) by (apply Z.mul_pos_pos; lia).
  clear Gd A1 A2 Ge Hb. rewrite X1, X2 in E. clear X1 X2. rewrite (times2_2b _ _ k _ _ _ _ E); [| | |lia].
  - destruct (0 <? d); destruct (k <? _) eqn:F; destruct (k =? n - 1) eqn:G; try reflexivity; lia.
  - destruct (0 <? d); lia.
  - destruct (0 <? d); lia.
Qed.

(** ** In terms of electrons and ions *)
Theorem C50_inside : forall els ions p, 0 <= els < 2 ^ 23 -> 0 <= ions < 2 ^ 23 ->
  In p (pairs_el_ion els ions) -> inside els ions p.
Proof.
  intros els ions p He Hi. unfold pairs_el_ion. destruct (ions =? els) eqn:E1.
  - rewrite in_map_iff. intros (k & <- & K). apply in_indices in K. unfold inside. cbn. lia.
  - destruct (els <? ions) eqn:E2.
    + destruct (0 <? els) eqn:E3; [|intros []]. intros H. apply C50_inside_2b; [lia|lia|exact H].
    + destruct (0 <? ions) eqn:E3; [|intros []]. rewrite in_map_iff. intros ([a b] & <- & H).
      apply C50_inside_2b in H; [|lia|lia]. unfold inside in *. cbn in *. lia.
Qed.
Lemma times1_swap k l : times1 k (map (fun p : Z * Z => (snd p, fst p)) l) = times2 k l.
Proof.
  unfold times1, times2. induction l as [|[a b] l IH]; [reflexivity|]. cbn [map filter fst snd].
  destruct (b =? k); cbn [length]; now rewrite IH.
Qed.
Lemma times12_diag k l : times1 k (map (fun j : Z => (j, j)) l) = times2 k (map (fun j : Z => (j, j)) l).
Proof.
  unfold times1, times2. induction l as [|a l IH]; [reflexivity|]. cbn [map filter fst snd].
  destruct (a =? k); cbn [length]; now rewrite IH.
Qed.
(** the number of pairs each particle of the longer list is in *)
Theorem C50_times_partial : forall els ions k, 0 < els < 2 ^ 23 -> 0 < ions < 2 ^ 23 ->
  (els = ions -> 0 <= k < els -> times1 k (pairs_el_ion els ions) = 1%nat /\ times2 k (pairs_el_ion els ions) = 1%nat) /\
  (els < ions -> 0 <= k < ions -> quot23 ions els * els = ions * 2 ^ 23 -> times2 k (pairs_el_ion els ions) = 1%nat) /\
  (ions < els -> 0 <= k < els -> quot23 els ions * ions = els * 2 ^ 23 -> times1 k (pairs_el_ion els ions) = 1%nat).
Proof.
  intros els ions k He Hi. unfold pairs_el_ion. split; [|split].
  - intros <- Hk. rewrite Z.eqb_refl. assert (T := times2_map (fun j => j) 0 k 0 (Z.to_nat els)). unfold indices.
    assert (M : map (fun j => (j, j)) (map Z.of_nat (seq 0 (Z.to_nat els))) = map (fun j => (j, j + 0)) (map Z.of_nat (seq 0 (Z.to_nat els)))).
    { apply map_ext. intros. now rewrite Z.add_0_r. }
    assert (V : times2 k (map (fun j => (j, j)) (map Z.of_nat (seq 0 (Z.to_nat els)))) = 1%nat).
    { rewrite M, T. cbn [Z.of_nat]. destruct ((0 + 0 <=? k) && (k <? 0 + 0 + Z.of_nat (Z.to_nat els))) eqn:F; [reflexivity|lia]. }
    split; [|exact V]. rewrite <- V. apply times12_diag.
  - intros H Hk Q. replace (ions =? els) with false by lia. replace (els <? ions) with true by lia. replace (0 <? els) with true by lia.
    apply C50_exact_2b; lia.
  - intros H Hk Q. replace (ions =? els) with false by lia. replace (els <? ions) with false by lia. replace (0 <? ions) with true by lia.
    rewrite times1_swap. apply C50_exact_2b; lia.
Qed.
(** the quotient is exact when the longer length is a multiple of the shorter one *)
Theorem C50_multiple : forall n m, 0 < m <= n -> n < 2 ^ 23 -> n mod m = 0 -> quot23 n m * m = n * 2 ^ 23.
Proof.
  intros n m Hm Hn Z0. destruct (quot23_err n m Hm) as [_ R]; [change (2 ^ 24) with 16777216; change (2 ^ 23) with 8388608 in Hn; lia|].
  rewrite (R Z0). assert (D := Z.div_mod n m ltac:(lia)). rewrite Z0 in D. nia.
Qed.
(** 7 ions and 3 electrons: the last ion is left out, and so is the last electron *)
Theorem C50_refuted : exists els ions k, 0 < els < ions /\ 0 <= k < ions /\ times2 k (pairs_el_ion els ions) = 0%nat /\
  times1 (els - 1) (pairs_el_ion els ions) = 0%nat.
Proof. exists 3, 7, 6. vm_compute. repeat split; congruence. Qed.
(** not a rare case: every longer list whose quotient is not representable loses its last particle *)
Theorem C50_refuted_always : forall els ions, 0 < els < ions -> ions < 2 ^ 23 -> (ions / els + 1) * ions < 2 ^ 24 ->
  quot23 ions els * els <> ions * 2 ^ 23 ->
  times2 (ions - 1) (pairs_el_ion els ions) = 0%nat /\ times1 (ions - 1) (pairs_el_ion ions els) = 0%nat.
Proof.
  intros els ions He Hi Hb Hq. unfold pairs_el_ion. 
  replace (ions =? els) with false by lia. replace (els <? ions) with true by lia. replace (0 <? els) with true by lia.
  replace (els =? ions) with false by lia. replace (ions <? els) with false by lia. rewrite times1_swap.
  assert (X := C50_inexact_2b ions els (ions - 1) He Hi Hb Hq ltac:(lia)). rewrite Z.eqb_refl in X. auto.
Qed.
Example C50_ex : pairs_el_ion 2 5 = [(0, 0); (0, 1); (0, 2); (1, 3); (1, 4)] /\ quot23 5 2 * 2 = 5 * 2 ^ 23 /\
  pairs_el_ion 3 7 = [(0, 0); (0, 1); (0, 2); (0, 3); (1, 4); (1, 5)] /\ quot23 7 3 * 3 <> 7 * 2 ^ 23.
Proof. split; [reflexivity|split; [reflexivity|split; [reflexivity|discriminate]]]. Qed.
(** test of the model against the IEEE formats: all pairs of lengths up to 40, and some larger ones *)
Definition agree (n m : Z) : bool :=
  let eq := fun a b : Z * Z * Z * Z => let '(a1, a2, a3, a4) := a in let '(b1, b2, b3, b4) := b in
    (a1 =? b1) && (a2 =? b2) && (a3 =? b3) && (a4 =? b4) in
  eq (groups n m) (groups_ieee true n m) && eq (groups n m) (groups_ieee false n m).
Example groups_test :
  forallb (fun n => forallb (fun m => if (0 <? m) && (m <? n) then agree n m else true) (indices 41)) (indices 41) = true /\
  forallb (fun m => agree 8388607 (m + 1) && agree 1000003 (m + 1) && (floor_quot m 37 =? floor_quot_ieee m 37)) (indices 200) = true /\
  forallb (fun m => (floor_quot m 7 =? floor_quot_ieee m 7) && (floor_quot 3 (m + 1) =? floor_quot_ieee 3 (m + 1))) (indices 200) = true.
Proof. vm_compute. repeat split. Qed.

Print Assumptions C49_times.
Print Assumptions C49_inside.
Print Assumptions C49_alone.
Print Assumptions C50_inside.
Print Assumptions C50_times_partial.
Print Assumptions C50_multiple.
Print Assumptions C50_refuted.
Print Assumptions C50_refuted_always.
