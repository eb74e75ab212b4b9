From Verif Require Import Base DecompModel.

(** Sizes for which the 64-bit products do not wrap. *)
Definition sane (amount n base : Z) : Prop :=
  0 <= amount /\ 1 <= n < 2 ^ 32 /\ 0 <= base /\ amount * n < 2 ^ 64 /\ amount + base < 2 ^ 64.

Lemma bound_eq amount n base i : sane amount n base -> 0 <= i <= n ->
  bound amount n base i = amount * i / n + base.
Proof.
  intros (Ha & Hn & Hb & Hp & Hs) Hi. unfold bound.
  assert (Hm : 0 <= amount * i <= amount * n) by nia.
  rewrite (u64_small (amount * i)) by lia.
  assert (H1 : 0 <= amount * i / n) by (apply Z.div_pos; lia).
  assert (H2 : amount * i / n <= amount).
  { apply Z.div_le_upper_bound; lia. }
  apply u64_small. lia.
Qed.

Lemma bound_0 amount n base : sane amount n base -> bound amount n base 0 = base.
Proof.
  intros H. pose proof H as (? & ? & ? & ? & ?). rewrite bound_eq by (auto; lia).
  now rewrite Z.mul_0_r, Z.div_0_l by lia.
Qed.
Lemma bound_n amount n base : sane amount n base -> bound amount n base n = base + amount.
Proof.
  intros H. pose proof H as (? & ? & ? & ? & ?). rewrite bound_eq by (auto; lia).
  rewrite Z.div_mul by lia. lia.
Qed.
Lemma bound_mono amount n base i j : sane amount n base -> 0 <= i <= j -> j <= n ->
  bound amount n base i <= bound amount n base j.
Proof.
  intros H Hij Hj. pose proof H as (? & ? & ? & ? & ?). rewrite !bound_eq by (auto; lia).
  apply Z.add_le_mono_r. apply Z.div_le_mono; nia.
Qed.

Lemma bound_owner amount n base c : sane amount n base -> base <= c < base + amount ->
  exists i, 0 <= i < n /\ bound amount n base i <= c < bound amount n base (i + 1).
Proof.
  intros H Hc. pose proof H as (? & ? & ? & ? & ?).
  assert (G : forall k : nat, Z.of_nat k <= n -> c < bound amount n base (Z.of_nat k) ->
    exists i, 0 <= i < n /\ bound amount n base i <= c < bound amount n base (i + 1)).
  { induction k as [|k IH]; intros Hk Hlt.
    - rewrite bound_0 in Hlt by auto. lia.
    - destruct (Z_lt_dec c (bound amount n base (Z.of_nat k))) as [L|L].
      + apply IH; [lia|exact L].
      + exists (Z.of_nat k). split; [lia|]. split; [lia|].
        replace (Z.of_nat k + 1) with (Z.of_nat (S k)) by lia. exact Hlt. }
  apply (G (Z.to_nat n)); [lia|]. rewrite Z2Nat.id by lia. rewrite bound_n by auto. lia.
Qed.

Lemma bound_owner_unique amount n base c i j : sane amount n base -> 0 <= i < n -> 0 <= j < n ->
  bound amount n base i <= c < bound amount n base (i + 1) ->
  bound amount n base j <= c < bound amount n base (j + 1) -> i = j.
Proof.
  intros H Hi Hj Bi Bj. destruct (Z.lt_trichotomy i j) as [L|[L|L]]; [|exact L|].
  - pose proof (bound_mono amount n base (i + 1) j H ltac:(lia) ltac:(lia)). lia.
  - pose proof (bound_mono amount n base (j + 1) i H ltac:(lia) ltac:(lia)). lia.
Qed.

Lemma bound_range amount n base i : sane amount n base -> 0 <= i <= n ->
  base <= bound amount n base i <= base + amount.
Proof.
  intros H Hi. pose proof (bound_mono amount n base 0 i H ltac:(lia) ltac:(lia)).
  pose proof (bound_mono amount n base i n H ltac:(lia) ltac:(lia)).
  rewrite bound_0 in * by auto. rewrite bound_n in * by auto. lia.
Qed.

Lemma local_amount_eq amount n base i : sane amount n base -> 0 <= i < n ->
  local_amount amount n base i = bound amount n base (i + 1) - bound amount n base i.
Proof.
  intros H Hi. pose proof H as (? & ? & ? & ? & ?). unfold local_amount. apply u64_small.
  pose proof (bound_mono amount n base i (i + 1) H ltac:(lia) ltac:(lia)).
  pose proof (bound_range amount n base i H ltac:(lia)).
  pose proof (bound_range amount n base (i + 1) H ltac:(lia)). lia.
Qed.

(** divisible: every bound is a multiple of the common size *)
Lemma bound_div amount n base i : sane amount n base -> (n | amount) -> 0 <= i <= n ->
  bound amount n base i = amount / n * i + base.
Proof.
  intros H [q ->] Hi. pose proof H as (? & ? & ? & ? & ?). rewrite bound_eq by (auto; lia).
  rewrite Z.div_mul by lia. replace (q * n * i) with (q * i * n) by ring. now rewrite Z.div_mul by lia.
Qed.
Lemma local_div amount n base i : sane amount n base -> (n | amount) -> 0 <= i < n ->
  local_amount amount n base i = amount / n.
Proof.
  intros H D Hi. rewrite local_amount_eq by auto. rewrite !bound_div by (auto; lia). ring.
Qed.

(** if all neighbouring sizes agree then the number of domains divides *)
Lemma equal_sizes_div amount n base : sane amount n base ->
  (forall i, 0 <= i -> i + 1 < n -> local_amount amount n base i = local_amount amount n base (i + 1)) ->
  (n | amount).
Proof.
  intros H He. pose proof H as (? & ? & ? & ? & ?).
  assert (Hs : forall k : nat, Z.of_nat k < n -> local_amount amount n base (Z.of_nat k) = local_amount amount n base 0).
  { induction k as [|k IH]; intros Hk; [reflexivity|].
    rewrite <- IH by lia. symmetry. replace (Z.of_nat (S k)) with (Z.of_nat k + 1) by lia. apply He; lia. }
  assert (Hb : forall k : nat, Z.of_nat k <= n ->
     bound amount n base (Z.of_nat k) = base + Z.of_nat k * local_amount amount n base 0).
  { induction k as [|k IH]; intros Hk.
    - rewrite bound_0 by auto. lia.
    - replace (Z.of_nat (S k)) with (Z.of_nat k + 1) by lia.
      assert (E := Hs k ltac:(lia)). rewrite local_amount_eq in E by (auto; lia). rewrite IH in E by lia. lia. }
  specialize (Hb (Z.to_nat n) ltac:(lia)). rewrite Z2Nat.id in Hb by lia. rewrite bound_n in Hb by auto.
  exists (local_amount amount n base 0). lia.
Qed.

(** the collector's index arithmetic finds the owner when the count divides *)
Lemma dst_index_owner amount n base c i k : sane amount n base -> (n | amount) -> 0 < amount ->
  0 <= i < n -> base <= c < base + amount ->
  bound amount n base k <= c < bound amount n base (k + 1) -> 0 <= k < n ->
  dst_index (local_amount amount n base i) base c = Ok k.
Proof.
  intros H D Hpos Hi Hc Hk Hkn. pose proof H as (? & ? & ? & ? & ?).
  rewrite local_div by auto. unfold dst_index.
  assert (Hq : 0 < amount / n).
  { destruct D as [q Hq']. subst amount. rewrite Z.div_mul by lia. nia. }
  replace (amount / n =? 0) with false by lia.
  rewrite !bound_div in Hk by (auto; lia). f_equal.
  rewrite (u64_small (c - base)) by lia.
  assert (E : (c - base) / (amount / n) = k).
  { symmetry. apply Z.div_unique with (r := c - base - amount / n * k); lia. }
  rewrite E. apply u32_small. lia.
Qed.

Lemma exists_differing_neighbours amount n base : sane amount n base -> ~ (n | amount) ->
  exists i, 0 <= i /\ i + 1 < n /\ local_amount amount n base i <> local_amount amount n base (i + 1).
Proof.
  intros H D. pose proof H as (? & ? & ? & ? & ?).
  assert (G : forall k : nat, Z.of_nat k <= n - 1 ->
    (exists i, 0 <= i /\ i + 1 < n /\ local_amount amount n base i <> local_amount amount n base (i + 1)) \/
    (forall i, 0 <= i -> i < Z.of_nat k -> local_amount amount n base i = local_amount amount n base (i + 1))).
  { induction k as [|k IH]; intros Hk; [right; lia|].
    destruct IH as [E|E]; [lia|now left|].
    destruct (Z.eq_dec (local_amount amount n base (Z.of_nat k)) (local_amount amount n base (Z.of_nat k + 1))) as [Q|Q].
    - right. intros i Hi Hlt. destruct (Z.eq_dec i (Z.of_nat k)) as [->|]; [exact Q|apply E; lia].
    - left. exists (Z.of_nat k). split; [lia|]. split; [lia|exact Q]. }
  destruct (G (Z.to_nat (n - 1)) ltac:(lia)) as [E|E]; [exact E|].
  exfalso. apply D. apply (equal_sizes_div amount n base H). intros i Hi Hl. apply E; lia.
Qed.
