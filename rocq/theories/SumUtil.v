(** Finite sums of reals over index ranges 0 <= i < n. *)
From Coq Require Import ZArith Reals Lra Lia.
Open Scope R_scope.

Fixpoint sumn (n : nat) (f : Z -> R) : R := match n with O => 0 | S m => sumn m f + f (Z.of_nat m) end.
Definition sumz (n : Z) (f : Z -> R) : R := sumn (Z.to_nat n) f.
Definition sum2 (n m : Z) (f : Z -> Z -> R) : R := sumz n (fun i => sumz m (f i)).

Lemma sumn_ext n f g : (forall i, (0 <= i < Z.of_nat n)%Z -> f i = g i) -> sumn n f = sumn n g.
Proof. induction n as [|n IH]; intros H; [reflexivity|]. cbn [sumn]. rewrite IH by (intros; apply H; lia). rewrite H by lia. reflexivity. Qed.
Lemma sumz_ext n f g : (forall i, (0 <= i < n)%Z -> f i = g i) -> sumz n f = sumz n g.
Proof. intros H. apply sumn_ext. intros i Hi. apply H. lia. Qed.
Lemma sumz_0 n f : (n <= 0)%Z -> sumz n f = 0.
Proof. intros H. unfold sumz. replace (Z.to_nat n) with O by lia. reflexivity. Qed.
Lemma sumz_succ n f : (0 <= n)%Z -> sumz (n + 1) f = sumz n f + f n.
Proof. intros H. unfold sumz. replace (Z.to_nat (n + 1)) with (S (Z.to_nat n)) by lia. cbn [sumn]. rewrite Z2Nat.id by exact H. reflexivity. Qed.
Lemma sumz_plus n f g : sumz n (fun i => f i + g i) = sumz n f + sumz n g.
Proof. unfold sumz. induction (Z.to_nat n) as [|k IH]; cbn [sumn]; [|rewrite IH]; lra. Qed.
Lemma sumz_scal n c f : sumz n (fun i => c * f i) = c * sumz n f.
Proof. unfold sumz. induction (Z.to_nat n) as [|k IH]; cbn [sumn]; [|rewrite IH]; lra. Qed.
Lemma sumz_minus n f g : sumz n (fun i => f i - g i) = sumz n f - sumz n g.
Proof. unfold sumz. induction (Z.to_nat n) as [|k IH]; cbn [sumn]; [|rewrite IH]; lra. Qed.
Lemma sumz_zero n f : (forall i, (0 <= i < n)%Z -> f i = 0) -> sumz n f = 0.
Proof.
  intros H. rewrite (sumz_ext n f (fun _ => 0 * 0)) by (intros; rewrite H by assumption; ring).
  rewrite sumz_scal. ring.
Qed.
Lemma sumz_le n f g : (forall i, (0 <= i < n)%Z -> f i <= g i) -> sumz n f <= sumz n g.
Proof.
  unfold sumz. intros H. assert (K : forall m : nat, (m <= Z.to_nat n)%nat -> sumn m f <= sumn m g).
  { induction m as [|m IH]; intros L; cbn [sumn]; [lra|]. assert (f (Z.of_nat m) <= g (Z.of_nat m)) by (apply H; lia).
    specialize (IH ltac:(lia)). lra. }
  apply K. lia.
Qed.
Lemma sumz_nonneg n f : (forall i, (0 <= i < n)%Z -> 0 <= f i) -> 0 <= sumz n f.
Proof. intros H. rewrite <- (sumz_zero n (fun _ => 0)) by reflexivity. now apply sumz_le. Qed.
Lemma sumz_telescope n F : (0 <= n)%Z -> sumz n (fun i => F (i + 1)%Z - F i) = F n - F 0%Z.
Proof.
  intros H. rewrite <- (Z2Nat.id n) by exact H. generalize (Z.to_nat n). clear n H. intros n. unfold sumz. rewrite Nat2Z.id.
  induction n as [|n IH]; cbn [sumn]; [cbn; lra|]. rewrite IH. rewrite Nat2Z.inj_succ. unfold Z.succ. lra.
Qed.
Lemma sumz_member n f i : (0 <= i < n)%Z -> (forall j, (0 <= j < n)%Z -> 0 <= f j) -> f i <= sumz n f.
Proof.
  intros Hi H. assert (N : (0 <= n)%Z) by lia. rewrite <- (Z2Nat.id n N) in Hi, H |- *. generalize dependent (Z.to_nat n). clear n N. intros n Hi H.
  unfold sumz. rewrite Nat2Z.id. induction n as [|n IH]; [lia|]. cbn [sumn].
  destruct (Z.eq_dec i (Z.of_nat n)) as [->|Ne].
  - assert (0 <= sumn n f). { change (sumn n f) with (sumn n f). rewrite <- (Nat2Z.id n). apply sumz_nonneg. intros j Hj. apply H. lia. } lra.
  - assert (f i <= sumn n f) by (apply IH; [lia|intros; apply H; lia]). assert (0 <= f (Z.of_nat n)) by (apply H; lia). lra.
Qed.
(** a single non-zero term *)
Lemma sumz_single n f i : (0 <= i < n)%Z -> (forall j, (0 <= j < n)%Z -> j <> i -> f j = 0) -> sumz n f = f i.
Proof.
  intros Hi H. assert (N : (0 <= n)%Z) by lia. rewrite <- (Z2Nat.id n N) in Hi, H |- *. generalize dependent (Z.to_nat n). clear n N. intros n Hi H.
  unfold sumz. rewrite Nat2Z.id. induction n as [|n IH]; [lia|]. cbn [sumn].
  destruct (Z.eq_dec i (Z.of_nat n)) as [->|Ne].
  - replace (sumn n f) with 0; [lra|]. symmetry. rewrite <- (Nat2Z.id n). apply sumz_zero. intros j Hj. apply H; lia.
  - rewrite IH by (try lia; intros; apply H; lia). rewrite (H (Z.of_nat n)) by lia. lra.
Qed.
Lemma sum2_ext n m f g : (forall i k, (0 <= i < n)%Z -> (0 <= k < m)%Z -> f i k = g i k) -> sum2 n m f = sum2 n m g.
Proof. intros H. apply sumz_ext. intros i Hi. apply sumz_ext. intros k Hk. now apply H. Qed.
Lemma sum2_plus n m f g : sum2 n m (fun i k => f i k + g i k) = sum2 n m f + sum2 n m g.
Proof. unfold sum2. rewrite <- sumz_plus. apply sumz_ext. intros. apply sumz_plus. Qed.
Lemma sum2_minus n m f g : sum2 n m (fun i k => f i k - g i k) = sum2 n m f - sum2 n m g.
Proof. unfold sum2. rewrite <- sumz_minus. apply sumz_ext. intros. apply sumz_minus. Qed.
Lemma sum2_scal n m c f : sum2 n m (fun i k => c * f i k) = c * sum2 n m f.
Proof. unfold sum2. rewrite <- sumz_scal. apply sumz_ext. intros. apply sumz_scal. Qed.
Lemma sum2_le n m f g : (forall i k, (0 <= i < n)%Z -> (0 <= k < m)%Z -> f i k <= g i k) -> sum2 n m f <= sum2 n m g.
Proof. intros H. apply sumz_le. intros i Hi. apply sumz_le. intros k Hk. now apply H. Qed.
Lemma sum2_nonneg n m f : (forall i k, (0 <= i < n)%Z -> (0 <= k < m)%Z -> 0 <= f i k) -> 0 <= sum2 n m f.
Proof. intros H. apply sumz_nonneg. intros i Hi. apply sumz_nonneg. intros k Hk. now apply H. Qed.
Lemma sum2_zero n m f : (forall i k, (0 <= i < n)%Z -> (0 <= k < m)%Z -> f i k = 0) -> sum2 n m f = 0.
Proof. intros H. apply sumz_zero. intros i Hi. apply sumz_zero. intros k Hk. now apply H. Qed.
Lemma sumn_swap a m f : sumn a (fun i => sumz m (f i)) = sumz m (fun k => sumn a (fun i => f i k)).
Proof. induction a as [|a IH]; cbn [sumn]; [symmetry; now apply sumz_zero|]. rewrite IH, <- sumz_plus. reflexivity. Qed.
Lemma sum2_swap n m f : sum2 n m f = sum2 m n (fun k i => f i k).
Proof. unfold sum2. unfold sumz at 1. rewrite sumn_swap. reflexivity. Qed.
Lemma sum2_member n m f i k : (0 <= i < n)%Z -> (0 <= k < m)%Z -> (forall i k, (0 <= i < n)%Z -> (0 <= k < m)%Z -> 0 <= f i k) -> f i k <= sum2 n m f.
Proof.
  intros Hi Hk H. apply Rle_trans with (sumz m (f i)).
  - apply (sumz_member m (f i)); [exact Hk|]. intros; now apply H.
  - apply (sumz_member n (fun i => sumz m (f i))); [exact Hi|]. intros j Hj. apply sumz_nonneg. intros; now apply H.
Qed.
Lemma sum2_single n m f i k : (0 <= i < n)%Z -> (0 <= k < m)%Z ->
  (forall a b, (0 <= a < n)%Z -> (0 <= b < m)%Z -> (a <> i \/ b <> k) -> f a b = 0) -> sum2 n m f = f i k.
Proof.
  intros Hi Hk H. unfold sum2. rewrite (sumz_single n _ i Hi).
  - apply (sumz_single m _ k Hk). intros j Hj N. apply H; auto.
  - intros j Hj N. apply sumz_zero. intros b Hb. apply H; auto.
Qed.
(** a large sum has a large term *)
Lemma sum2_large n m f c : (0 <= n)%Z -> (0 <= m)%Z -> 0 <= c -> IZR n * IZR m * c < sum2 n m f -> exists i k, (0 <= i < n)%Z /\ (0 <= k < m)%Z /\ c < f i k.
Proof.
  intros Hn Hm Hc L.
  assert (K : forall (q : nat) g b, IZR (Z.of_nat q) * b < sumn q g -> exists i, (0 <= i < Z.of_nat q)%Z /\ b < g i).
  { induction q as [|q IH]; intros g b; cbn [sumn]; [cbn; lra|]. intros H. destruct (Rlt_le_dec b (g (Z.of_nat q))) as [G|G].
    - exists (Z.of_nat q). split; [lia|exact G].
    - rewrite Nat2Z.inj_succ, succ_IZR in H. destruct (IH g b ltac:(lra)) as (i & Hi & Gi). exists i. split; [lia|exact Gi]. }
  unfold sum2 in L. unfold sumz at 1 in L. rewrite <- (Z2Nat.id n Hn) in L at 1.
  destruct (K (Z.to_nat n) (fun i => sumz m (f i)) (IZR m * c) ltac:(lra)) as (i & Hi & Gi).
  unfold sumz in Gi. rewrite <- (Z2Nat.id m Hm) in Gi at 1. destruct (K (Z.to_nat m) (f i) c Gi) as (k & Hk & Gk).
  exists i, k. repeat split; try lia. exact Gk.
Qed.
