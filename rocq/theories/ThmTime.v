(** Theorems about the step number: property C19. *)
From Verif Require Import Base OutModel TimeModel.
From Coq Require Import Reals Floats.SpecFloat Lra.
Open Scope R_scope.

Lemma ceilR_spec x k : IZR k - 1 < x <= IZR k -> ceilR x = k.
Proof.
  intros H. unfold ceilR. assert (E : Int_part (- x) = (- k)%Z); [|rewrite E; lia].
  destruct (base_Int_part (- x)) as [A B].
  assert (L1 : IZR (Int_part (- x)) < IZR (- k + 1)) by (rewrite plus_IZR, opp_IZR; lra).
  assert (L2 : IZR (- k - 1) < IZR (Int_part (- x))) by (rewrite minus_IZR, opp_IZR; lra).
  apply lt_IZR in L1. apply lt_IZR in L2. lia.
Qed.
Lemma ceilR_bounds x : IZR (ceilR x) - 1 < x <= IZR (ceilR x).
Proof. unfold ceilR. destruct (base_Int_part (- x)) as [A B]. rewrite opp_IZR. lra. Qed.

(** ** exact when the multiples of the step are representable *)
Theorem C19_exact_partial : forall (rnd : R -> R) dt n, dt <> 0 ->
  (forall k, (k <= n)%nat -> rnd (INR k * dt) = INR k * dt) -> rnd (INR n) = INR n ->
  stepR rnd dt n = Z.of_nat n.
Proof.
  intros rnd dt n Hdt Hrep Hn.
  assert (E : forall k, (k <= n)%nat -> timeR rnd dt k = INR k * dt).
  { induction k as [|k IH]; intros Hk; [cbn [timeR INR]; ring|]. cbn [timeR]. rewrite IH by lia.
    replace (INR k * dt + dt) with (INR (S k) * dt) by (rewrite S_INR; ring). now apply Hrep. }
  unfold stepR. rewrite E by lia. replace (INR n * dt / dt) with (INR n) by (field; auto).
  rewrite Hn, INR_IZR_INZ. apply ceilR_spec. lra.
Qed.

(** ** otherwise the drift is at most one step for a very long time *)
Section Drift.
Variable rnd : R -> R.
Variables eps dt : R.
Hypothesis Heps : 0 <= eps < 1.
Hypothesis Hdt : 0 < dt.
Hypothesis Hrnd : forall x, 0 <= x -> (1 - eps) * x <= rnd x <= (1 + eps) * x.

Lemma time_bounds n : INR n * dt * (1 - eps) ^ n <= timeR rnd dt n <= INR n * dt * (1 + eps) ^ n.
Proof.
  induction n as [|n IH]; [cbn [timeR INR pow]; lra|]. cbn [timeR].
  assert (Hn : 0 <= INR n) by apply pos_INR.
  assert (P1 : 0 < (1 - eps) ^ n) by (apply pow_lt; lra).
  assert (P2 : 1 <= (1 + eps) ^ n) by (apply pow_R1_Rle; lra).
  assert (P3 : (1 - eps) ^ n <= 1) by (rewrite <- (pow1 n) at 2; apply pow_incr; lra).
  assert (T0 : 0 <= timeR rnd dt n).
  { apply Rle_trans with (2 := proj1 IH). apply Rmult_le_pos; [apply Rmult_le_pos|]; lra. }
  destruct (Hrnd (timeR rnd dt n + dt)) as [A B]; [lra|].
  rewrite S_INR. cbn [pow]. split.
  - apply Rle_trans with (2 := A).
    replace ((INR n + 1) * dt * ((1 - eps) * (1 - eps) ^ n)) with ((1 - eps) * (INR n * dt * (1 - eps) ^ n + dt * (1 - eps) ^ n)) by ring.
    apply Rmult_le_compat_l; [lra|]. apply Rplus_le_compat; [lra|].
    rewrite <- (Rmult_1_r dt) at 2. apply Rmult_le_compat_l; lra.
  - apply Rle_trans with (1 := B).
    replace ((INR n + 1) * dt * ((1 + eps) * (1 + eps) ^ n)) with ((1 + eps) * (INR n * dt * (1 + eps) ^ n + dt * (1 + eps) ^ n)) by ring.
    apply Rmult_le_compat_l; [lra|]. apply Rplus_le_compat; [lra|].
    rewrite <- (Rmult_1_r dt) at 1. apply Rmult_le_compat_l; lra.
Qed.

Lemma bernoulli_low k x : 0 <= x <= 1 -> 1 - INR k * x <= (1 - x) ^ k.
Proof.
  intros Hx. induction k as [|k IH]; [cbn; lra|]. rewrite S_INR. cbn [pow].
  assert (0 <= INR k) by apply pos_INR.
  assert (0 <= INR k * x * x) by (apply Rmult_le_pos; [apply Rmult_le_pos|]; lra).
  apply Rle_trans with ((1 - x) * (1 - INR k * x)); [lra|]. apply Rmult_le_compat_l; lra.
Qed.
(** (1 + x)^k <= 1 + 2 k x as long as k x <= 1/2 *)
Lemma bernoulli_high k x : 0 <= x -> INR k * x <= / 2 -> (1 + x) ^ k <= 1 + 2 * (INR k * x).
Proof.
  intros Hx. induction k as [|k IH]; intros Hk; [cbn; lra|]. rewrite S_INR in Hk |- *. cbn [pow].
  assert (0 <= INR k) by apply pos_INR. assert (0 <= INR k * x) by (apply Rmult_le_pos; lra).
  assert (Q : (1 + x) ^ k <= 1 + 2 * (INR k * x)) by (apply IH; lra).
  apply Rle_trans with ((1 + x) * (1 + 2 * (INR k * x))); [apply Rmult_le_compat_l; lra|].
  assert (x * (2 * (INR k * x)) <= x * 1) by (apply Rmult_le_compat_l; lra). lra.
Qed.

Lemma step_drift n : INR n * INR (n + 1) * eps < / 2 ->
  stepR rnd dt n = Z.of_nat n \/ stepR rnd dt n = (Z.of_nat n + 1)%Z.
Proof.
  intros Hn. destruct (time_bounds n) as [A B].
  assert (H0 : 0 <= INR n) by apply pos_INR.
  assert (P1 : 0 < (1 - eps) ^ n) by (apply pow_lt; lra).
  assert (Q1 : INR n * (1 - eps) ^ n <= timeR rnd dt n / dt).
  { apply Rmult_le_reg_r with dt; [lra|]. replace (timeR rnd dt n / dt * dt) with (timeR rnd dt n) by (field; lra). lra. }
  assert (Q2 : timeR rnd dt n / dt <= INR n * (1 + eps) ^ n).
  { apply Rmult_le_reg_r with dt; [lra|]. replace (timeR rnd dt n / dt * dt) with (timeR rnd dt n) by (field; lra). lra. }
  destruct (Hrnd (timeR rnd dt n / dt)) as [C D].
  { apply Rle_trans with (2 := Q1). apply Rmult_le_pos; lra. }
  assert (S1 : INR n * (1 - eps) ^ (n + 1) <= rnd (timeR rnd dt n / dt)).
  { apply Rle_trans with (2 := C). replace (n + 1)%nat with (S n) by lia. cbn [pow].
    replace (INR n * ((1 - eps) * (1 - eps) ^ n)) with ((1 - eps) * (INR n * (1 - eps) ^ n)) by ring.
    apply Rmult_le_compat_l; lra. }
  assert (S2 : rnd (timeR rnd dt n / dt) <= INR n * (1 + eps) ^ (n + 1)).
  { apply Rle_trans with (1 := D). replace (n + 1)%nat with (S n) by lia. cbn [pow].
    replace (INR n * ((1 + eps) * (1 + eps) ^ n)) with ((1 + eps) * (INR n * (1 + eps) ^ n)) by ring.
    apply Rmult_le_compat_l; lra. }
  destruct n as [|n'].
  { left. unfold stepR. apply ceilR_spec. cbn [INR] in *. change (IZR (Z.of_nat 0)) with 0. lra. }
  set (n := S n') in *.
  assert (G1 : 1 <= INR n) by (unfold n; rewrite S_INR; pose proof (pos_INR n'); lra).
  assert (K : INR (n + 1) * eps < / 2).
  { assert (0 <= INR (n + 1) * eps) by (apply Rmult_le_pos; [apply pos_INR|lra]).
    apply Rle_lt_trans with (2 := Hn). rewrite Rmult_assoc.
    rewrite <- (Rmult_1_l (INR (n + 1) * eps)) at 1. apply Rmult_le_compat_r; lra. }
  pose proof (bernoulli_low (n + 1) eps ltac:(lra)) as L1.
  pose proof (bernoulli_high (n + 1) eps ltac:(lra) ltac:(lra)) as L2.
  assert (U1 : INR n * (1 - INR (n + 1) * eps) <= INR n * (1 - eps) ^ (n + 1)) by (apply Rmult_le_compat_l; lra).
  assert (U2 : INR n * (1 + eps) ^ (n + 1) <= INR n * (1 + 2 * (INR (n + 1) * eps))) by (apply Rmult_le_compat_l; lra).
  set (q := rnd (timeR rnd dt n / dt)) in *.
  assert (V1 : INR n - 1 < q) by lra. assert (V2 : q < INR n + 1) by lra.
  unfold stepR. fold q. rewrite INR_IZR_INZ in V1, V2.
  destruct (Rle_lt_dec q (IZR (Z.of_nat n))) as [Hle|Hlt]; [left|right]; apply ceilR_spec; rewrite ?plus_IZR; lra.
Qed.
End Drift.

(** With a relative rounding error of at most 2^-53 per operation the computed step number is the true one or
    the true one plus one during the first 60 million steps. *)
Theorem C19_drift_partial : forall (rnd : R -> R) dt n, 0 < dt ->
  (forall x, 0 <= x -> (1 - / 2 ^ 53) * x <= rnd x <= (1 + / 2 ^ 53) * x) ->
  (Z.of_nat n <= 60000000)%Z ->
  stepR rnd dt n = Z.of_nat n \/ stepR rnd dt n = (Z.of_nat n + 1)%Z.
Proof.
  intros rnd dt n Hdt Hrnd Hn.
  assert (P : (2 ^ 53 = IZR (2 ^ 53))) by (change 53%Z with (Z.of_nat 53); now rewrite <- pow_IZR).
  apply (step_drift rnd (/ 2 ^ 53) dt); auto.
  - rewrite P. change (2 ^ 53)%Z with 9007199254740992%Z. lra.
  - rewrite P. change (2 ^ 53)%Z with 9007199254740992%Z. rewrite !INR_IZR_INZ.
    apply IZR_le in Hn. rewrite Nat2Z.inj_add, plus_IZR. change (IZR (Z.of_nat 1)) with 1.
    assert (0 <= IZR (Z.of_nat n)) by (apply IZR_le; lia).
    set (x := IZR (Z.of_nat n)) in *.
    assert (x * (x + 1) <= 60000000 * 60000001) by (apply Rmult_le_compat; lra). lra.
Qed.
Example ex_C19_partial : stepR (fun x => x) (5 / 10000000000000) 31 = 31%Z.
Proof.
  apply C19_exact_partial; [lra| |]; intros; reflexivity.
Qed.

Open Scope Z_scope.
(** ** in IEEE double precision the step number is wrong for the time step of the sample configuration *)
(** 5e-13 (PiCoPiC.json "step") and 0.1 as doubles *)
Definition dt_sample : f64 := S754_finite false 4951760157141521 (-93).
Definition dt_tenth : f64 := S754_finite false 7205759403792794 (-56).

Theorem C19_step_number_refuted : exists dt n, step64 dt n = Ok (Z.of_nat n + 1).
Proof. exists dt_sample, 31%nat. vm_compute. reflexivity. Qed.

(** consequently frame 31 of a probe with schedule 1 is never written; with a step of 0.1 frame 3 is lost and
    frame 4 is written twice, by passes 3 and 4 of the main loop *)
Theorem C19_lost_frame_refuted : exists fr ws,
  output_run64 dt_sample 1 40 = Ok (fr, ws) /\ ~ In 31 (map snd ws) /\ In (31, 32) ws.
Proof.
  destruct (output_run64 dt_sample 1 40) as [[fr ws]| |] eqn:E; [|vm_compute in E; discriminate..].
  exists fr, ws. split; [reflexivity|]. vm_compute in E. injection E as <- <-.
  split.
  - cbn. intros H. repeat (destruct H as [H|H]; [discriminate|]). exact H.
  - cbn. tauto.
Qed.
Theorem C19_frame_overwritten_refuted : exists fr ws,
  output_run64 dt_tenth 1 6 = Ok (fr, ws) /\ ~ In 3 (map snd ws) /\ In (3, 4) ws /\ In (4, 4) ws.
Proof.
  destruct (output_run64 dt_tenth 1 6) as [[fr ws]| |] eqn:E; [|vm_compute in E; discriminate..].
  exists fr, ws. split; [reflexivity|]. vm_compute in E. injection E as <- <-.
  split.
  - cbn. intros H. repeat (destruct H as [H|H]; [discriminate|]). exact H.
  - cbn. tauto.
Qed.
Example ex_C19_tenth : step64 dt_tenth 3 = Ok 4 /\ step64 dt_tenth 2 = Ok 2.
Proof. vm_compute. auto. Qed.
(** [dt_sample] is the double nearest to 5e-13 *)
Example ex_dt_sample : Z.abs (4951760157141521 * 10 ^ 13 - 5 * 2 ^ 93) * 2 <= 10 ^ 13.
Proof. vm_compute. discriminate. Qed.

Print Assumptions C19_exact_partial.
Print Assumptions C19_drift_partial.
Print Assumptions C19_step_number_refuted.
Print Assumptions C19_lost_frame_refuted.
Print Assumptions C19_frame_overwritten_refuted.
