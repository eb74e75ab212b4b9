(** The leapfrog scheme of the field solver in a closed cavity, as relations between functions of the cell numbers:
    summation by parts, energy balance, bounds of the discrete curl, growth of unstable fields. *)
From Coq Require Import ZArith Reals Lra Lia Psatz ZifyBool.
From Verif Require Import SumUtil.
Open Scope R_scope.

Section Cavity.
Variables n m : Z.
Hypothesis Hn : (2 <= n)%Z.
Hypothesis Hm : (2 <= m)%Z.
Variables dr dz : R.
Hypothesis Hdr : 0 < dr.
Hypothesis Hdz : 0 < dz.

(** volumes, in units of 2 pi dr dr dz: rings around the nodes (for E_phi, E_z, H_r) and around the centres of the cells *)
Definition wn (i : Z) : R := if (i =? 0)%Z then / 8 else IZR i.
Definition wc (i : Z) : R := IZR i + / 2.
(** E_phi and H_r have no values on the axis *)
Definition wp (i : Z) : R := IZR i.

(** fields: E_r, E_phi, E_z *)
Record field : Type := mkF { fr : Z -> Z -> R; fp : Z -> Z -> R; fz : Z -> Z -> R }.

(** the cells whose electric field is updated *)
Definition dof_r (i k : Z) : bool := (0 <=? i)%Z && (i <? n - 1)%Z && (1 <=? k)%Z && (k <? m - 1)%Z.
Definition dof_p (i k : Z) : bool := (1 <=? i)%Z && (i <? n - 1)%Z && (1 <=? k)%Z && (k <? m - 1)%Z.
Definition dof_z (i k : Z) : bool := ((1 <=? i)%Z && (i <? n - 1)%Z && (0 <=? k)%Z && (k <? m - 1)%Z) || ((i =? 0)%Z && (1 <=? k)%Z && (k <? m - 1)%Z).
(** all other cells (those of the walls and the ghost cells) hold nothing *)
Definition enclosed (e : field) : Prop := forall i k, (-2 <= i <= n + 1)%Z -> (-2 <= k <= m + 1)%Z ->
  (dof_r i k = false -> fr e i k = 0) /\ (dof_p i k = false -> fp e i k = 0) /\ (dof_z i k = false -> fz e i k = 0).

(** curl of E at the places of H *)
Definition cr (e : field) (i k : Z) : R := (fp e i (k + 1) - fp e i k) / dz.
Definition cp (e : field) (i k : Z) : R := (fz e (i + 1) k - fz e i k) / dr - (fr e i (k + 1) - fr e i k) / dz.
Definition cz (e : field) (i k : Z) : R := - ((IZR (i + 1) * fp e (i + 1) k - IZR i * fp e i k) / (wc i * dr)).
(** curl of H at the places of E *)
Definition kr (h : field) (i k : Z) : R := - (fp h i k - fp h i (k - 1)) / dz.
Definition kp (h : field) (i k : Z) : R := (fr h i k - fr h i (k - 1)) / dz - (fz h i k - fz h (i - 1) k) / dr.
Definition kz (h : field) (i k : Z) : R :=
  if (i =? 0)%Z then 4 * fp h 0 k / dr else (wc i * fp h i k - wc (i - 1) * fp h (i - 1) k) / (IZR i * dr).

Definition ipe (a b : field) : R :=
  sum2 n m (fun i k => wc i * (fr a i k * fr b i k) + wp i * (fp a i k * fp b i k) + wn i * (fz a i k * fz b i k)).
Definition iph (a b : field) : R :=
  sum2 n m (fun i k => wp i * (fr a i k * fr b i k) + wc i * (fp a i k * fp b i k) + wc i * (fz a i k * fz b i k)).
Definition curl_e (e : field) : field := mkF (cr e) (cp e) (cz e).
Definition curl_h (h : field) : field := mkF (kr h) (kp h) (kz h).

Lemma parts_z (t e : Z -> R) : (e 0%Z = 0) -> e m = 0 ->
  sumz m (fun k => t k * (e (k + 1)%Z - e k)) = - sumz m (fun k => (t k - t (k - 1)%Z) * e k).
Proof.
  intros E0 Em. assert (T := sumz_telescope m (fun k => t (k - 1)%Z * e k) ltac:(lia)). cbv beta in T.
  rewrite E0, Em in T. assert (A : sumz m (fun k => t k * (e (k + 1)%Z - e k)) + sumz m (fun k => (t k - t (k - 1)%Z) * e k) = 0); [|lra].
  rewrite <- sumz_plus. rewrite <- (Rmult_0_r (t (m - 1)%Z)). replace (t (m - 1)%Z * 0) with (t (m - 1)%Z * 0 - t (0 - 1)%Z * 0) by ring. rewrite <- T.
  apply sumz_ext. intros k Hk. replace (k + 1 - 1)%Z with k by lia. ring.
Qed.
Lemma parts_r (F : Z -> R) (a b : Z -> R) : F 0%Z = 0 -> F n = 0 -> (forall i, (0 <= i < n)%Z -> a i + b i = F (i + 1)%Z - F i) ->
  sumz n a = - sumz n b.
Proof.
  intros F0 Fn H. assert (T := sumz_telescope n F ltac:(lia)). rewrite F0, Fn in T.
  assert (A : sumz n a + sumz n b = 0); [|lra]. rewrite <- sumz_plus. replace 0 with (0 - 0) by ring. rewrite <- T. now apply sumz_ext.
Qed.

(** the two curls are adjoint to each other *)
Lemma adjoint h e : enclosed e -> iph h (curl_e e) = - ipe (curl_h h) e.
Proof.
  intros G. unfold iph, ipe. rewrite !sum2_plus. cbn [fr fp fz curl_e curl_h].
  (* H_r with E_phi *)
  assert (A1 : sum2 n m (fun i k => wp i * (fr h i k * cr e i k)) = - sum2 n m (fun i k => wp i * ((fr h i k - fr h i (k - 1)) / dz * fp e i k))).
  { unfold sum2. rewrite <- (Rmult_1_l (sumz n (fun i => sumz m (fun k => wp i * (_ / dz * _))))), <- Ropp_mult_distr_l_reverse, <- sumz_scal.
    apply sumz_ext. intros i Hi. transitivity (wp i / dz * sumz m (fun k => fr h i k * (fp e i (k + 1) - fp e i k))).
    - rewrite <- sumz_scal. apply sumz_ext. intros k Hk. unfold cr. field. lra.
    - rewrite (parts_z (fr h i) (fp e i)).
      + transitivity (- (wp i / dz * sumz m (fun k => (fr h i k - fr h i (k - 1)) * fp e i k))); [ring|]. rewrite <- sumz_scal.
        rewrite Ropp_mult_distr_l_reverse, Rmult_1_l. f_equal. apply sumz_ext. intros k Hk. field. lra.
      + apply (G i 0%Z); [lia|lia|]. unfold dof_p. lia.
      + apply (G i m); [lia|lia|]. unfold dof_p. lia. }
  (* H_z with E_phi *)
  assert (A2 : sum2 n m (fun i k => wc i * (fz h i k * cz e i k)) = - sum2 n m (fun i k => - (wp i * ((fz h i k - fz h (i - 1) k) / dr * fp e i k)))).
  { rewrite (sum2_swap n m (fun i k => wc i * _)), (sum2_swap n m (fun i k => - _)). unfold sum2.
    rewrite <- (Rmult_1_l (sumz m (fun k => sumz n (fun i => - _)))), <- Ropp_mult_distr_l_reverse, <- sumz_scal. apply sumz_ext. intros k Hk.
    rewrite Ropp_mult_distr_l_reverse, Rmult_1_l.
    apply (parts_r (fun i => - (fz h (i - 1) k * (IZR i * fp e i k)) / dr)).
    - cbn [Z.sub]. unfold Rdiv. ring.
    - assert (Z0 : fp e n k = 0) by (apply (G n k); [lia|lia|]; unfold dof_p; lia). rewrite Z0. unfold Rdiv. ring.
    - intros i Hi. unfold cz, wp. replace (i + 1 - 1)%Z with i by lia. assert (W : 0 < wc i) by (unfold wc; assert (0 <= IZR i) by (apply IZR_le; lia); lra).
      rewrite plus_IZR. field. lra. }
  (* H_phi with E_z *)
  assert (A3 : sum2 n m (fun i k => wc i * (fp h i k * ((fz e (i + 1) k - fz e i k) / dr))) = - sum2 n m (fun i k => wn i * (kz h i k * fz e i k))).
  { rewrite (sum2_swap n m (fun i k => wc i * _)), (sum2_swap n m (fun i k => wn i * _)). unfold sum2.
    rewrite <- (Rmult_1_l (sumz m (fun k => sumz n (fun i => wn i * _)))), <- Ropp_mult_distr_l_reverse, <- sumz_scal. apply sumz_ext. intros k Hk.
    rewrite Ropp_mult_distr_l_reverse, Rmult_1_l.
    apply (parts_r (fun i => if (i =? 0)%Z then 0 else wc (i - 1) * fp h (i - 1) k * fz e i k / dr)).
    - reflexivity.
    - replace (n =? 0)%Z with false by lia. assert (Z0 : fz e n k = 0) by (apply (G n k); [lia|lia|]; unfold dof_z; lia). rewrite Z0. unfold Rdiv. ring.
    - intros i Hi. replace (i + 1 =? 0)%Z with false by lia. replace (i + 1 - 1)%Z with i by lia. unfold kz, wn.
      destruct (i =? 0)%Z eqn:E0.
      + apply Z.eqb_eq in E0. subst i. unfold wc. field. lra.
      + assert (1 <= IZR i) by (apply IZR_le; lia). field. lra. }
  (* H_phi with E_r *)
  assert (A4 : sum2 n m (fun i k => wc i * (fp h i k * (- ((fr e i (k + 1) - fr e i k) / dz)))) = - sum2 n m (fun i k => wc i * (kr h i k * fr e i k))).
  { unfold sum2. rewrite <- (Rmult_1_l (sumz n (fun i => sumz m (fun k => wc i * (kr _ _ _ * _))))), <- Ropp_mult_distr_l_reverse, <- sumz_scal.
    apply sumz_ext. intros i Hi. transitivity (- (wc i / dz) * sumz m (fun k => fp h i k * (fr e i (k + 1) - fr e i k))).
    - rewrite <- sumz_scal. apply sumz_ext. intros k Hk. field. lra.
    - rewrite (parts_z (fp h i) (fr e i)).
      + transitivity (- (- (wc i / dz) * sumz m (fun k => (fp h i k - fp h i (k - 1)) * fr e i k))); [ring|]. rewrite <- sumz_scal.
        rewrite Ropp_mult_distr_l_reverse, Rmult_1_l. f_equal. apply sumz_ext. intros k Hk. unfold kr. field. lra.
      + apply (G i 0%Z); [lia|lia|]. unfold dof_r. lia.
      + apply (G i m); [lia|lia|]. unfold dof_r. lia. }
  assert (B1 : sum2 n m (fun i k => wc i * (fp h i k * cp e i k)) =
     sum2 n m (fun i k => wc i * (fp h i k * ((fz e (i + 1) k - fz e i k) / dr))) + sum2 n m (fun i k => wc i * (fp h i k * (- ((fr e i (k + 1) - fr e i k) / dz))))).
  { rewrite <- sum2_plus. apply sum2_ext. intros. unfold cp. ring. }
  assert (B2 : sum2 n m (fun i k => wp i * (kp h i k * fp e i k)) =
     sum2 n m (fun i k => wp i * ((fr h i k - fr h i (k - 1)) / dz * fp e i k)) + sum2 n m (fun i k => - (wp i * ((fz h i k - fz h (i - 1) k) / dr * fp e i k)))).
  { rewrite <- sum2_plus. apply sum2_ext. intros. unfold kp. ring. }
  rewrite B1, B2, A1, A2, A3, A4. ring.
Qed.

(** fields as vectors *)
Definition fadd (a b : field) : field := mkF (fun i k => fr a i k + fr b i k) (fun i k => fp a i k + fp b i k) (fun i k => fz a i k + fz b i k).
(** equal in all cells *)
Definition same (a b : field) : Prop := forall i k, (0 <= i < n)%Z -> (0 <= k < m)%Z ->
  fr a i k = fr b i k /\ fp a i k = fp b i k /\ fz a i k = fz b i k.
(** scalar product with a weight that depends on the cell *)
Definition ipw (s : Z -> Z -> R) (a b : field) : R :=
  sum2 n m (fun i k => s i k * (wc i * (fr a i k * fr b i k) + wp i * (fp a i k * fp b i k) + wn i * (fz a i k * fz b i k))).

Lemma enclosed_fadd a b : enclosed a -> enclosed b -> enclosed (fadd a b).
Proof.
  intros A B i k Hi Hk. destruct (A i k Hi Hk) as (A1 & A2 & A3), (B i k Hi Hk) as (B1 & B2 & B3). cbn [fadd fr fp fz].
  repeat split; intros H; [rewrite A1, B1 by exact H|rewrite A2, B2 by exact H|rewrite A3, B3 by exact H]; ring.
Qed.
Lemma wc_pos i : (0 <= i)%Z -> 0 < wc i.
Proof. intros H. unfold wc. assert (0 <= IZR i) by now apply IZR_le. lra. Qed.
Lemma wp_nonneg i : (0 <= i)%Z -> 0 <= wp i.
Proof. intros H. unfold wp. now apply IZR_le. Qed.
Lemma wn_pos i : (0 <= i)%Z -> 0 < wn i.
Proof. intros H. unfold wn. destruct (i =? 0)%Z eqn:E; [lra|]. assert (1 <= IZR i) by (apply IZR_le; lia). lra. Qed.

(** ** the discrete curl is bounded *)
Lemma shift_le q (x A B C : Z -> R) : (0 <= q)%Z -> (forall i, (0 <= i < q)%Z -> x i <= A i + B (i + 1)%Z) ->
  (forall i, (0 <= i < q)%Z -> A i + B i <= C i) -> 0 <= B 0%Z -> B q = 0 -> sumz q x <= sumz q C.
Proof.
  intros Hq H1 H2 B0 Bq. assert (T := sumz_telescope q B Hq). rewrite Bq in T.
  apply Rle_trans with (sumz q (fun i => A i + B (i + 1)%Z)); [now apply sumz_le|].
  assert (E : sumz q (fun i => A i + B (i + 1)%Z) = sumz q (fun i => A i + B i) + sumz q (fun i => B (i + 1)%Z - B i)).
  { rewrite <- sumz_plus. apply sumz_ext. intros. ring. }
  rewrite E, T. assert (sumz q (fun i => A i + B i) <= sumz q C) by now apply sumz_le. lra.
Qed.
Lemma diff_z (e : Z -> R) : e 0%Z = 0 -> e m = 0 -> sumz m (fun k => (e (k + 1)%Z - e k) * (e (k + 1)%Z - e k)) <= sumz m (fun k => 4 * (e k * e k)).
Proof.
  intros E0 Em. apply shift_le with (A := fun k => 2 * (e k * e k)) (B := fun k => 2 * (e k * e k)); try lia.
  - intros k _. assert (0 <= (e (k + 1)%Z + e k) * (e (k + 1)%Z + e k)) by apply Rle_0_sqr. lra.
  - intros. lra.
  - rewrite E0. lra.
  - rewrite Em. lra.
Qed.
Lemma diff_r (z : Z -> R) : z n = 0 -> sumz n (fun i => wc i * ((z (i + 1)%Z - z i) * (z (i + 1)%Z - z i))) <= sumz n (fun i => 5 * (wn i * (z i * z i))).
Proof.
  intros Zn.
  set (t := fun i : Z => if (i =? 0)%Z then / 4 else if (i =? 1)%Z then 2 / 3 else 1).
  assert (Tp : forall i, 0 < t i). { intros i. unfold t. destruct (i =? 0)%Z; [lra|]. destruct (i =? 1)%Z; lra. }
  apply shift_le with (A := fun i => wc i * ((1 + t i) * (z i * z i)))
    (B := fun i => if (i =? 0)%Z then 0 else wc (i - 1) * ((1 + / t (i - 1)%Z) * (z i * z i))); try lia.
  - intros i Hi. cbv beta. replace (i + 1 =? 0)%Z with false by lia. replace (i + 1 - 1)%Z with i by lia.
    rewrite <- Rmult_plus_distr_l. apply Rmult_le_compat_l; [left; apply wc_pos; lia|].
    specialize (Tp i). generalize dependent (t i). intros s Hs. generalize (z (i + 1)%Z) (z i). intros a b.
    assert (K : (1 + s) * (b * b) + (1 + / s) * (a * a) - (a - b) * (a - b) = / s * ((s * b + a) * (s * b + a))) by (field; lra).
    assert (0 <= / s * ((s * b + a) * (s * b + a))); [|lra]. apply Rmult_le_pos; [left; now apply Rinv_0_lt_compat|apply Rle_0_sqr].
  - intros i Hi. cbv beta. assert (Q : 0 <= z i * z i) by apply Rle_0_sqr. generalize dependent (z i * z i). intros q Hq.
    unfold wn, t, wc. destruct (i =? 0)%Z eqn:E0.
    + apply Z.eqb_eq in E0. subst i. lra.
    + destruct (i =? 1)%Z eqn:E1; [apply Z.eqb_eq in E1; subst i; cbn [Z.sub Z.eqb Z.opp Z.add Z.pos_sub]; lra|].
      replace (i - 1 =? 0)%Z with false by lia. destruct (i - 1 =? 1)%Z eqn:E2.
      * replace i with 2%Z by lia. cbn [Z.sub Z.opp Z.add Z.pos_sub Pos.pred_double]. lra.
      * rewrite minus_IZR. assert (3 <= IZR i) by (apply IZR_le; lia). rewrite Rinv_1. nra.
  - cbn [Z.eqb]. lra.
  - replace (n =? 0)%Z with false by lia. rewrite Zn. ring.
Qed.
Lemma diff_p (e : Z -> R) : e n = 0 ->
  sumz n (fun i => ((IZR (i + 1) * e (i + 1)%Z - IZR i * e i) * (IZR (i + 1) * e (i + 1)%Z - IZR i * e i)) / wc i) <= sumz n (fun i => 5 * (wp i * (e i * e i))).
Proof.
  intros En. set (g := fun i => IZR i * e i).
  apply shift_le with (A := fun i => 2 * (g i * g i) / wc i)
    (B := fun i => if (i =? 0)%Z then 0 else if (i =? 1)%Z then 2 * (g i * g i) else 2 * (g i * g i) / wc (i - 1)%Z); try lia.
  - intros i Hi. cbv beta. fold (g (i + 1)%Z) (g i). replace (i + 1 =? 0)%Z with false by lia. replace (i + 1 - 1)%Z with i by lia.
    assert (W := wc_pos i ltac:(lia)). assert (I := Rinv_0_lt_compat _ W). unfold Rdiv.
    destruct (i + 1 =? 1)%Z eqn:E1.
    + assert (E0 : i = 0%Z) by lia. rewrite E0. cbn [Z.add]. unfold g at 2 4. unfold wc. rewrite !Rmult_0_l. 
      replace (0 + / 2) with (/ 2) by ring. rewrite Rinv_inv. assert (0 <= g 0%Z * g 0%Z) by apply Rle_0_sqr. lra.
    + assert (0 <= / wc i * ((g (i + 1)%Z + g i) * (g (i + 1)%Z + g i))) by (apply Rmult_le_pos; [lra|apply Rle_0_sqr]). lra.
  - intros i Hi. cbv beta. unfold g, wp. assert (Q : 0 <= e i * e i) by apply Rle_0_sqr. generalize dependent (e i). intros x Q.
    destruct (i =? 0)%Z eqn:E0.
    + apply Z.eqb_eq in E0. subst i. unfold Rdiv. rewrite !Rmult_0_l. lra.
    + destruct (i =? 1)%Z eqn:E1; [apply Z.eqb_eq in E1; subst i; unfold wc; lra|].
      assert (P : 2 <= IZR i) by (apply IZR_le; lia). unfold wc. rewrite minus_IZR. generalize dependent (IZR i). intros v P.
      replace (2 * (v * x * (v * x)) / (v + / 2) + 2 * (v * x * (v * x)) / (v - 1 + / 2)) with (v * (x * x) * (4 * (v * v) / (v * v - / 4))) by (field; nra).
      replace (5 * (v * (x * x))) with (v * (x * x) * 5) by ring. apply Rmult_le_compat_l; [apply Rmult_le_pos; [lra|exact Q]|].
      apply Rmult_le_reg_r with (v * v - / 4); [nra|]. unfold Rdiv. rewrite Rmult_assoc, Rinv_l by nra. nra.
  - cbn [Z.eqb]. lra.
  - unfold g. rewrite En. replace (n =? 0)%Z with false by lia. unfold Rdiv. destruct (n =? 1)%Z; ring.
Qed.

Definition curl_limit : R := 5 / (dr * dr) + 4 / (dz * dz).
Theorem curl_bound e : enclosed e -> iph (curl_e e) (curl_e e) <= curl_limit * ipe e e.
Proof using Hn Hm Hdr Hdz.
  intros G. unfold iph, ipe. rewrite !sum2_plus. cbn [curl_e fr fp fz].
  assert (D1 : 0 < / (dr * dr)) by (apply Rinv_0_lt_compat; nra). assert (D2 : 0 < / (dz * dz)) by (apply Rinv_0_lt_compat; nra).
  assert (Gr : forall i k, (0 <= i <= n)%Z -> (0 <= k <= m)%Z -> dof_r i k = false -> fr e i k = 0) by (intros i k Hi Hk; apply G; lia).
  assert (Gp : forall i k, (0 <= i <= n)%Z -> (0 <= k <= m)%Z -> dof_p i k = false -> fp e i k = 0) by (intros i k Hi Hk; apply G; lia).
  assert (Gz : forall i k, (0 <= i <= n)%Z -> (0 <= k <= m)%Z -> dof_z i k = false -> fz e i k = 0) by (intros i k Hi Hk; apply G; lia).
  set (Sr := sum2 n m (fun i k => wc i * (fr e i k * fr e i k))).
  set (Sp := sum2 n m (fun i k => wp i * (fp e i k * fp e i k))).
  set (Sz := sum2 n m (fun i k => wn i * (fz e i k * fz e i k))).
  (* H_r *)
  assert (B1 : sum2 n m (fun i k => wp i * (cr e i k * cr e i k)) <= 4 / (dz * dz) * Sp).
  { unfold Sp, sum2. rewrite <- sumz_scal. apply sumz_le. intros i Hi. rewrite <- sumz_scal.
    assert (D := diff_z (fp e i) ltac:(apply Gp; [lia|lia|unfold dof_p; lia]) ltac:(apply Gp; [lia|lia|unfold dof_p; lia])).
    apply Rmult_le_compat_l with (r := wp i / (dz * dz)) in D; [|apply Rmult_le_pos; [apply wp_nonneg; lia|lra]].
    rewrite <- !sumz_scal in D. eapply Rle_trans; [eapply Rle_trans; [|exact D]|]; right; apply sumz_ext; intros k Hk; unfold cr; field; lra. }
  (* H_z *)
  assert (B2 : sum2 n m (fun i k => wc i * (cz e i k * cz e i k)) <= 5 / (dr * dr) * Sp).
  { unfold Sp. rewrite (sum2_swap n m (fun i k => wc i * _)), (sum2_swap n m (fun i k => wp i * _)). unfold sum2. rewrite <- sumz_scal.
    apply sumz_le. intros k Hk. rewrite <- sumz_scal.
    assert (D := diff_p (fun i => fp e i k) ltac:(apply Gp; [lia|lia|unfold dof_p; lia])). cbv beta in D.
    apply Rmult_le_compat_l with (r := / (dr * dr)) in D; [|lra]. rewrite <- !sumz_scal in D.
    eapply Rle_trans; [eapply Rle_trans; [|exact D]|]; right; apply sumz_ext; intros i Hi; unfold cz; assert (W := wc_pos i ltac:(lia)); field; lra. }
  (* H_phi *)
  assert (B3 : sum2 n m (fun i k => wc i * (cp e i k * cp e i k)) <= curl_limit * (Sr + Sz)).
  { assert (Da : sum2 n m (fun i k => wc i * ((fz e (i + 1) k - fz e i k) * (fz e (i + 1) k - fz e i k))) <= 5 * Sz).
    { unfold Sz. rewrite (sum2_swap n m (fun i k => wc i * _)), (sum2_swap n m (fun i k => wn i * _)). unfold sum2. rewrite <- sumz_scal.
      apply sumz_le. intros k Hk. rewrite <- sumz_scal. apply (diff_r (fun i => fz e i k)). apply Gz; [lia|lia|unfold dof_z; lia]. }
    assert (Db : sum2 n m (fun i k => wc i * ((fr e i (k + 1) - fr e i k) * (fr e i (k + 1) - fr e i k))) <= 4 * Sr).
    { unfold Sr, sum2. rewrite <- sumz_scal. apply sumz_le. intros i Hi. rewrite <- sumz_scal.
      assert (D := diff_z (fr e i) ltac:(apply Gr; [lia|lia|unfold dof_r; lia]) ltac:(apply Gr; [lia|lia|unfold dof_r; lia])).
      apply Rmult_le_compat_l with (r := wc i) in D; [|left; apply wc_pos; lia]. rewrite <- !sumz_scal in D.
      eapply Rle_trans; [exact D|]. right. apply sumz_ext. intros. ring. }
    apply Rle_trans with (curl_limit * (/ 5 * sum2 n m (fun i k => wc i * ((fz e (i + 1) k - fz e i k) * (fz e (i + 1) k - fz e i k))) +
                                        / 4 * sum2 n m (fun i k => wc i * ((fr e i (k + 1) - fr e i k) * (fr e i (k + 1) - fr e i k))))).
    - rewrite <- !sum2_scal, <- sum2_plus, <- sum2_scal. apply sum2_le. intros i k Hi Hk. unfold cp.
      set (a := fz e (i + 1) k - fz e i k). set (b := fr e i (k + 1) - fr e i k).
      replace (curl_limit * (/ 5 * (wc i * (a * a)) + / 4 * (wc i * (b * b)))) with (wc i * (curl_limit * (/ 5 * (a * a) + / 4 * (b * b)))) by ring.
      apply Rmult_le_compat_l; [left; apply wc_pos; lia|]. unfold curl_limit.
      assert (K : (5 / (dr * dr) + 4 / (dz * dz)) * (/ 5 * (a * a) + / 4 * (b * b)) - (a / dr - b / dz) * (a / dr - b / dz) =
                  5 * 4 / 4 / 4 / (4 / 4) * ((2 / 5 * 2 * a / dz + b / dr) * (2 / 5 * 2 * a / dz + b / dr))) by (field; lra).
      assert (0 <= 5 * 4 / 4 / 4 / (4 / 4) * ((2 / 5 * 2 * a / dz + b / dr) * (2 / 5 * 2 * a / dz + b / dr))); [|lra].
      apply Rmult_le_pos; [lra|apply Rle_0_sqr].
    - apply Rmult_le_compat_l; [unfold curl_limit; apply Rplus_le_le_0_compat; apply Rmult_le_pos; lra|]. lra. }
  unfold curl_limit in *. lra.
Qed.

(** one step of the electric field from [e] to [e'], with the magnetic field [t], the current [j], dielectric constants [eps] and conductivities [sg] *)
Section Step.
Variables (dt mu : R) (eps sg : Z -> Z -> R).
Hypothesis Hmu : 0 < mu.
Definition e_law (t j e e' : field) : Prop :=
  forall i k, (0 <= i < n)%Z -> (0 <= k < m)%Z ->
  let law (old new cur rot : R) := eps i k * (new - old) + sg i k * dt / 2 * (new + old) = dt * (rot - cur) in
  (dof_r i k = true -> law (fr e i k) (fr e' i k) (fr j i k) (kr t i k)) /\
  (dof_p i k = true -> law (fp e i k) (fp e' i k) (fp j i k) (kp t i k)) /\
  (dof_z i k = true -> law (fz e i k) (fz e' i k) (fz j i k) (kz t i k)).
Definition h_law (t t' e : field) : Prop :=
  forall i k, (0 <= i < n)%Z -> (0 <= k < m)%Z ->
  fr t' i k = fr t i k + dt / mu * cr e i k /\ fp t' i k = fp t i k + dt / mu * cp e i k /\ fz t' i k = fz t i k + dt / mu * cz e i k.

(** energy of the leapfrog scheme (in units of 2 pi dr dr dz): [e] at a time, [t] and [t'] half a step before and after *)
Definition energy (e t t' : field) : R := / 2 * ipw eps e e + mu / 2 * iph t t'.

Lemma iph_law t0 t1 e x : h_law t0 t1 e -> iph x t1 = iph x t0 + dt / mu * iph x (curl_e e).
Proof.
  intros H. unfold iph. rewrite <- sum2_scal, <- sum2_plus. apply sum2_ext. intros i k Hi Hk. destruct (H i k Hi Hk) as (-> & -> & ->).
  cbn [curl_e fr fp fz]. ring.
Qed.
Lemma iph_sym a b : iph a b = iph b a.
Proof. unfold iph. apply sum2_ext. intros. ring. Qed.

Theorem balance t0 t1 t2 e e' j : enclosed e -> enclosed e' -> e_law t1 j e e' -> h_law t0 t1 e -> h_law t1 t2 e' ->
  energy e' t1 t2 - energy e t0 t1 = - dt / 2 * ipe j (fadd e e') - dt / 4 * ipw sg (fadd e e') (fadd e e').
Proof using Hn Hm Hdr Hdz Hmu.
  intros G G' L H0 H1. unfold energy.
  assert (M : iph t1 t2 - iph t0 t1 = dt / mu * iph t1 (curl_e (fadd e e'))).
  { rewrite (iph_law t1 t2 e' t1 H1). rewrite (iph_sym t0 t1). rewrite (iph_law t0 t1 e t1 H0).
    assert (X : iph t1 (curl_e (fadd e e')) = iph t1 (curl_e e) + iph t1 (curl_e e')); [|rewrite X; ring].
    unfold iph. rewrite <- sum2_plus. apply sum2_ext. intros i k Hi Hk. cbn [curl_e fadd fr fp fz cr cp cz]. unfold cr, cp, cz, Rdiv. cbn [fadd fr fp fz]. ring. }
  rewrite (adjoint t1 (fadd e e') (enclosed_fadd e e' G G')) in M.
  assert (N : ipw eps e' e' - ipw eps e e + / 2 * dt * ipw sg (fadd e e') (fadd e e') = dt * ipe (curl_h t1) (fadd e e') - dt * ipe j (fadd e e')).
  { unfold ipw, ipe. rewrite <- !sum2_scal, <- !sum2_minus, <- sum2_plus. apply sum2_ext. intros i k Hi Hk.
    destruct (L i k Hi Hk) as (L1 & L2 & L3). destruct (G i k) as (G1 & G2 & G3); [lia|lia|]. destruct (G' i k) as (G1' & G2' & G3'); [lia|lia|].
    cbn [fadd curl_h fr fp fz].
    assert (P : forall (old new cur rot : R) (b : bool), (b = true -> eps i k * (new - old) + sg i k * dt / 2 * (new + old) = dt * (rot - cur)) -> (b = false -> old = 0) -> (b = false -> new = 0) ->
      eps i k * (new * new) - eps i k * (old * old) + / 2 * dt * (sg i k * ((old + new) * (old + new))) = dt * (rot * (old + new)) - dt * (cur * (old + new))).
    { intros old new cur rot b B1 B2 B3. destruct b; [|rewrite B2, B3 by reflexivity; ring].
      specialize (B1 eq_refl). transitivity ((eps i k * (new - old) + sg i k * dt / 2 * (new + old)) * (old + new)); [field|]. rewrite B1. ring. }
    assert (P1 := P _ _ _ _ _ L1 G1 G1'). assert (P2 := P _ _ _ _ _ L2 G2 G2'). assert (P3 := P _ _ _ _ _ L3 G3 G3'). clear P.
    apply (f_equal (Rmult (wc i))) in P1. apply (f_equal (Rmult (wp i))) in P2. apply (f_equal (Rmult (wn i))) in P3. lra. }
  replace (/ 2 * ipw eps e' e' + mu / 2 * iph t1 t2 - (/ 2 * ipw eps e e + mu / 2 * iph t0 t1))
    with (/ 2 * (ipw eps e' e' - ipw eps e e) + mu / 2 * (iph t1 t2 - iph t0 t1)) by ring.
  rewrite M. replace (mu / 2 * (dt / mu * - ipe (curl_h t1) (fadd e e'))) with (- (dt / 2) * ipe (curl_h t1) (fadd e e')) by (field; lra).
  lra.
Qed.

(** ** bounded fields *)
Definition favg (a b : field) : field := mkF (fun i k => (fr a i k + fr b i k) / 2) (fun i k => (fp a i k + fp b i k) / 2) (fun i k => (fz a i k + fz b i k) / 2).
Lemma energy_mean e t t' : h_law t t' e ->
  energy e t t' = / 2 * ipw eps e e + mu / 2 * iph (favg t t') (favg t t') - dt * dt / (8 * mu) * iph (curl_e e) (curl_e e).
Proof using Hmu.
  intros H. unfold energy. enough (X : iph t t' = iph (favg t t') (favg t t') - dt * dt / (4 * (mu * mu)) * iph (curl_e e) (curl_e e)).
  { rewrite X. field. lra. }
  unfold iph. rewrite <- sum2_scal, <- sum2_minus. apply sum2_ext. intros i k Hi Hk. destruct (H i k Hi Hk) as (-> & -> & ->).
  cbn [curl_e favg fr fp fz]. destruct (H i k Hi Hk) as (-> & -> & ->). field. lra.
Qed.
Lemma ipe_nonneg a : 0 <= ipe a a.
Proof.
  unfold ipe. apply sum2_nonneg. intros i k Hi Hk.
  assert (0 < wc i) by (apply wc_pos; lia). assert (0 <= wp i) by (apply wp_nonneg; lia). assert (0 < wn i) by (apply wn_pos; lia).
  repeat apply Rplus_le_le_0_compat; (apply Rmult_le_pos; [lra|apply Rle_0_sqr]).
Qed.
Lemma iph_nonneg a : 0 <= iph a a.
Proof.
  unfold iph. apply sum2_nonneg. intros i k Hi Hk.
  assert (0 < wc i) by (apply wc_pos; lia). assert (0 <= wp i) by (apply wp_nonneg; lia).
  repeat apply Rplus_le_le_0_compat; (apply Rmult_le_pos; [lra|apply Rle_0_sqr]).
Qed.
Lemma ipw_ge s0 s a : (forall i k, (0 <= i < n)%Z -> (0 <= k < m)%Z -> s0 <= s i k) -> s0 * ipe a a <= ipw s a a.
Proof.
  intros H. unfold ipe, ipw. rewrite <- sum2_scal. apply sum2_le. intros i k Hi Hk. apply Rmult_le_compat_r; [|now apply H].
  assert (0 < wc i) by (apply wc_pos; lia). assert (0 <= wp i) by (apply wp_nonneg; lia). assert (0 < wn i) by (apply wn_pos; lia).
  repeat apply Rplus_le_le_0_compat; (apply Rmult_le_pos; [lra|apply Rle_0_sqr]).
Qed.
(** the share of the electric energy that the scheme can take away *)
Definition courant (eps0 : R) : R := dt * dt * curl_limit / (4 * eps0 * mu).
Theorem energy_bound eps0 e t t' : 0 < eps0 -> (forall i k, (0 <= i < n)%Z -> (0 <= k < m)%Z -> eps0 <= eps i k) ->
  enclosed e -> h_law t t' e ->
  (1 - courant eps0) * (/ 2 * ipw eps e e) + mu / 2 * iph (favg t t') (favg t t') <= energy e t t'.
Proof using Hn Hm Hdr Hdz Hmu.
  intros P0 He G H. rewrite (energy_mean e t t' H). assert (B := curl_bound e G). assert (I := ipw_ge eps0 eps e He).
  assert (L : 0 <= curl_limit). { unfold curl_limit. apply Rplus_le_le_0_compat; (apply Rmult_le_pos; [lra|left; apply Rinv_0_lt_compat; nra]). }
  assert (Q : dt * dt / (8 * mu) * iph (curl_e e) (curl_e e) <= courant eps0 * (/ 2 * ipw eps e e)).
  { apply Rle_trans with (dt * dt / (8 * mu) * (curl_limit * ipe e e)).
    - apply Rmult_le_compat_l; [|exact B]. apply Rmult_le_pos; [apply Rle_0_sqr|left; apply Rinv_0_lt_compat; lra].
    - unfold courant. replace (dt * dt / (8 * mu) * (curl_limit * ipe e e)) with (dt * dt * curl_limit / (4 * eps0 * mu) * (/ 2 * (eps0 * ipe e e))) by (field; lra).
      apply Rmult_le_compat_l; [|lra]. apply Rmult_le_pos; [apply Rmult_le_pos; [apply Rle_0_sqr|exact L]|left; apply Rinv_0_lt_compat; nra]. }
  lra.
Qed.
End Step.

(** ** growing fields: E_phi alone, uniform dielectric, no losses, no current *)
Section Growth.
Variable gam : R.                                    (* dt^2 / (eps mu) *)
Definition only_p (a : Z -> Z -> R) : field := mkF (fun _ _ => 0) a (fun _ _ => 0).
Definition ipp (a b : Z -> Z -> R) : R := sum2 n m (fun i k => wp i * (a i k * b i k)).
(** the wave operator *)
Definition wave (a : Z -> Z -> R) (i k : Z) : R := if dof_p i k then - (gam * kp (curl_e (only_p a)) i k) else 0.
Lemma wave_sym a b : enclosed (only_p a) -> enclosed (only_p b) -> ipp a (wave b) = ipp b (wave a).
Proof using Hn Hm Hdr Hdz.
  assert (K : forall a b, enclosed (only_p a) -> ipp a (wave b) = gam * iph (curl_e (only_p b)) (curl_e (only_p a))).
  { intros a' b' G. rewrite (adjoint (curl_e (only_p b')) (only_p a') G). unfold ipp, ipe.
    transitivity (gam * (-1 * sum2 n m (fun i k => wc i * (fr (curl_h (curl_e (only_p b'))) i k * fr (only_p a') i k) +
       wp i * (fp (curl_h (curl_e (only_p b'))) i k * fp (only_p a') i k) + wn i * (fz (curl_h (curl_e (only_p b'))) i k * fz (only_p a') i k)))); [|ring].
    rewrite <- !sum2_scal. apply sum2_ext. intros i k Hi Hk. unfold wave. cbn [only_p curl_h fr fp fz].
    destruct (dof_p i k) eqn:D; [ring|]. destruct (G i k) as (_ & Z0 & _); [lia|lia|]. specialize (Z0 D). cbn [only_p fp] in Z0. rewrite Z0. ring. }
  intros Ga Gb. rewrite (K a b Ga), (K b a Gb). f_equal. unfold iph. apply sum2_ext. intros. ring.
Qed.

Variable E : nat -> Z -> Z -> R.
Hypothesis GE : forall q, enclosed (only_p (E q)).
Hypothesis Rec : forall q i k, (0 <= i < n)%Z -> (0 <= k < m)%Z -> E (S (S q)) i k = 2 * E (S q) i k - E q i k - wave (E (S q)) i k.
Hypothesis Start : forall i k, (0 <= i < n)%Z -> (0 <= k < m)%Z -> E 1%nat i k = E 0%nat i k - / 2 * wave (E 0%nat) i k.
Let N q := ipp (E q) (E q).
Definition rate : R := / 4 * ipp (wave (E 0%nat)) (wave (E 0%nat)) - ipp (E 0%nat) (wave (E 0%nat)).
Lemma invariant q : N q + N (S q) - 2 * ipp (E (S q)) (E q) + ipp (E (S q)) (wave (E q)) = - rate.
Proof using Hn Hm Hdr Hdz GE Rec Start.
  induction q as [|q IH].
  - unfold N, rate, ipp. rewrite <- !sum2_scal, <- !sum2_minus, <- sum2_plus, <- sum2_minus, <- sum2_plus.
    transitivity (-1 * sum2 n m (fun i k => / 4 * (wp i * (wave (E 0%nat) i k * wave (E 0%nat) i k)) - wp i * (E 0%nat i k * wave (E 0%nat) i k))); [|ring].
    rewrite <- sum2_scal. apply sum2_ext. intros i k Hi Hk. rewrite (Start i k Hi Hk). field.
  - rewrite <- IH. rewrite (wave_sym (E (S q)) (E q) (GE _) (GE _)).
    unfold N, ipp. rewrite <- !sum2_scal, <- !sum2_plus, <- !sum2_minus, <- !sum2_plus. apply sum2_ext. intros i k Hi Hk. rewrite (Rec q i k Hi Hk). ring.
Qed.
Lemma convex q : 2 * rate <= N (S (S q)) + N q - 2 * N (S q).
Proof using Hn Hm Hdr Hdz GE Rec Start.
  assert (I := invariant q).
  assert (X : N q + N (S q) - 2 * ipp (E (S q)) (E q) + ipp (E (S q)) (wave (E q)) = N (S q) - ipp (E (S (S q))) (E q)).
  { assert (W := wave_sym (E (S q)) (E q) (GE _) (GE _)). rewrite W.
    unfold N, ipp. rewrite <- !sum2_scal, <- !sum2_plus, <- !sum2_minus, <- !sum2_plus. apply sum2_ext. intros i k Hi Hk. rewrite (Rec q i k Hi Hk). ring. }
  assert (Y : 0 <= N (S (S q)) + N q - 2 * ipp (E (S (S q))) (E q)).
  { unfold N, ipp. rewrite <- !sum2_scal, <- !sum2_plus, <- !sum2_minus. apply sum2_nonneg. intros i k Hi Hk.
    assert (0 <= wp i * ((E (S (S q)) i k - E q i k) * (E (S (S q)) i k - E q i k))); [|lra].
    apply Rmult_le_pos; [apply wp_nonneg; lia|apply Rle_0_sqr]. }
  lra.
Qed.
Theorem growth q : N 0%nat + rate * (INR q * INR q) <= N q.
Proof using Hn Hm Hdr Hdz GE Rec Start.
  assert (D : forall q, rate * (2 * INR q + 1) <= N (S q) - N q).
  { induction q0 as [|q0 IH].
    - cbn [INR]. assert (X : N 1%nat - N 0%nat = rate).
      { unfold N, rate, ipp. rewrite <- !sum2_scal, <- !sum2_minus. apply sum2_ext. intros i k Hi Hk. rewrite (Start i k Hi Hk). field. }
      rewrite X. lra.
    - assert (C := convex q0). rewrite S_INR. lra. }
  induction q as [|q IH]; [cbn [INR]; lra|]. specialize (D q). rewrite S_INR. lra.
Qed.
End Growth.
(** one cell next to the axis *)
Definition spot (i k : Z) : R := if ((i =? 1)%Z && (k =? 1)%Z)%bool then 1 else 0.
Definition spot_limit : R := 8 / (3 * (dr * dr)) + 2 / (dz * dz).
Lemma spot_enclosed : (3 <= n)%Z -> (3 <= m)%Z -> enclosed (only_p spot).
Proof.
  intros N3 M3 i k Hi Hk. cbn [only_p fr fp fz]. repeat split; try reflexivity. unfold dof_p, spot. intros D.
  destruct ((i =? 1)%Z && (k =? 1)%Z)%bool eqn:B; [lia|reflexivity].
Qed.
Lemma spot_rate gam : (3 <= n)%Z -> (3 <= m)%Z -> 4 < gam * spot_limit ->
  0 < / 4 * ipp (wave gam spot) (wave gam spot) - ipp spot (wave gam spot).
Proof using Hn Hm Hdr Hdz.
  intros N3 M3 L.
  assert (V : wave gam spot 1 1 = gam * spot_limit).
  { unfold wave, dof_p. replace (_ && _)%bool with true by lia.
    unfold kp, cr, cz, spot_limit, wc, spot. cbn [curl_e only_p fr fp fz]. unfold cr, cz, wc, spot. cbn [only_p fr fp fz Z.eqb Z.add Z.sub Z.opp andb Pos.eqb Pos.add Z.pos_sub]. field. lra. }
  assert (A : ipp spot (wave gam spot) = gam * spot_limit).
  { unfold ipp. rewrite (sum2_single n m _ 1 1) by (try lia; intros a b Ha Hb Ne; unfold spot; replace (_ && _)%bool with false by lia; ring).
    rewrite V. unfold spot, wp. cbn [Z.eqb Pos.eqb andb]. ring. }
  assert (B : gam * spot_limit * (gam * spot_limit) <= ipp (wave gam spot) (wave gam spot)).
  { rewrite <- V. unfold ipp.
    replace (wave gam spot 1 1 * wave gam spot 1 1) with (wp 1 * (wave gam spot 1 1 * wave gam spot 1 1)) by (unfold wp; ring).
    apply (sum2_member n m (fun i k => wp i * (wave gam spot i k * wave gam spot i k)) 1 1); [lia|lia|].
    intros i k Hi Hk. apply Rmult_le_pos; [apply wp_nonneg; lia|apply Rle_0_sqr]. }
  rewrite A. nra.
Qed.
End Cavity.
