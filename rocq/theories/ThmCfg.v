(** Theorems about the macro-particle budget, the probes and the main loop: properties C28, C59, C60. *)
From Verif Require Import Base RndUtil OutModel TimeModel ThmTime CfgModel.
From Coq Require Import Reals String Lra Floats.SpecFloat ZifyBool.
Open Scope R_scope.

(** * C28: the budget *)
(** ** specification: weight of every species and beam, their total, and the proportional share *)
Definition specie_cells (nr nz : Z) : R := IZR nr * IZR nz.
Definition beam_cells (dr dz : R) (ratio : Z) (b : beam_cfg) : R :=
  bunch_radius b / dr * (bunch_length b * IZR (bunches_amount b) / dz) * IZR ratio.
Definition weights (nr nz : Z) (dr dz : R) (ratio : Z) (species : nat) (bs : list beam_cfg) : list R :=
  repeat (specie_cells nr nz) species ++ map (beam_cells dr dz ratio) bs.
Definition sumR (l : list R) : R := fold_right Rplus 0 l.
Definition sumZ (l : list Z) : Z := fold_right Z.add 0%Z l.

Lemma sumR_cons x l : sumR (x :: l) = x + sumR l.
Proof. reflexivity. Qed.
Lemma sumR_app a b : sumR (a ++ b) = sumR a + sumR b.
Proof. induction a as [|x a IH]; cbn [app]; [change (sumR []) with 0; lra|]. rewrite !sumR_cons, IH. lra. Qed.
Lemma sumR_repeat x n : sumR (repeat x n) = INR n * x.
Proof. induction n as [|n IH]; [cbn; lra|]. rewrite S_INR. cbn [repeat]. rewrite sumR_cons, IH. lra. Qed.
Lemma sumR_scale c l : sumR (map (Rmult c) l) = c * sumR l.
Proof. induction l as [|x l IH]; cbn [map]; [change (sumR []) with 0; lra|]. rewrite !sumR_cons, IH. lra. Qed.

Lemma Forall2_repeat (P : R -> R -> Prop) a b n : P a b -> Forall2 P (repeat a n) (repeat b n).
Proof. intros H. induction n as [|n IH]; cbn [repeat]; constructor; auto. Qed.

(** the amounts are the truncated shares *)
Lemma convert_all_spec xs : Forall (fun x => 0 <= x < 2 ^ 32) xs -> convert_all xs = Ok (map Int_part xs).
Proof.
  induction xs as [|x xs IH]; intros H; [reflexivity|]. inversion H; subst. cbn [convert_all map].
  rewrite to_u32_ok by auto. cbn [bind]. now rewrite IH.
Qed.
Lemma sum_floor xs : IZR (sumZ (map Int_part xs)) <= sumR xs <= IZR (sumZ (map Int_part xs)) + INR (List.length xs)
  /\ (xs <> [] -> sumR xs < IZR (sumZ (map Int_part xs)) + INR (List.length xs)).
Proof.
  induction xs as [|x xs [[A B] C]].
  - cbn. split; [lra|congruence].
  - cbn [map sumZ sumR fold_right List.length]. fold (sumZ (map Int_part xs)) (sumR xs).
    rewrite S_INR, plus_IZR. destruct (Int_part_bounds x). split; [lra|]. intros _. lra.
Qed.

(** ** the computed shares, with rounding *)
Section Shares.
Variable rnd : R -> R.
Variable eps : R.
Hypothesis Heps : 0 <= eps < 1.
Hypothesis Hrnd : forall x, 0 <= x -> (1 - eps) * x <= rnd x <= (1 + eps) * x.
Variables nr nz : Z.
Variables dr dz : R.
Variable ratio : Z.
Variable N : R.
Hypothesis Hn : (0 < nr)%Z. Hypothesis Hz : (0 < nz)%Z.
Hypothesis Hdr : 0 < dr. Hypothesis Hdz : 0 < dz.
Hypothesis Hratio : (0 <= ratio)%Z.
Hypothesis HN : 0 <= N.
Variable species : nat.
Variable bs : list beam_cfg.
Hypothesis Hfit : (nr * nz * Z.of_nat (S species) < 2 ^ 64)%Z.
Hypothesis Hbeams : Forall (fun b => 0 <= bunch_radius b /\ 0 <= bunch_length b /\ (0 <= bunches_amount b)%Z) bs.
Hypothesis Hsome : 0 < sumR (weights nr nz dr dz ratio species bs).

Let q := 1 - eps.
Let Hq : 0 < q <= 1.
Proof. unfold q. lra. Qed.
Let Hap : forall x, 0 <= x -> approx q 1 x (rnd x).
Proof. now apply approx_of_relative. Qed.
Let W := sumR (weights nr nz dr dz ratio species bs).

Lemma specie_cells_pos : 0 < specie_cells nr nz.
Proof. unfold specie_cells. apply Rmult_lt_0_compat; now apply IZR_lt. Qed.
Lemma beam_grid_approx b : 0 <= bunch_radius b -> 0 <= bunch_length b -> (0 <= bunches_amount b)%Z ->
  0 <= bunch_radius b / dr * (bunch_length b * IZR (bunches_amount b) / dz) /\
  approx q 4 (bunch_radius b / dr * (bunch_length b * IZR (bunches_amount b) / dz))
    (rnd (beam_r_grid_size rnd dr b * beam_z_grid_size rnd dz b)).
Proof.
  intros H1 H2 H3. apply IZR_le in H3.
  assert (A : 0 <= bunch_radius b / dr) by (apply Rmult_le_pos; [lra|left; now apply Rinv_0_lt_compat]).
  assert (B0 : 0 <= bunch_length b * IZR (bunches_amount b)) by (apply Rmult_le_pos; lra).
  assert (B : 0 <= bunch_length b * IZR (bunches_amount b) / dz) by (apply Rmult_le_pos; [lra|left; now apply Rinv_0_lt_compat]).
  split; [now apply Rmult_le_pos|].
  apply approx_rnd; auto; [now apply Rmult_le_pos|]. apply (approx_mul q Hq 1 2); auto; [now apply Hap|].
  unfold beam_z_grid_size. apply approx_rnd; auto.
  apply (approx_div q Hq 1 0); auto; apply approx_refl; auto; lra.
Qed.
Lemma beam_cells_nonneg b : 0 <= bunch_radius b -> 0 <= bunch_length b -> (0 <= bunches_amount b)%Z ->
  0 <= beam_cells dr dz ratio b.
Proof.
  intros H1 H2 H3. unfold beam_cells. apply Rmult_le_pos; [now apply beam_grid_approx|]. apply IZR_le in Hratio. lra.
Qed.

Lemma norm_beams_approx l : Forall (fun b => 0 <= bunch_radius b /\ 0 <= bunch_length b /\ (0 <= bunches_amount b)%Z) l ->
  forall k x acc, (5 <= k)%nat -> 0 <= x -> approx q k x acc ->
  approx q (k + List.length l) (x + sumR (map (beam_cells dr dz ratio) l)) (norm_beams rnd dr dz ratio acc l).
Proof.
  induction 1 as [|b l [H1 [H2 H3]] Hl IH]; intros k x acc Hk Hx HA.
  - cbn [norm_beams map sumR fold_right List.length]. now rewrite Rplus_0_r, Nat.add_0_r.
  - cbn [norm_beams map sumR fold_right List.length]. fold (sumR (map (beam_cells dr dz ratio) l)).
    pose proof (beam_cells_nonneg b H1 H2 H3) as P.
    rewrite <- Rplus_assoc. replace (k + S (List.length l))%nat with (S k + List.length l)%nat by lia.
    apply IH; [lia|lra|]. apply approx_rnd; auto; [lra|]. apply approx_add; auto.
    apply approx_weaken with 5%nat; auto.
    destruct (beam_grid_approx b H1 H2 H3) as [G1 G2].
    apply approx_rnd; auto.
    unfold beam_cells. apply (approx_mul q Hq 4 0); auto; [apply IZR_le in Hratio; lra|].
    apply approx_refl; auto. apply IZR_le in Hratio; lra.
Qed.

Lemma norm_sum_approx : approx q (5 + List.length bs) W (norm_sum rnd nr nz dr dz ratio species bs).
Proof.
  unfold norm_sum, W, weights. rewrite sumR_app, sumR_repeat.
  pose proof specie_cells_pos as P. pose proof (pos_INR species) as Q.
  apply norm_beams_approx; auto; [apply Rmult_le_pos; lra|].
  unfold norm_species. rewrite (u64_small (nr * nz)) by nia. rewrite u64_small by nia.
  rewrite mult_IZR, mult_IZR, <- INR_IZR_INZ, Rplus_0_l, (Rmult_comm (IZR nr * IZR nz)). fold (specie_cells nr nz).
  assert (0 <= INR species * specie_cells nr nz) by (apply Rmult_le_pos; lra).
  apply approx_weaken with 2%nat; auto.
  apply approx_rnd; auto.
Qed.
Lemma norm_approx : approx q (6 + List.length bs) (N / W) (norm rnd nr nz dr dz ratio N species bs).
Proof.
  unfold norm. apply approx_rnd; auto.
  - apply Rmult_le_pos; auto. left. now apply Rinv_0_lt_compat.
  - apply (approx_div q Hq 0 (5 + List.length bs)); auto; [now apply approx_refl|apply norm_sum_approx].
Qed.

Definition shares : list R :=
  repeat (specie_share rnd nr nz dr dz ratio N species bs) species ++
  map (beam_share rnd nr nz dr dz ratio N species bs) bs.
Definition ops : nat := (12 + List.length bs)%nat.

Lemma shares_approx : Forall2 (fun w s => 0 <= w * (N / W) /\ approx q ops (w * (N / W)) s)
  (weights nr nz dr dz ratio species bs) shares.
Proof.
  assert (HNW : 0 <= N / W) by (apply Rmult_le_pos; auto; left; now apply Rinv_0_lt_compat).
  unfold weights, shares. apply Forall2_app.
  - assert (G : 0 <= specie_cells nr nz * (N / W) /\ approx q ops (specie_cells nr nz * (N / W)) (specie_share rnd nr nz dr dz ratio N species bs)).
    { pose proof specie_cells_pos as P.
      assert (P2 : 0 <= specie_cells nr nz * (N / W)) by (apply Rmult_le_pos; lra). split; [exact P2|].
      apply approx_weaken with (8 + List.length bs)%nat; auto; try (unfold ops; lia).
      unfold specie_share. apply approx_rnd; auto.
      apply (approx_mul q Hq 1 (6 + List.length bs)); auto; [lra| |apply norm_approx].
      rewrite u64_small by nia. rewrite mult_IZR. apply Hap. fold (specie_cells nr nz). lra. }
    now apply Forall2_repeat.
  - assert (G : forall l, Forall (fun b => 0 <= bunch_radius b /\ 0 <= bunch_length b /\ (0 <= bunches_amount b)%Z) l ->
      Forall2 (fun w s => 0 <= w * (N / W) /\ approx q ops (w * (N / W)) s) (map (beam_cells dr dz ratio) l)
        (map (beam_share rnd nr nz dr dz ratio N species bs) l)).
    { induction 1 as [|b l [H1 [H2 H3]] Hl IH]; cbn [map]; constructor; auto.
      pose proof (beam_cells_nonneg b H1 H2 H3) as P.
      assert (P2 : 0 <= beam_cells dr dz ratio b * (N / W)) by (apply Rmult_le_pos; lra). split; [exact P2|].
      apply approx_weaken with (12 + List.length bs)%nat; auto; try (unfold ops; lia).
      destruct (beam_grid_approx b H1 H2 H3) as [G1 G2]. assert (Hra := IZR_le _ _ Hratio).
      unfold beam_share. apply approx_rnd; auto.
      unfold beam_cells. rewrite Rmult_assoc, (Rmult_comm (IZR ratio)), <- Rmult_assoc.
      match goal with |- approx q ?k _ _ => rewrite <- (Nat.add_0_r k) end.
      apply approx_mul; auto; [apply Rmult_le_pos; auto| |now apply approx_refl].
      apply approx_rnd; auto; [apply Rmult_le_pos; auto|].
      apply (approx_mul q Hq 4 (6 + List.length bs)); auto. apply norm_approx. }
    now apply G.
Qed.

Lemma sum_approx k l m : Forall2 (fun w s => 0 <= w /\ approx q k w s) l m ->
  0 <= sumR l /\ approx q k (sumR l) (sumR m).
Proof.
  induction 1 as [|w s l m [H1 H2] Hl [IH1 IH2]]; cbn [sumR fold_right].
  - split; [lra|]. apply approx_refl; auto. lra.
  - split; [unfold sumR in IH1; lra|]. now apply approx_add.
Qed.
Lemma shares_sum : approx q ops N (sumR shares).
Proof.
  assert (H : Forall2 (fun w s => 0 <= w /\ approx q ops w s)
                (map (Rmult (N / W)) (weights nr nz dr dz ratio species bs)) shares).
  { assert (G := shares_approx). revert G. generalize (weights nr nz dr dz ratio species bs) shares.
    induction 1 as [|w s l m [A B] Hl IH]; cbn [map]; constructor; auto. now rewrite (Rmult_comm (N / W)). }
  apply sum_approx in H. destruct H as [_ H]. rewrite sumR_scale in H. fold W in H.
  replace (N / W * W) with N in H by (field; fold W in Hsome; lra). exact H.
Qed.
Hypothesis Hsmall : INR ops * eps * (N + 1) < 1.

Lemma q_ops : 1 - INR ops * eps <= q ^ ops.
Proof. unfold q. apply bernoulli_q. lra. Qed.
Lemma ops_eps : 0 <= INR ops * eps < 1.
Proof.
  assert (0 <= INR ops * eps) by (apply Rmult_le_pos; [apply pos_INR|lra]). split; [lra|].
  assert (0 <= INR ops * eps * N) by (apply Rmult_le_pos; lra). lra.
Qed.
Lemma share_upper s : approx q ops N s -> s < N + 1.
Proof.
  intros [_ A]. pose proof q_ops as B. pose proof ops_eps as C.
  destruct (Rlt_le_dec s (N + 1)) as [|D]; [auto|].
  assert ((1 - INR ops * eps) * (N + 1) <= q ^ ops * s) by (apply Rmult_le_compat; lra). lra.
Qed.
Lemma share_lower s : approx q ops N s -> N - 1 < s.
Proof.
  intros [A _]. pose proof q_ops as B. pose proof ops_eps as C.
  assert ((1 - INR ops * eps) * N <= q ^ ops * N) by (apply Rmult_le_compat_r; lra). lra.
Qed.
Lemma shares_each : Forall (fun s => 0 <= s < N + 1) shares.
Proof.
  assert (G := shares_approx).
  assert (T := share_upper _ shares_sum).
  assert (Hs : Forall (fun s => 0 <= s) shares).
  { revert G. generalize (weights nr nz dr dz ratio species bs) shares.
    induction 1 as [|w s l m [A B] Hl IH]; constructor; auto. eapply approx_nonneg; [| |exact B]; eauto. }
  revert T Hs. generalize shares. intros l. induction l as [|s l IH]; intros T H; constructor.
  - inversion H; subst. cbn [sumR fold_right] in T.
    assert (0 <= fold_right Rplus 0 l); [|lra].
    clear - H3. induction H3 as [|a b A B IH]; cbn [fold_right]; lra.
  - inversion H; subst. apply IH; auto. cbn [sumR fold_right] in T. unfold sumR. lra.
Qed.
End Shares.

Lemma amounts_are_floors rnd nr nz dr dz ratio N species bs :
  Forall (fun s => 0 <= s < N + 1) (shares rnd nr nz dr dz ratio N species bs) -> N + 1 <= 2 ^ 32 ->
  weight_macro_amount rnd nr nz dr dz ratio N species bs = Ok (map Int_part (shares rnd nr nz dr dz ratio N species bs)).
Proof.
  intros H HN. unfold weight_macro_amount. apply convert_all_spec. apply Forall_impl with (2 := H).
  intros s Hs. lra.
Qed.

(** Exact arithmetic: non-negative, proportional up to rounding, within the budget. *)
Theorem C28_budget_partial : forall nr nz dr dz ratio N species bs,
  (0 < nr)%Z -> (0 < nz)%Z -> 0 < dr -> 0 < dz -> (0 <= ratio)%Z -> 0 <= N -> N + 1 <= 2 ^ 32 ->
  (nr * nz * Z.of_nat (S species) < 2 ^ 64)%Z ->
  Forall (fun b => 0 <= bunch_radius b /\ 0 <= bunch_length b /\ (0 <= bunches_amount b)%Z) bs ->
  0 < sumR (weights nr nz dr dz ratio species bs) ->
  exists amounts, weight_macro_amount (fun x => x) nr nz dr dz ratio N species bs = Ok amounts /\
    Forall2 (fun w a => (0 <= a)%Z /\ IZR a <= w * N / sumR (weights nr nz dr dz ratio species bs) < IZR a + 1)
      (weights nr nz dr dz ratio species bs) amounts /\
    IZR (sumZ amounts) <= N < IZR (sumZ amounts) + INR (species + List.length bs).
Proof.
  intros nr nz dr dz ratio N species bs H1 H2 H3 H4 H5 H6 H7 H8 H9 H10.
  assert (E0 : 0 <= 0 < 1) by lra.
  assert (R0 : forall x : R, 0 <= x -> (1 - 0) * x <= x <= (1 + 0) * x) by (intros; lra).
  assert (S0 : INR (ops bs) * 0 * (N + 1) < 1) by lra.
  pose proof (shares_each (fun x => x) 0 E0 R0 nr nz dr dz ratio N H1 H2 H3 H4 H5 H6 species bs H8 H9 H10 S0) as P1.
  pose proof (shares_approx (fun x => x) 0 E0 R0 nr nz dr dz ratio N H1 H2 H3 H4 H5 H6 species bs H8 H9 H10) as P2.
  pose proof (shares_sum (fun x => x) 0 E0 R0 nr nz dr dz ratio N H1 H2 H3 H4 H5 H6 species bs H8 H9 H10) as P3.
  set (W := sumR (weights nr nz dr dz ratio species bs)) in *.
  rewrite (amounts_are_floors _ _ _ _ _ _ _ _ _ P1 H7). eexists; split; [reflexivity|].
  assert (Hne : shares (fun x => x) nr nz dr dz ratio N species bs <> []).
  { intros E. rewrite E in P2. inversion P2 as [E2|]. unfold W in H10. rewrite <- E2 in H10. cbn in H10. lra. }
  assert (HL : List.length (shares (fun x => x) nr nz dr dz ratio N species bs) = (species + List.length bs)%nat)
    by (unfold shares; now rewrite app_length, repeat_length, map_length).
  split.
  - revert P2. generalize (weights nr nz dr dz ratio species bs) (shares (fun x => x) nr nz dr dz ratio N species bs).
    induction 1 as [|w s l m [A B] Hl IH]; cbn [map]; constructor; auto.
    assert (E : s = w * N / W).
    { unfold approx in B. rewrite Rminus_0_r, pow1 in B. unfold Rdiv in *. rewrite !Rmult_1_l in B. rewrite Rmult_assoc. lra. }
    subst s. replace (w * (N / W)) with (w * N / W) in A by (unfold Rdiv; ring).
    split; [now apply Int_part_nonneg|apply Int_part_bounds].
  - destruct (sum_floor (shares (fun x => x) nr nz dr dz ratio N species bs)) as [[A B] C]. specialize (C Hne).
    unfold approx in P3. rewrite Rminus_0_r, pow1, !Rmult_1_l in P3. rewrite HL in C. lra.
Qed.

(** Rounded arithmetic: still never more than the budget, and short by at most the number of species and beams. *)
Theorem C28_budget_rounded : forall rnd nr nz dr dz ratio (N : Z) species bs,
  (forall x, 0 <= x -> (1 - / 2 ^ 53) * x <= rnd x <= (1 + / 2 ^ 53) * x) ->
  (0 < nr)%Z -> (0 < nz)%Z -> 0 < dr -> 0 < dz -> (0 <= ratio)%Z -> (0 <= N < 2 ^ 32)%Z ->
  (nr * nz * Z.of_nat (S species) < 2 ^ 64)%Z -> (List.length bs <= 1000)%nat ->
  Forall (fun b => 0 <= bunch_radius b /\ 0 <= bunch_length b /\ (0 <= bunches_amount b)%Z) bs ->
  0 < sumR (weights nr nz dr dz ratio species bs) ->
  exists amounts, weight_macro_amount rnd nr nz dr dz ratio (IZR N) species bs = Ok amounts /\
    Forall (fun a => (0 <= a)%Z) amounts /\
    (sumZ amounts <= N <= sumZ amounts + Z.of_nat (species + List.length bs))%Z.
Proof.
  intros rnd nr nz dr dz ratio N species bs Hr H1 H2 H3 H4 H5 H6 H8 Hlen H9 H10.
  assert (E0 : 0 <= / 2 ^ 53 < 1).
  { split; [left; apply Rinv_0_lt_compat; apply pow_lt; lra|].
    rewrite <- Rinv_1. apply Rinv_lt_contravar; [rewrite Rmult_1_l; apply pow_lt; lra|]. apply Rlt_pow_R1; [lra|lia]. }
  assert (HN0 : 0 <= IZR N) by (apply IZR_le; lia).
  assert (HN1 : IZR N <= 4294967295) by (apply IZR_le; lia).
  assert (HL : INR (ops bs) <= 1012).
  { rewrite INR_IZR_INZ. apply IZR_le. unfold ops. lia. }
  assert (S0 : INR (ops bs) * / 2 ^ 53 * (IZR N + 1) < 1).
  { assert (0 <= INR (ops bs)) by apply pos_INR.
    apply Rmult_lt_reg_r with (2 ^ 53); [apply pow_lt; lra|].
    replace (INR (ops bs) * / 2 ^ 53 * (IZR N + 1) * 2 ^ 53) with (INR (ops bs) * (IZR N + 1)) by (field; apply pow_nonzero; lra).
    rewrite Rmult_1_l. apply Rle_lt_trans with (1012 * 4294967296); [apply Rmult_le_compat; lra|]. lra. }
  pose proof (shares_each rnd _ E0 Hr nr nz dr dz ratio (IZR N) H1 H2 H3 H4 H5 HN0 species bs H8 H9 H10 S0) as P1.
  pose proof (shares_sum rnd _ E0 Hr nr nz dr dz ratio (IZR N) H1 H2 H3 H4 H5 HN0 species bs H8 H9 H10) as P3.
  rewrite (amounts_are_floors _ _ _ _ _ _ _ _ _ P1) by lra. eexists; split; [reflexivity|].
  split.
  - rewrite Forall_map. apply Forall_impl with (2 := P1). intros s Hs. apply Int_part_nonneg. lra.
  - assert (U := share_upper _ E0 (IZR N) HN0 bs S0 _ P3).
    assert (L := share_lower _ E0 (IZR N) HN0 bs S0 _ P3).
    destruct (sum_floor (shares rnd nr nz dr dz ratio (IZR N) species bs)) as [[A B] C].
    assert (HLen : List.length (shares rnd nr nz dr dz ratio (IZR N) species bs) = (species + List.length bs)%nat)
      by (unfold shares; now rewrite app_length, repeat_length, map_length).
    rewrite HLen, INR_IZR_INZ in B. rewrite HLen, INR_IZR_INZ in C.
    set (S := sumZ _) in *. set (T := sumR _) in *.
    split.
    + assert (X : IZR S < IZR (N + 1)) by (rewrite plus_IZR; lra). apply lt_IZR in X. lia.
    + assert (X : IZR N < IZR (S + Z.of_nat (species + List.length bs) + 1)) by (rewrite !plus_IZR; lra).
      apply lt_IZR in X. lia.
Qed.

(** In doubles the miss can reach the number of species: 80 x 176 cells, one species, a million macro-particles. *)
Theorem C28_strict_miss_refuted : single_amount64 80 176 1000000 = 999999%Z.
Proof. vm_compute. reflexivity. Qed.

Example C28_example :
  let b := {| bunch_radius := 2; bunch_length := 3; bunches_amount := 4 |} in
  weights 5 10 (1/2) (1/4) 1 2 [b] = [5 * 10; 5 * 10; 2 / (1/2) * (3 * 4 / (1/4)) * 1]
  /\ 0 < sumR (weights 5 10 (1/2) (1/4) 1 2 [b]).
Proof. cbn. split; [reflexivity|]. unfold beam_cells, specie_cells. cbn. lra. Qed.

(** * C60: probes *)
Lemma to_u64_IZR k : (0 <= k < 2 ^ 64)%Z -> to_u64 (IZR k) = Ok k.
Proof. intros H. unfold to_u64. rewrite truncR_IZR. replace ((0 <=? k) && (k <? 2 ^ 64))%Z with true by lia. reflexivity. Qed.
Lemma to_s32_IZR k : (- 2 ^ 31 <= k < 2 ^ 31)%Z -> to_s32 (IZR k) = Ok k.
Proof. intros H. unfold to_s32. rewrite truncR_IZR. replace ((- 2 ^ 31 <=? k) && (k <? 2 ^ 31))%Z with true by lia. reflexivity. Qed.

(** specification: a rectangle with whole coordinates and a positive period *)
Definition rec_desc (r0 z0 r1 z1 s : Z) (r z : R) : probe_desc :=
  {| d_shape := "rec"; d_start_r := IZR r0; d_start_z := IZR z0; d_end_r := IZR r1; d_end_z := IZR z1;
     d_r := r; d_z := z; d_schedule := IZR s |}.

Lemma parse_rec nr nz r0 z0 r1 z1 s r z :
  (0 <= r0 < 2 ^ 64)%Z -> (0 <= z0 < 2 ^ 64)%Z -> (0 <= r1 < 2 ^ 64)%Z -> (0 <= z1 < 2 ^ 64)%Z ->
  (0 <= s < 2 ^ 31)%Z ->
  parse_probe nr nz (rec_desc r0 z0 r1 z1 s r z) =
  if ((r1 <? r0) || (z1 <? z0) || (nr <? r1) || (nz <? z1))%Z then Fatal
  else Ok {| p_shape := 0; p_dims := [r0; z0; r1; z1]; p_schedule := s |}.
Proof.
  intros A B C D E. unfold parse_probe, probe_shape, rec_desc. cbn [d_shape d_start_r d_start_z d_end_r d_end_z d_schedule].
  change ("rec" =? "rec")%string with true. rewrite !to_u64_IZR by auto. cbn [bind].
  rewrite to_s32_IZR by lia. cbn [bind vec_get nth_error]. rewrite (u32_small s) by lia.
  destruct ((r1 <? r0) || (z1 <? z0))%Z; [reflexivity|]. destruct (nr <? r1)%Z; [reflexivity|].
  now destruct (nz <? z1)%Z.
Qed.

(** Rectangles inside the grid are read as given, all others are rejected; this for whole lists of probes. *)
Theorem C60_rec_partial : forall nr nz r0 z0 r1 z1 s r z,
  (0 <= r0 < 2 ^ 64)%Z -> (0 <= z0 < 2 ^ 64)%Z -> (0 <= r1 < 2 ^ 64)%Z -> (0 <= z1 < 2 ^ 64)%Z ->
  (0 <= s < 2 ^ 31)%Z ->
  ((r0 <= r1 <= nr /\ z0 <= z1 <= nz)%Z ->
   parse_probe nr nz (rec_desc r0 z0 r1 z1 s r z) = Ok {| p_shape := 0; p_dims := [r0; z0; r1; z1]; p_schedule := s |}) /\
  (~ (r0 <= r1 <= nr /\ z0 <= z1 <= nz)%Z -> parse_probe nr nz (rec_desc r0 z0 r1 z1 s r z) = Fatal).
Proof.
  intros. rewrite parse_rec by auto. split; intros P.
  - now replace ((r1 <? r0) || (z1 <? z0) || (nr <? r1) || (nz <? z1))%Z with false by lia.
  - now replace ((r1 <? r0) || (z1 <? z0) || (nr <? r1) || (nz <? z1))%Z with true by lia.
Qed.
Theorem C60_list : forall nr nz ds ps,
  init_probes nr nz ds = Ok ps <-> Forall2 (fun d p => parse_probe nr nz d = Ok p) ds ps.
Proof.
  intros nr nz. induction ds as [|d ds IH]; intros ps; cbn [init_probes].
  - split; [intros [= <-]; constructor|]. intros H. now inversion H.
  - split.
    + destruct (parse_probe nr nz d) as [p| |] eqn:E; cbn [bind]; try discriminate.
      destruct (init_probes nr nz ds) as [l| |] eqn:F; cbn [bind]; try discriminate.
      intros [= <-]. constructor; [exact E|]. now apply IH.
    + intros H. inversion H as [|? p ? l Hd Hl]; subst. rewrite Hd. cbn [bind]. apply IH in Hl. now rewrite Hl.
Qed.
(** an accepted probe is within the grid *)
Theorem C60_accepted_inside : forall nr nz d p, parse_probe nr nz d = Ok p ->
  exists r0 z0 r1 z1, p_dims p = [r0; z0; r1; z1] /\ (0 <= r0 <= r1 /\ r1 <= nr /\ 0 <= z0 <= z1 /\ z1 <= nz)%Z /\ p_shape p = 0%Z.
Proof.
  intros nr nz d p. unfold parse_probe, probe_shape.
  destruct (d_shape d =? "rec")%string.
  - assert (U : forall x y, to_u64 x = Ok y -> (0 <= y)%Z).
    { intros x y. unfold to_u64. cbv zeta. destruct ((0 <=? truncR x) && (truncR x <? 2 ^ 64))%Z eqn:E; [|discriminate]. intros [= <-]. lia. }
    destruct (to_u64 (d_start_r d)) as [a| |] eqn:E1; cbn [bind]; try discriminate. apply U in E1.
    destruct (to_u64 (d_start_z d)) as [b| |] eqn:E2; cbn [bind]; try discriminate. apply U in E2.
    destruct (to_u64 (d_end_r d)) as [c| |] eqn:E3; cbn [bind]; try discriminate.
    destruct (to_u64 (d_end_z d)) as [e| |] eqn:E4; cbn [bind]; try discriminate.
    destruct (to_s32 (d_schedule d)) as [s| |]; cbn [bind vec_get nth_error]; try discriminate.
    destruct ((c <? a) || (e <? b))%Z eqn:F1; [discriminate|].
    destruct (nr <? c)%Z eqn:F2; [discriminate|]. destruct (nz <? e)%Z eqn:F3; [discriminate|].
    intros [= <-]. exists a, b, c, e. cbn [p_dims p_shape]. repeat split; lia.
  - destruct (d_shape d =? "col")%string; [discriminate|].
    destruct (d_shape d =? "row")%string.
    { destruct (to_s32 (d_r d)); discriminate. }
    destruct (d_shape d =? "dot")%string; [|discriminate]. destruct (to_s32 (d_r d)); discriminate.
Qed.
(** Every column, row and dot probe is undefined behaviour, whatever its coordinates. *)
Theorem C60_shapes_refuted : forall nr nz d,
  (d_shape d = "col" \/ d_shape d = "row" \/ d_shape d = "dot")%string -> parse_probe nr nz d = UB.
Proof.
  intros nr nz d. unfold parse_probe, probe_shape. intros [E|[E|E]]; rewrite E.
  - reflexivity.
  - unfold to_s32. cbv zeta. cbn [String.eqb Ascii.eqb Bool.eqb]. now destruct (_ && _).
  - unfold to_s32. cbv zeta. cbn [String.eqb Ascii.eqb Bool.eqb]. now destruct (_ && _).
Qed.
(** Negative coordinates are not rejected: the conversion to size_t is undefined. *)
Theorem C60_negative_refuted : forall nr nz r0 z0 r1 z1 s r z, (r0 < 0)%Z ->
  parse_probe nr nz (rec_desc r0 z0 r1 z1 s r z) = UB.
Proof.
  intros. unfold parse_probe, probe_shape, rec_desc. cbn [d_shape d_start_r].
  change ("rec" =? "rec")%string with true. unfold to_u64 at 1. cbv zeta. rewrite truncR_IZR.
  now replace ((0 <=? r0) && (r0 <? 2 ^ 64))%Z with false by lia.
Qed.
(** A period of 0 is accepted, and the first output step then divides by zero. *)
Theorem C60_zero_schedule_refuted : forall nr nz r z, (0 <= nr)%Z -> (0 <= nz)%Z ->
  exists p, parse_probe nr nz (rec_desc 0 0 0 0 0 r z) = Ok p /\ forall n fr, output_step (p_schedule p) n fr = UB.
Proof.
  intros nr nz r z H1 H2. rewrite parse_rec by lia.
  replace ((0 <? 0) || (0 <? 0) || (nr <? 0) || (nz <? 0))%Z with false by lia.
  eexists; split; [reflexivity|]. reflexivity.
Qed.
Example C60_example : parse_probe 64 256 (rec_desc 0 10 64 200 5 0 0) = Ok {| p_shape := 0; p_dims := [0; 10; 64; 200]%Z; p_schedule := 5 |}.
Proof. rewrite parse_rec by lia. reflexivity. Qed.

(** * C59: the main loop *)
(** specification: the phases of step k, all at time k*dt *)
Definition step_events (dt : R) (k : nat) : list (phase * R) :=
  [(Inject, INR k * dt); (Fields, INR k * dt); (Push, INR k * dt); (Currents, INR k * dt); (Output, INR k * dt)].
Definition steps_exact (tend dt : R) : nat := Z.to_nat (Int_part (tend / dt) + 1).

Lemma main_from_trace rnd tend dt n : forall fuel k,
  (forall j, (j < n)%nat -> timeR rnd dt (k + j) <= tend) -> tend < timeR rnd dt (k + n) -> (n <= fuel)%nat ->
  main_from rnd tend dt fuel (timeR rnd dt k) = Some (flat_map (fun j => pass (timeR rnd dt j)) (seq k n)).
Proof.
  induction n as [|n IH]; intros fuel k Hle Hlt Hf.
  - rewrite Nat.add_0_r in Hlt. cbn [seq flat_map].
    destruct fuel; cbn [main_from]; destruct (Rle_dec _ _); try lra; reflexivity.
  - destruct fuel as [|fuel]; [lia|]. cbn [main_from].
    specialize (Hle 0%nat ltac:(lia)) as H0. rewrite Nat.add_0_r in H0.
    destruct (Rle_dec _ _); [|contradiction].
    change (rnd (timeR rnd dt k + dt)) with (timeR rnd dt (S k)).
    rewrite (IH fuel (S k)); [reflexivity| | |lia].
    + intros j Hj. replace (S k + j)%nat with (k + S j)%nat by lia. apply Hle. lia.
    + now replace (S k + n)%nat with (k + S n)%nat by lia.
Qed.
Lemma timeR_exact dt n : timeR (fun x => x) dt n = INR n * dt.
Proof. induction n as [|n IH]; [cbn; lra|]. rewrite S_INR. cbn [timeR]. rewrite IH. lra. Qed.

Lemma steps_exact_bounds tend dt : 0 < dt ->
  (forall j, (j < steps_exact tend dt)%nat -> INR j * dt <= tend) /\ tend < INR (steps_exact tend dt) * dt.
Proof.
  intros Hdt. unfold steps_exact. destruct (Int_part_bounds (tend / dt)) as [A B].
  assert (E : tend = tend / dt * dt) by (field; lra).
  split.
  - intros j Hj. rewrite INR_IZR_INZ.
    assert (IZR (Z.of_nat j) <= IZR (Int_part (tend / dt))) by (apply IZR_le; lia).
    rewrite E at 1. apply Rmult_le_compat_r; lra.
  - rewrite E at 1. apply Rmult_lt_compat_r; [lra|]. rewrite INR_IZR_INZ.
    assert (IZR (Int_part (tend / dt) + 1) <= IZR (Z.of_nat (Z.to_nat (Int_part (tend / dt) + 1)))) by (apply IZR_le; lia).
    rewrite plus_IZR in H. lra.
Qed.

(** With exact time the loop stops after exactly floor(end/step)+1 passes (none for a negative end), each with the
    five phases in this order. *)
Theorem C59_main_loop : forall tend dt fuel, 0 < dt -> (steps_exact tend dt <= fuel)%nat ->
  main_loop (fun x => x) tend dt fuel = Some (flat_map (step_events dt) (seq 0 (steps_exact tend dt))).
Proof.
  intros tend dt fuel Hdt Hf. destruct (steps_exact_bounds tend dt Hdt) as [A B].
  unfold main_loop. change 0 with (timeR (fun x => x) dt 0) at 1.
  rewrite (main_from_trace _ _ _ (steps_exact tend dt)); auto.
  - f_equal. apply flat_map_ext. intros k. unfold pass, step_events. now rewrite timeR_exact.
  - intros j Hj. rewrite timeR_exact. now apply A.
  - now rewrite timeR_exact.
Qed.
Theorem C59_step_count : forall tend dt, 0 < dt -> 0 <= tend ->
  Z.of_nat (steps_exact tend dt) = (Int_part (tend / dt) + 1)%Z.
Proof.
  intros tend dt Hdt Ht. unfold steps_exact.
  assert (0 <= Int_part (tend / dt))%Z; [|lia].
  apply Int_part_nonneg. apply Rmult_le_pos; [lra|left; now apply Rinv_0_lt_compat].
Qed.
(** the loop does not stop earlier *)
Theorem C59_not_earlier : forall tend dt fuel, 0 < dt -> (fuel < steps_exact tend dt)%nat ->
  main_loop (fun x => x) tend dt fuel = None.
Proof.
  intros tend dt fuel Hdt. destruct (steps_exact_bounds tend dt Hdt) as [A _]. revert A.
  generalize (steps_exact tend dt). intros n A. unfold main_loop. change 0 with (timeR (fun x => x) dt 0) at 1.
  assert (G : forall f k, (k + f < n)%nat -> main_from (fun x => x) tend dt f (timeR (fun x => x) dt k) = None).
  { induction f as [|f IH]; intros k Hk; cbn [main_from]; (destruct (Rle_dec _ _) as [|C];
      [|exfalso; apply C; rewrite timeR_exact; apply A; lia]); [reflexivity|].
    change (timeR (fun x => x) dt k + dt) with (timeR (fun x => x) dt (S k)). now rewrite IH by lia. }
  intros H. now apply G.
Qed.
(** With rounded time the number of passes is off by at most one, as long as n*(n+1) rounding errors stay below 1/2. *)
Theorem C59_rounded : forall rnd tend dt n l, 0 < dt ->
  (forall x, 0 <= x -> (1 - / 2 ^ 53) * x <= rnd x <= (1 + / 2 ^ 53) * x) ->
  (Z.of_nat n <= 60000000)%Z -> main_loop rnd tend dt n = Some l -> 0 <= tend ->
  exists k, l = flat_map (fun j => pass (timeR rnd dt j)) (seq 0 k) /\
    (Int_part (tend / dt) <= Z.of_nat k <= Int_part (tend / dt) + 2)%Z.
Proof.
  intros rnd tend dt n l Hdt Hr Hn H Ht.
  assert (G : forall f k l, main_from rnd tend dt f (timeR rnd dt k) = Some l ->
    exists m, (m <= f)%nat /\ l = flat_map (fun j => pass (timeR rnd dt j)) (seq k m) /\
      (forall j, (j < m)%nat -> timeR rnd dt (k + j) <= tend) /\ tend < timeR rnd dt (k + m)).
  { induction f as [|f IH]; intros k l'; cbn [main_from]; destruct (Rle_dec _ _) as [C|C]; try discriminate.
    - intros [= <-]. exists 0%nat. split; [lia|]. split; [reflexivity|]. split; [lia|]. rewrite Nat.add_0_r. lra.
    - change (rnd (timeR rnd dt k + dt)) with (timeR rnd dt (S k)).
      destruct (main_from rnd tend dt f (timeR rnd dt (S k))) as [l1|] eqn:E; [|discriminate].
      intros [= <-]. apply IH in E. destruct E as (m & M1 & M2 & M3 & M4). exists (S m).
      split; [lia|]. split; [cbn [seq flat_map]; now rewrite M2|]. split.
      + intros j Hj. destruct j as [|j]; [now rewrite Nat.add_0_r|].
        replace (k + S j)%nat with (S k + j)%nat by lia. apply M3. lia.
      + now replace (k + S m)%nat with (S k + m)%nat by lia.
    - intros [= <-]. exists 0%nat. split; [lia|]. split; [reflexivity|]. split; [lia|]. rewrite Nat.add_0_r. lra. }
  unfold main_loop in H. change 0 with (timeR rnd dt 0) in H at 1.
  apply G in H. destruct H as (k & K1 & K2 & K3 & K4). exists k. split; [exact K2|]. clear G K2.
  assert (E0 : 0 <= / 2 ^ 53 < 1).
  { split; [left; apply Rinv_0_lt_compat; apply pow_lt; lra|].
    rewrite <- Rinv_1. apply Rinv_lt_contravar; [rewrite Rmult_1_l; apply pow_lt; lra|]. apply Rlt_pow_R1; [lra|lia]. }
  (* |timeR m - m dt| < dt/2 for all m <= n *)
  assert (D : forall m, (m <= n)%nat -> Rabs (timeR rnd dt m - INR m * dt) < dt).
  { intros m Hm. destruct (time_bounds rnd (/ 2 ^ 53) dt E0 Hdt Hr m) as [A B].
    set (e := / 2 ^ 53) in *.
    assert (M0 : 0 <= INR m) by apply pos_INR.
    assert (M1 : INR m <= 60000000) by (rewrite INR_IZR_INZ; apply IZR_le; lia).
    assert (M2 : INR m * INR m <= 60000000 * 60000000) by (apply Rmult_le_compat; lra).
    assert (X : INR m * INR m * e < / 2).
    { unfold e. apply Rmult_lt_reg_r with (2 ^ 53); [apply pow_lt; lra|].
      rewrite Rmult_assoc, Rinv_l by (apply pow_nonzero; lra). lra. }
    assert (X0 : 0 <= INR m * e) by (apply Rmult_le_pos; lra).
    assert (X1 : INR m * e <= / 2).
    { unfold e. apply Rmult_le_reg_r with (2 ^ 53); [apply pow_lt; lra|].
      rewrite Rmult_assoc, Rinv_l by (apply pow_nonzero; lra). lra. }
    pose proof (bernoulli_low m e ltac:(lra)) as L1. pose proof (bernoulli_high m e ltac:(lra) X1) as L2.
    assert (MD : 0 <= INR m * dt) by (apply Rmult_le_pos; lra).
    assert (Y1 : INR m * dt * (1 - INR m * e) <= INR m * dt * (1 - e) ^ m) by (apply Rmult_le_compat_l; lra).
    assert (Y2 : INR m * dt * (1 + e) ^ m <= INR m * dt * (1 + 2 * (INR m * e))) by (apply Rmult_le_compat_l; lra).
    assert (Z1 : INR m * INR m * e * dt < / 2 * dt) by (apply Rmult_lt_compat_r; lra).
    apply Rabs_def1; lra. }
  assert (Hdiv : tend = tend / dt * dt) by (field; lra).
  destruct (Int_part_bounds (tend / dt)) as [I1 I2].
  split.
  - cbn [Nat.add] in K4. specialize (D k K1). apply Rabs_def2 in D.
    assert (T : tend < (INR k + 1) * dt) by lra.
    rewrite Hdiv in T. apply Rmult_lt_reg_r in T; [|lra].
    assert (X : IZR (Int_part (tend / dt)) < IZR (Z.of_nat k + 1)) by (rewrite plus_IZR, <- INR_IZR_INZ; lra).
    apply lt_IZR in X. lia.
  - destruct k as [|k]; [pose proof (Int_part_nonneg (tend / dt)) as P; assert (0 <= tend / dt) by (apply Rmult_le_pos; [lra|left; now apply Rinv_0_lt_compat]); specialize (P H); lia|].
    specialize (K3 k ltac:(lia)). cbn [Nat.add] in K3. specialize (D k ltac:(lia)). apply Rabs_def2 in D.
    assert (T : (INR k - 1) * dt < tend) by lra.
    rewrite Hdiv in T. apply Rmult_lt_reg_r in T; [|lra].
    assert (X : IZR (Z.of_nat k - 1) < IZR (Int_part (tend / dt) + 1)) by (rewrite minus_IZR, plus_IZR, <- INR_IZR_INZ; lra).
    apply lt_IZR in X. lia.
Qed.
(** In doubles: end 0.3, step 0.1 makes 3 passes instead of 4. *)
Definition d01 : f64 := S754_finite false 7205759403792794 (-56).
Definition d03 : f64 := S754_finite false 5404319552844595 (-54).
Theorem C59_double_refuted : option_map (@List.length _) (main_loop64 d03 d01 10) = Some 15%nat.
Proof. vm_compute. reflexivity. Qed.

Example C59_example : main_loop (fun x => x) 2 1 3 = Some (flat_map (step_events 1) [0; 1; 2]%nat).
Proof.
  assert (E : steps_exact 2 1 = 3%nat).
  { unfold steps_exact. replace (2 / 1) with (IZR 2) by lra. now rewrite Int_part_IZR. }
  rewrite C59_main_loop; rewrite ?E; [reflexivity|lra|lia].
Qed.

Print Assumptions C28_budget_partial.
Print Assumptions C28_budget_rounded.
Print Assumptions C28_strict_miss_refuted.
Print Assumptions C60_rec_partial.
Print Assumptions C60_list.
Print Assumptions C60_accepted_inside.
Print Assumptions C60_shapes_refuted.
Print Assumptions C60_negative_refuted.
Print Assumptions C60_zero_schedule_refuted.
Print Assumptions C59_main_loop.
Print Assumptions C59_step_count.
Print Assumptions C59_not_earlier.
Print Assumptions C59_rounded.
Print Assumptions C59_double_refuted.
