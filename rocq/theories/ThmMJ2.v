(** C181: the velocities at the start of a thermal species are below that of light. *)
From Coq Require Import ZArith List Reals Bool Lra Lia Psatz.
From Verif Require Import Base PushModel InitModel ThmInit3 MJModel ThmMJ.
Import ListNotations.
Open Scope R_scope.

Lemma argument_63 T u : 1 / 10 <= T <= 1000 -> a_draw u -> argument T u <= 63.
Proof.
  intros HT Hu. assert (L := log_draw u Hu). unfold argument. assert (X : 1 / T <= 10) by (apply Rmult_le_reg_r with T; [lra|]; field_simplify; lra). assert (X0 : 0 < 1 / T) by (apply Rdiv_lt_0_compat; lra).
  replace (- ln (1 - u) - h0 T) with (- ln (1 - u) + gap (1 / T)) by (rewrite <- gap_h0; ring). assert (B := gap_below (1 / T) ltac:(lra)). lra.
Qed.
Lemma exp_45_low : 63 < exp (9 / 2).
Proof.
  replace (9 / 2) with (INR 36 * (1 / 8)) by (rewrite INR_IZR_INZ; change (Z.of_nat 36) with 36%Z; lra). rewrite <- exp_nat. apply Rlt_le_trans with ((9 / 8) ^ 36); [lra|]. apply pow_incr. split; [lra|]. assert (X := exp_ineq1 (1 / 8) ltac:(lra)). lra.
Qed.
Lemma proposal_low T u g : 1 / 10 <= T <= 1000 -> a_draw u -> proposal T u = Ok (Some g) -> 0 < g <= T * 243.
Proof.
  intros HT Hu E. destruct (proposal_table T u HT Hu) as [X E2]. rewrite E in E2. injection E2 as ->. assert (A := argument_63 T u HT Hu). destruct (argument_range T u HT Hu) as [A0 _]. assert (P0 := exp_pos (-26)).
  assert (L : ln (argument T u) < 9 / 2). { rewrite <- (ln_exp (9 / 2)). apply ln_increasing; [lra|]. assert (B := exp_45_low). lra. }
  assert (Y : place T u < 821) by (unfold place; lra). destruct (line_between _ h_rises _ X) as [_ B]. assert (I := int_range _ 821 (conj (proj1 X) Y)).
  assert (M := v_mono _ h_rises (Int_part (place T u) + 1) 821 ltac:(lia) ltac:(lia)). assert (V : val lnInvH_tab 821 < 5).
  { unfold val. let x := eval vm_compute in (nth (Z.to_nat 821) lnInvH_tab 0%Z) in change (nth (Z.to_nat 821) lnInvH_tab 0%Z) with x. unfold entry. change (IZR (10 ^ 21)) with 1000000000000000000000. lra. }
  set (z := line _ _) in *. clearbody z. assert (P := exp_pos z). assert (Z5 : exp z < exp 5) by (apply exp_increasing; lra).
  assert (E5 : exp 5 <= 3 ^ 5). { replace 5 with (INR 5 * 1) at 1 by (rewrite INR_IZR_INZ; change (Z.of_nat 5) with 5%Z; lra). rewrite <- exp_nat. apply pow_incr. split; [left; apply exp_pos|exact exp_le_3]. }
  split; [nra|]. apply Rmult_le_compat_l; lra.
Qed.
(** What is sampled is at most 243 temperatures. *)
Theorem C181_energy : forall fuel T d k e m, 0 <= T <= 1000 -> (forall n, a_draw (d n)) -> (T < 1 / 10 -> d k <> exp (- exp 2)) -> sampled fuel T d k = Ok (Some (Some e, m)) -> -1 < e <= 243 * T.
Proof.
  intros fuel T d k e m HT Hd N E. destruct (C180_cases fuel T d k) as [A B]. destruct (Rlt_le_dec T (1 / 10)) as [Lo|Hi].
  - assert (Dk : 0 <= d k < 1). { destruct (Hd k) as [D1 D2]. assert (0 < / 2 ^ 53) by (apply Rinv_0_lt_compat; lra). lra. }
    destruct (A ltac:(lra) Dk (N Lo)) as (e' & E' & _ & B'). rewrite E in E'. injection E' as <- _. assert (L : largest <= 81).
    { unfold largest. apply Rle_trans with (exp 4); [left; apply exp_increasing; unfold entry; change (IZR (10 ^ 21)) with 1000000000000000000000; lra|].
      replace 4 with (INR 4 * 1) by (rewrite INR_IZR_INZ; change (Z.of_nat 4) with 4%Z; lra). rewrite <- exp_nat. apply Rle_trans with (3 ^ 4); [|lra]. apply pow_incr. split; [left; apply exp_pos|exact exp_le_3]. }
    nra.
  - rewrite B in E by exact Hi. destruct (C180_loop T d ltac:(lra) Hd fuel k) as [H|(n & g & _ & H & G & _)]; rewrite H in E; [discriminate|]. injection E as <- _.
    assert (P := proposal_low T _ g ltac:(lra) (Hd _) G). lra.
Qed.
(** Electrons and heavier particles of at most 1000 eV start slower than light, whatever is drawn. *)
Theorem C181_start : forall fuel T d k e m mass d0 d1 d2, 0 <= T <= 1000 -> (forall n, a_draw (d n)) -> (T < 1 / 10 -> d k <> exp (- exp 2)) -> sampled fuel T d k = Ok (Some (Some e, m)) ->
  EL_MASS <= mass -> 0 <= e -> -1 <= d0 <= 1 -> -1 <= d1 <= 1 -> -1 <= d2 <= 1 -> len2 (thermal_velocity LIGHT_VEL REL_LIMIT mass e d0 d1 d2) < LIGHT_VEL * LIGHT_VEL.
Proof.
  intros fuel T d k e m mass d0 d1 d2 HT Hd N E Hm He H0 H1 H2. destruct (C181_energy fuel T d k e m HT Hd N E) as [_ B]. assert (M : 0 < EL_MASS) by (rewrite ten32; lra).
  apply C91_thermal_partial; try assumption; try (unfold LIGHT_VEL, REL_LIMIT; lra).
  assert (Q : 0 <= quantum_momentum LIGHT_VEL mass e <= LIGHT_VEL); [|nra]. unfold quantum_momentum. split.
  - apply Rmult_le_pos; [assert (X := ten20); rewrite X; nra|]. left. apply Rinv_0_lt_compat. unfold LIGHT_VEL. nra.
  - assert (C : 0 < mass * LIGHT_VEL) by (unfold LIGHT_VEL; nra). apply Rmult_le_reg_r with (mass * LIGHT_VEL); [exact C|]. unfold Rdiv. rewrite Rmult_assoc, Rinv_l, Rmult_1_r by lra.
    rewrite ten20. rewrite ten32 in Hm. unfold LIGHT_VEL. nra.
Qed.
(** what the conditions ask for: electrons of the sample configuration (1 eV) whose first draws are 1/2 and 0 *)
Definition coins (n : nat) : R := match n with O => 1 / 2 | _ => 0 end.
Example C181_ex : (forall n, a_draw (coins n)) /\ (1 < 1 / 10 -> coins 0 <> exp (- exp 2)) /\ EL_MASS <= EL_MASS /\ exists e, sampled 1 1 coins 0 = Ok (Some (Some e, 2%nat)) /\ 0 < e.
Proof.
  assert (Q : 0 < / 2 ^ 53 < 1 / 2) by (split; [apply Rinv_0_lt_compat|]; lra). assert (A : forall n, a_draw (coins n)) by (intros [|n]; unfold a_draw, coins; lra).
  split; [exact A|]. split; [lra|]. split; [lra|]. destruct (C180_proposal 1 (coins 0) ltac:(lra) (A O)) as (g & E & P & _).
  assert (G : 1 < g).
  { destruct (proposal_table 1 (coins 0) ltac:(lra) (A O)) as [X E2]. rewrite E in E2. injection E2 as ->. rewrite Rmult_1_l. apply Rle_lt_trans with (exp 0); [rewrite exp_0; lra|]. apply exp_increasing.
    assert (H1 : 1 / 2 <= argument 1 (coins 0)).
    { unfold argument. replace (- ln (1 - coins 0) - h0 1) with (- ln (1 - coins 0) + gap (1 / 1)) by (rewrite <- gap_h0; ring). assert (Gp := gap_pos (1 / 1) ltac:(lra)). cbn [coins]. replace (1 - 1 / 2) with (/ 2) by lra. rewrite ln_Rinv by lra.
      assert (1 / 2 <= ln 2); [|lra]. rewrite <- (ln_exp (1 / 2)). assert (X2 : exp (1 / 2) <= 2) by (eapply Rle_trans; [apply exp_low; lra|]; right; field). destruct X2 as [X2|X2]; [left; apply ln_increasing; [apply exp_pos|exact X2]|right; now rewrite X2]. }
    assert (H2 : -1 < ln (argument 1 (coins 0))). { rewrite <- (ln_exp (-1)) at 1. apply ln_increasing; [apply exp_pos|]. rewrite exp_m1. assert (Y := exp_ineq1 1 ltac:(lra)). assert (/ exp 1 < / 2) by (apply Rinv_lt_contravar; lra). lra. }
    assert (Y : 689 < place 1 (coins 0)) by (unfold place; lra). destruct (line_between _ h_rises _ X) as [Bt _]. assert (I := int_range _ 999 X).
    assert (I2 : (689 <= Int_part (place 1 (coins 0)))%Z). { destruct (int_part (place 1 (coins 0))) as [_ U]. assert (W : IZR 689 < IZR (Int_part (place 1 (coins 0)) + 1)) by (rewrite plus_IZR; lra). apply lt_IZR in W. lia. }
    assert (M := v_mono _ h_rises 689 (Int_part (place 1 (coins 0))) ltac:(lia) ltac:(lia)). assert (V : 0 < val lnInvH_tab 689); [|change (1 / 2) with (coins 0); lra].
    unfold val. let x := eval vm_compute in (nth (Z.to_nat 689) lnInvH_tab 0%Z) in change (nth (Z.to_nat 689) lnInvH_tab 0%Z) with x. unfold entry. change (IZR (10 ^ 21)) with 1000000000000000000000. lra. }
  exists (g - 1). split; [|lra].
  destruct (C180_loop 1 coins ltac:(lra) A 1%nat 0%nat) as [H|(n & g2 & Hn & R & E2 & _)].
  - exfalso. cbn [relativistic] in H. rewrite E in H. cbn [bind] in H. assert (F : again (Some g) (coins 1) = false); [|rewrite F in H; discriminate].
    destruct (again (Some g) (coins 1)) eqn:Ag; [|reflexivity]. apply again_is in Ag; [|exact P]. destruct Ag as [_ V]. exfalso. cbn [coins] in V. assert (0 < velocity g); [|lra].
    apply sqrt_lt_R0. assert (1 / (g * g) < 1); [|lra]. apply Rmult_lt_reg_r with (g * g); [nra|]. field_simplify; nra.
  - assert (n = 0)%nat by lia. subst n. destruct (C180_cases 1 1 coins 0) as [_ Cs]. rewrite Cs by lra. rewrite R. cbn [Nat.mul Nat.add] in E2. rewrite E in E2. injection E2 as <-. reflexivity.
Qed.
Print Assumptions C181_energy.
Print Assumptions C181_start.
Print Assumptions C181_ex.
