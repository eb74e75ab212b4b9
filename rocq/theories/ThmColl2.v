(** Theorems about the collision operators: C51 - C53 and C77 - C79. *)
From Coq Require Import Reals Lra Psatz List.
From Verif Require Import Base PushModel ThmPush CollOpModel.
Import ListNotations.
Open Scope R_scope.

(** * C51: which cells collide *)
(** ** Specification *)
(** positive weights and at least one moving particle *)
Definition populated (l : list part) : Prop := l <> [] /\ Forall (fun p => 0 < weight p) l.
Definition moving (l : list part) : Prop := exists p, In p l /\ velocity p <> zero3.

Lemma amount_nonneg l : Forall (fun p => 0 < weight p) l -> 0 <= amount_tot l.
Proof. induction 1; cbn [amount_tot]; lra. Qed.
Lemma amount_pos l : populated l -> 0 < amount_tot l.
Proof.
  intros [H F]. destruct l as [|p l]; [congruence|]. inversion F as [|? ? F1 F2]; subst. cbn [amount_tot].
  assert (0 <= amount_tot l) by (now apply amount_nonneg). lra.
Qed.
Lemma energy_nonneg m l : 0 < m -> Forall (fun p => 0 < weight p) l -> 0 <= energy_tot m l.
Proof.
  intros Hm. induction 1 as [|p l H F IH]; cbn [energy_tot]; [lra|].
  assert (0 <= weight p * m * len2 (velocity p)). { apply Rmult_le_pos; [apply Rmult_le_pos; lra|apply len2_nonneg]. } lra.
Qed.
Lemma energy_pos m l : 0 < m -> Forall (fun p => 0 < weight p) l -> moving l -> 0 < energy_tot m l.
Proof.
  intros Hm F. induction F as [|p l H F IH]; intros (q & I & N); [destruct I|]. cbn [energy_tot].
  assert (0 <= weight p * m * len2 (velocity p)). { apply Rmult_le_pos; [apply Rmult_le_pos; lra|apply len2_nonneg]. }
  destruct I as [<-|I].
  - assert (0 < weight p * m * len2 (velocity p)). { apply Rmult_lt_0_compat; [apply Rmult_lt_0_compat; lra|now apply len2_pos]. }
    assert (0 <= energy_tot m l) by (now apply energy_nonneg). lra.
  - assert (0 < energy_tot m l) by (apply IH; exists q; auto). lra.
Qed.
Lemma collide_row_spec ok i : forall f j k, (j <= k < j + Z.of_nat f)%Z ->
  (In (i, k) (collide_row ok i j f) <-> forall j', (j <= j' <= k)%Z -> ok j' = true).
Proof.
  induction f as [|f IH]; intros j k H; [lia|]. cbn [collide_row]. destruct (ok j) eqn:E.
  - destruct (Z.eq_dec j k) as [<-|N].
    + split; [|intros _; now left]. intros _ j' H'. replace j' with j by lia. exact E.
    + specialize (IH (j + 1)%Z k ltac:(lia)). split.
      * intros [Q|I]; [congruence|]. intros j' H'. destruct (Z.eq_dec j' j) as [->|]; [exact E|]. apply IH; [exact I|lia].
      * intros A. right. apply IH. intros j' H'. apply A. lia.
  - split; [intros []|]. intros A. rewrite A in E by lia. discriminate.
Qed.
Lemma collide_row_fst ok i : forall f j p, In p (collide_row ok i j f) -> fst p = i.
Proof. induction f as [|f IH]; intros j p; cbn; [intros []|]. destruct (ok j); [|intros []]. intros [<-|I]; [reflexivity|eauto]. Qed.
Lemma collide_cells_spec mi me dr dz sh nr nz cells i k : (0 <= i < Z.of_nat nr)%Z -> (0 <= k < Z.of_nat nz)%Z ->
  (In (i, k) (collide_cells mi me dr dz sh nr nz cells) <->
   forall j, (0 <= j <= k)%Z -> cell_normal mi me dr dz sh i (cells i j) = true).
Proof.
  intros Hi Hk. unfold collide_cells. rewrite in_flat_map. split.
  - intros (x & _ & I). assert (F := collide_row_fst _ _ _ _ _ I). cbn in F. subst i.
    rewrite collide_row_spec in I by lia. intros j Hj. now apply (I j).
  - intros A. exists (Z.to_nat i). split; [apply in_seq; lia|]. rewrite Z2Nat.id by lia. apply collide_row_spec; [lia|]. exact A.
Qed.
Lemma cell_volume_pos dr dz sh i : 0 < dr -> 0 < dz -> (0 <= sh)%Z -> (0 <= i)%Z -> 0 < geometry_cell_volume dr dz sh i.
Proof.
  intros Hr Hz Hs Hi. unfold geometry_cell_volume. apply IZR_le in Hs, Hi. assert (P := PI_RGT_0).
  assert (0 < PI * dz * dr * dr) by (apply Rmult_lt_0_compat; [apply Rmult_lt_0_compat; [apply Rmult_lt_0_compat|]|]; assumption).
  apply Rmult_lt_0_compat; lra.
Qed.
Lemma normal_quot_t a b : a <> 0 -> b <> 0 -> normal_quot a b = true.
Proof. intros. unfold normal_quot. now rewrite !req_f. Qed.
Lemma cell_normal_t mi me dr dz sh i x : 0 < mi -> 0 < me -> 0 < dr -> 0 < dz -> (0 <= sh)%Z -> (0 <= i)%Z ->
  populated (fst x) -> populated (snd x) -> moving (fst x) -> moving (snd x) -> cell_normal mi me dr dz sh i x = true.
Proof.
  intros ? ? ? ? ? ? P1 P2 M1 M2. unfold cell_normal.
  assert (0 < geometry_cell_volume dr dz sh i) by now apply cell_volume_pos.
  assert (A1 := amount_pos _ P1). assert (A2 := amount_pos _ P2).
  assert (0 < energy_tot mi (fst x)) by (apply energy_pos; [assumption|apply P1|assumption]).
  assert (0 < energy_tot me (snd x)) by (apply energy_pos; [assumption|apply P2|assumption]).
  rewrite !normal_quot_t by lra. reflexivity.
Qed.
(** holds for a cell when all cells before it in its row are populated by moving ions and electrons, too *)
Theorem C51_partial : forall mi me dr dz sh nr nz cells i k,
  0 < mi -> 0 < me -> 0 < dr -> 0 < dz -> (0 <= sh)%Z -> (0 <= i < Z.of_nat nr)%Z -> (0 <= k < Z.of_nat nz)%Z ->
  (forall j, (0 <= j <= k)%Z -> populated (fst (cells i j)) /\ populated (snd (cells i j)) /\
                                moving (fst (cells i j)) /\ moving (snd (cells i j))) ->
  In (i, k) (collide_cells mi me dr dz sh nr nz cells).
Proof.
  intros. apply collide_cells_spec; [assumption|assumption|]. intros j Hj. destruct (H6 j Hj) as (? & ? & ? & ?).
  apply cell_normal_t; auto. lia.
Qed.
(** one cell without electrons or without ions stops the rest of its row, whatever the other cells hold *)
Theorem C51_refuted_row : forall mi me dr dz sh nr nz cells i j k,
  (0 <= i < Z.of_nat nr)%Z -> (0 <= j <= k)%Z -> (k < Z.of_nat nz)%Z ->
  fst (cells i j) = [] \/ snd (cells i j) = [] ->
  ~ In (i, k) (collide_cells mi me dr dz sh nr nz cells).
Proof.
  intros mi me dr dz sh nr nz cells i j k Hi Hj Hk He I. rewrite collide_cells_spec in I by lia.
  specialize (I j Hj). unfold cell_normal, normal_quot in I. destruct He as [E|E]; rewrite E in I; cbn [amount_tot energy_tot] in I;
    replace (req 0 0) with true in I by (unfold req; destruct (Req_EM_T 0 0); congruence); cbn in I; rewrite ?andb_false_r in I; discriminate.
Qed.
Definition one_at (v : v3) : list part := [Part 1 v].
Definition row_with_hole (i j : Z) : cell := if (j =? 1)%Z then (one_at (V3 1 0 0), one_at (V3 0 1 0)) else ([], []).
Lemma one_populated v : populated (one_at v).
Proof. split; [discriminate|]. constructor; [cbn; lra|constructor]. Qed.
Lemma one_moving v : v <> zero3 -> moving (one_at v).
Proof. intros H. exists (Part 1 v). split; [now left|exact H]. Qed.
Theorem C51_refuted : exists nr nz cells i j, (0 <= i < Z.of_nat nr)%Z /\ (0 <= j < Z.of_nat nz)%Z /\
  populated (fst (cells i j)) /\ populated (snd (cells i j)) /\ moving (fst (cells i j)) /\ moving (snd (cells i j)) /\
  ~ In (i, j) (collide_cells 1 1 1 1 0 nr nz cells).
Proof.
  exists 1%nat, 2%nat, row_with_hole, 0%Z, 1%Z. split; [lia|]. split; [lia|]. cbn [row_with_hole Z.eqb Pos.eqb fst snd].
  split; [apply one_populated|]. split; [apply one_populated|].
  split; [apply one_moving; intros E; injection E; lra|]. split; [apply one_moving; intros E; injection E; lra|].
  apply C51_refuted_row with 0%Z; [lia|lia|lia|]. now left.
Qed.
(** ions at rest are enough *)
Theorem C51_cold_refuted : exists cells, populated (fst (cells 0%Z 0%Z)) /\ populated (snd (cells 0%Z 0%Z)) /\ moving (snd (cells 0%Z 0%Z)) /\
  ~ In (0%Z, 0%Z) (collide_cells 1 1 1 1 0 1 1 cells).
Proof.
  exists (fun _ _ => (one_at zero3, one_at (V3 0 1 0))). cbn [fst snd].
  split; [apply one_populated|]. split; [apply one_populated|]. split; [apply one_moving; intros E; injection E; lra|].
  intros I. rewrite collide_cells_spec in I by lia. specialize (I 0%Z ltac:(lia)). unfold cell_normal, normal_quot in I.
  cbn [fst snd one_at energy_tot amount_tot weight velocity] in I.
  assert (Z0 : req (1 * 1 * len2 zero3 / 2 + 0) 0 = true).
  { unfold req. destruct (Req_EM_T _ 0) as [|N]; [reflexivity|]. destruct N. unfold len2, zero3. cbn. lra. }
  rewrite Z0 in I. cbn in I. rewrite !andb_false_r in I. discriminate.
Qed.
Example C51_ex : forall j, (0 <= j <= 1)%Z ->
  populated (fst ((fun _ _ : Z => (one_at (V3 1 0 0), one_at (V3 0 1 0))) 0%Z j)) /\ moving (one_at (V3 1 0 0)).
Proof. intros j _. split; [apply one_populated|apply one_moving; intros E; injection E; lra]. Qed.

(** * C52: correct_velocities *)
(** ** Specification *)
Definition total_mass (m : R) (l : list part) : R := m * amount_tot l.
Definition mean_velocity (m : R) (l : list part) : v3 := vscale (/ total_mass m l) (moment_tot m l).
(** kinetic energy relative to a velocity [a] *)
Fixpoint energy_about (m : R) (a : v3) (l : list part) : R :=
  match l with [] => 0 | p :: l => weight p * m * len2 (vsub (velocity p) a) / 2 + energy_about m a l end.
Definition thermal (m : R) (l : list part) : R := energy_about m (mean_velocity m l) l.

Lemma energy_about_eq m a l : energy_about m a l = energy_tot m l - vdot a (moment_tot m l) + total_mass m l * len2 a / 2.
Proof.
  induction l as [|p l IH]; cbn [energy_about energy_tot moment_tot].
  - unfold total_mass, vdot. cbn. lra.
  - rewrite IH. unfold total_mass, vdot, len2, vsub, vadd, vscale. cbn [amount_tot vx vy vz]. field.
Qed.
Lemma thermal_eq m l : total_mass m l <> 0 ->
  thermal m l = energy_tot m l - total_mass m l * len2 (mean_velocity m l) / 2.
Proof.
  intros H. unfold thermal. rewrite energy_about_eq. unfold mean_velocity.
  set (P := moment_tot m l). set (M := total_mass m l) in *. unfold vdot, len2, vscale. cbn [vx vy vz]. field. exact H.
Qed.
Lemma energy_about_nonneg m a l : 0 < m -> Forall (fun p => 0 < weight p) l -> 0 <= energy_about m a l.
Proof.
  intros Hm. induction 1 as [|p l H F IH]; cbn [energy_about]; [lra|].
  assert (0 <= weight p * m * len2 (vsub (velocity p) a)). { apply Rmult_le_pos; [apply Rmult_le_pos; lra|apply len2_nonneg]. } lra.
Qed.
Definition shift_part (v0 : v3) (alpha : R) (dv : v3) (p : part) : part :=
  Part (weight p) (vadd v0 (vscale alpha (vsub (vsub (velocity p) v0) dv))).
Lemma shift_amount v0 al dv l : amount_tot (map (shift_part v0 al dv) l) = amount_tot l.
Proof. induction l as [|p l IH]; [reflexivity|]. cbn [map amount_tot]. now rewrite IH. Qed.
Lemma shift_moment m v0 al dv l : moment_tot m (map (shift_part v0 al dv) l) =
  vadd (vscale (total_mass m l) v0) (vscale al (vsub (moment_tot m l) (vscale (total_mass m l) (vadd v0 dv)))).
Proof.
  induction l as [|p l IH].
  - unfold total_mass. cbn. unfold vadd, vscale, vsub. cbn. f_equal; ring.
  - cbn [map moment_tot]. rewrite IH. unfold total_mass. cbn [amount_tot]. unfold vadd, vscale, vsub. cbn. f_equal; ring.
Qed.
Lemma shift_energy m v0 al dv l : energy_tot m (map (shift_part v0 al dv) l) =
  total_mass m l * len2 v0 / 2 + al * vdot v0 (vsub (moment_tot m l) (vscale (total_mass m l) (vadd v0 dv)))
  + al * al * energy_about m (vadd v0 dv) l.
Proof.
  induction l as [|p l IH].
  - unfold total_mass, vdot. cbn. lra.
  - cbn [map energy_tot energy_about moment_tot]. rewrite IH. unfold total_mass. cbn [amount_tot].
    unfold shift_part, vdot, len2, vadd, vscale, vsub. cbn [weight velocity vx vy vz]. field.
Qed.
Lemma amount_weights l l' : map weight l = map weight l' -> amount_tot l = amount_tot l'.
Proof.
  revert l'. induction l as [|p l IH]; intros [|p' l'] E; try discriminate; [reflexivity|]. cbn in E. injection E as E1 E2.
  cbn [amount_tot]. rewrite E1. f_equal. now apply IH.
Qed.
Theorem C52_correct : forall m l0 l, 0 < m -> l0 <> [] -> Forall (fun p => 0 < weight p) l0 -> map weight l = map weight l0 ->
  thermal m l0 <> 0 -> thermal m l <> 0 ->
  let l' := correct_velocities m (amount_tot l0) (moment_tot m l0) (energy_tot m l0) l in
  map weight l' = map weight l0 /\ moment_tot m l' = moment_tot m l0 /\ energy_tot m l' = energy_tot m l0.
Proof.
  intros m l0 l Hm Hne F W T0 T1. cbv zeta.
  assert (A : amount_tot l = amount_tot l0) by now apply amount_weights.
  assert (A0 : 0 < amount_tot l0) by (apply amount_pos; split; assumption).
  assert (F1 : Forall (fun p => 0 < weight p) l).
  { rewrite Forall_forall in F |- *. intros p I. apply (in_map weight) in I. rewrite W in I. apply in_map_iff in I.
    destruct I as (q & <- & J). now apply F. }
  unfold correct_velocities. cbv zeta. set (M := amount_tot l0 * m).
  assert (HM : 0 < M) by (now apply Rmult_lt_0_compat).
  assert (M0 : total_mass m l0 = M) by (unfold total_mass, M; ring).
  assert (M1 : total_mass m l = M) by (unfold total_mass, M; rewrite A; ring).
  set (v0 := vscale (/ M) (moment_tot m l0)). set (dv := vscale (/ M) (vsub (moment_tot m l) (moment_tot m l0))).
  assert (V1 : vadd v0 dv = mean_velocity m l).
  { unfold mean_velocity. rewrite M1. unfold v0, dv, vadd, vsub, vscale. cbn. f_equal; ring. }
  assert (V0 : v0 = mean_velocity m l0) by (unfold mean_velocity; now rewrite M0).
  assert (N : energy_tot m l0 - M * len2 v0 / 2 = thermal m l0) by (rewrite thermal_eq, V0, M0 by lra; reflexivity).
  assert (D : energy_tot m l0 + (energy_tot m l - energy_tot m l0) - M * len2 (vadd v0 dv) / 2 = thermal m l).
  { rewrite thermal_eq, V1, M1 by lra. ring. }
  rewrite N, D, normal_quot_t, req_f by (assumption || lra).
  assert (P0 : 0 < thermal m l0). { assert (0 <= thermal m l0) by (apply energy_about_nonneg; assumption). lra. }
  assert (P1 : 0 < thermal m l). { assert (0 <= thermal m l) by (apply energy_about_nonneg; assumption). lra. }
  assert (Q : 0 < thermal m l0 / thermal m l) by (now apply Rdiv_lt_0_compat).
  rewrite rlt_f, req_f by lra. fold (shift_part v0 (sqrt (thermal m l0 / thermal m l)) dv).
  assert (Z0 : vsub (moment_tot m l) (vscale (total_mass m l) (vadd v0 dv)) = zero3).
  { rewrite V1. unfold mean_velocity. rewrite M1. unfold vsub, vscale, zero3. cbn. f_equal; field; lra. }
  repeat match goal with |- _ /\ _ => split end.
  - rewrite map_map. cbn [shift_part weight]. exact W.
  - change (moment_tot m (map (shift_part v0 (sqrt (thermal m l0 / thermal m l)) dv) l) = moment_tot m l0).
    rewrite shift_moment, Z0, M1. unfold v0, vadd, vscale, zero3. cbn.
    apply v3_eq; cbn; field; lra.
  - change (energy_tot m (map (shift_part v0 (sqrt (thermal m l0 / thermal m l)) dv) l) = energy_tot m l0).
    rewrite shift_energy, Z0, M1. rewrite sqrt_sqrt by lra. rewrite V1. fold (thermal m l).
    replace (vdot v0 zero3) with 0 by (unfold vdot, zero3; cbn; ring).
    replace (thermal m l0 / thermal m l * thermal m l) with (thermal m l0) by (field; lra). rewrite <- N. lra.
Qed.
(** a single particle, or particles moving together, before the collisions: nothing is restored *)
Theorem C52_cold_refuted : forall m l0 l, 0 < m -> l0 <> [] -> Forall (fun p => 0 < weight p) l0 -> map weight l = map weight l0 ->
  thermal m l0 = 0 ->
  correct_velocities m (amount_tot l0) (moment_tot m l0) (energy_tot m l0) l = l.
Proof.
  intros m l0 l Hm Hne F W T0. unfold correct_velocities. cbv zeta. set (M := amount_tot l0 * m).
  assert (A0 : 0 < amount_tot l0) by (apply amount_pos; split; assumption).
  assert (HM : 0 < M) by (now apply Rmult_lt_0_compat).
  assert (M0 : total_mass m l0 = M) by (unfold total_mass, M; ring).
  assert (N : energy_tot m l0 - M * len2 (vscale (/ M) (moment_tot m l0)) / 2 = 0).
  { rewrite <- T0, thermal_eq by lra. unfold mean_velocity. now rewrite M0. }
  rewrite N, req_f by lra. unfold normal_quot. replace (req 0 0) with true by (unfold req; destruct (Req_EM_T 0 0); congruence).
  now rewrite andb_false_r.
Qed.
Definition l_before : list part := [Part 1 (V3 1 0 0); Part 1 (V3 (-1) 0 0)].
Definition l_after : list part := [Part 1 (V3 0 3 0); Part 1 (V3 0 0 1)].
Lemma mean_before : mean_velocity 1 l_before = zero3.
Proof. unfold mean_velocity, total_mass, l_before, zero3. cbn. unfold vadd, vscale. cbn. f_equal; field. Qed.
Lemma mean_after : mean_velocity 1 l_after = V3 0 (3 / 2) (1 / 2).
Proof. unfold mean_velocity, total_mass, l_after. cbn. unfold vadd, vscale. cbn. f_equal; field. Qed.
Example C52_ex : thermal 1 l_before = 1 /\ thermal 1 l_after = 5 / 2 /\ map weight l_after = map weight l_before /\
  moment_tot 1 l_after <> moment_tot 1 l_before.
Proof.
  unfold thermal. rewrite mean_before, mean_after. unfold l_before, l_after, zero3. cbn. unfold len2, vsub. cbn.
  repeat match goal with |- _ /\ _ => split end; try lra; [reflexivity|]. unfold vadd, vscale. cbn. intros E. injection E. lra.
Qed.

(** * C53: scattering of the relative velocity in TA77S *)
Lemma theta_unit d : sin_theta d * sin_theta d + cos_theta d * cos_theta d = 1.
Proof. unfold sin_theta, cos_theta. field. nra. Qed.
Lemma sincos phi : sin phi * sin phi + cos phi * cos phi = 1.
Proof. exact (sin2_cos2 phi). Qed.
Lemma sqrt_zero x : 0 <= x -> sqrt x = 0 -> x = 0.
Proof. intros H E. rewrite <- (sqrt_sqrt x H), E. ring. Qed.
(** what the code's formula does to the length *)
Theorem C53_length : forall u s c phi, s * s + c * c = 1 -> vx u <> 0 \/ vy u <> 0 ->
  len2 (vadd u (ta77_delta u s c phi)) =
  len2 u + 4 * (sqrt (vx u * vx u + vy u * vy u) * vz u * s * c * cos phi).
Proof.
  intros [x y z] s c phi E N. cbn [vx vy vz] in *. unfold ta77_delta. cbn [vx vy vz]. cbv zeta.
  assert (HP : 0 < x * x + y * y). { destruct N as [N|N]; assert (S := sq_pos _ N); nra. }
  assert (HP2 : 0 < sqrt (x * x + y * y)) by (now apply sqrt_lt_R0).
  rewrite req_f by lra. assert (S1 : sqrt (x * x + y * y) * sqrt (x * x + y * y) = x * x + y * y) by (apply sqrt_sqrt; lra).
  assert (S2 : sqrt (x * x + y * y + z * z) * sqrt (x * x + y * y + z * z) = x * x + y * y + z * z) by (apply sqrt_sqrt; nra).
  set (p := sqrt (x * x + y * y)) in *. set (a := sqrt (x * x + y * y + z * z)) in *. assert (T := sincos phi).
  set (sp := sin phi) in *. set (cp := cos phi) in *. clearbody p a sp cp.
  unfold len2, vadd. cbn [vx vy vz].
  replace (x + (x / p * z * s * cp - y / p * a * s * sp - x * (1 - c))) with ((x * z * s * cp - y * a * s * sp + x * c * p) / p) by (field; lra).
  replace (y + (y / p * z * s * cp + x / p * a * s * sp - y * (1 - c))) with ((y * z * s * cp + x * a * s * sp + y * c * p) / p) by (field; lra).
  replace (z + (p * s * cp - z * (1 - c))) with (p * s * cp + z * c) by ring.
  apply Rmult_eq_reg_r with (p * p); [|nra].
  replace (((x * z * s * cp - y * a * s * sp + x * c * p) / p * ((x * z * s * cp - y * a * s * sp + x * c * p) / p) +
   (y * z * s * cp + x * a * s * sp + y * c * p) / p * ((y * z * s * cp + x * a * s * sp + y * c * p) / p) +
   (p * s * cp + z * c) * (p * s * cp + z * c)) * (p * p))
   with ((x * x + y * y) * (z * z * (s * s) * (cp * cp) + a * a * (s * s) * (sp * sp) + c * c * (p * p) + 2 * z * s * cp * c * p)
         + (p * s * cp + z * c) * (p * s * cp + z * c) * (p * p)) by (field; lra).
  rewrite <- S1. replace (z * z * (s * s) * (cp * cp) + a * a * (s * s) * (sp * sp)) with
    (s * s * (z * z * (cp * cp) + a * a * (sp * sp))) by ring.
  rewrite S2, <- S1. replace (sp * sp) with (1 - cp * cp) by lra. replace (s * s) with (1 - c * c) by lra.
  replace ((p * s * cp + z * c) * (p * s * cp + z * c)) with (p * p * (s * s) * (cp * cp) + z * z * (c * c) + 2 * p * z * s * c * cp) by ring.
  replace (s * s) with (1 - c * c) by lra.
  replace (x * x + y * y) with (p * p) by lra. ring.
Qed.
(** holds for relative velocities across z, and along +z *)
Theorem C53_partial : forall u s c phi, s * s + c * c = 1 ->
  (vz u = 0 /\ (vx u <> 0 \/ vy u <> 0)) \/ (vx u = 0 /\ vy u = 0 /\ 0 <= vz u) ->
  len2 (vadd u (ta77_delta u s c phi)) = len2 u.
Proof.
  intros u s c phi E [[Z N]|(X & Y & Z)].
  - rewrite C53_length by assumption. rewrite Z. ring.
  - destruct u as [x y z]. cbn [vx vy vz] in *. subst. unfold ta77_delta. cbn [vx vy vz]. cbv zeta.
    replace (0 * 0 + 0 * 0) with 0 by ring. rewrite sqrt_0.
    replace (req 0 0) with true by (unfold req; destruct (Req_EM_T 0 0); congruence).
    replace (0 + z * z) with (z * z) by ring. rewrite sqrt_square by assumption.
    assert (T := sincos phi). unfold len2, vadd. cbn [vx vy vz].
    replace ((0 + z * s * cos phi) * (0 + z * s * cos phi) + (0 + z * s * sin phi) * (0 + z * s * sin phi) + (z + - z * (1 - c)) * (z + - z * (1 - c)))
      with (z * z * (s * s * (sin phi * sin phi + cos phi * cos phi) + c * c)) by ring.
    rewrite T. replace (s * s * 1 + c * c) with 1 by lra. ring.
Qed.
(** the formula with the minus sign of Takizuka and Abe is a rotation *)
Definition ta77_delta_paper (u : v3) (s c phi : R) : v3 :=
  let d := ta77_delta u s c phi in V3 (vx d) (vy d) (vz d - 2 * (sqrt (vx u * vx u + vy u * vy u) * s * cos phi)).
Theorem C53_paper : forall u s c phi, s * s + c * c = 1 -> vx u <> 0 \/ vy u <> 0 ->
  len2 (vadd u (ta77_delta_paper u s c phi)) = len2 u.
Proof.
  intros u s c phi E N. assert (L := C53_length u s c phi E N).
  assert (Z : vz (ta77_delta u s c phi) = sqrt (vx u * vx u + vy u * vy u) * s * cos phi - vz u * (1 - c)).
  { unfold ta77_delta. cbv zeta. destruct (req _ 0) eqn:R; [|reflexivity]. exfalso.
    unfold req in R. destruct (Req_EM_T _ 0) as [Q|]; [|discriminate]. apply sqrt_zero in Q; [|nra].
    destruct N as [N|N]; assert (S := sq_pos _ N); nra. }
  unfold ta77_delta_paper. cbv zeta. unfold len2, vadd in *. cbn [vx vy vz] in *. rewrite Z in *.
  set (p := sqrt (vx u * vx u + vy u * vy u)) in *. clearbody p. 
  set (dx := vx (ta77_delta u s c phi)) in *. set (dy := vy (ta77_delta u s c phi)) in *. clearbody dx dy. nra.
Qed.
(** the formula of the code is not one *)
Theorem C53_refuted : exists u s c phi, s * s + c * c = 1 /\ (vx u <> 0 \/ vy u <> 0) /\
  len2 (vadd u (ta77_delta u s c phi)) <> len2 u.
Proof.
  exists (V3 1 0 1), (3 / 5), (4 / 5), 0. split; [lra|]. split; [left; cbn; lra|].
  rewrite C53_length; [|lra|left; cbn; lra]. cbn [vx vy vz]. replace (1 * 1 + 0 * 0) with 1 by ring. rewrite sqrt_1, cos_0.
  unfold len2. cbn. lra.
Qed.
(** along -z the length changes, too *)
Theorem C53_refuted_minus_z : forall z s c phi, z < 0 -> s * s + c * c = 1 ->
  len2 (vadd (V3 0 0 z) (ta77_delta (V3 0 0 z) s c phi)) = (5 - 4 * c) * len2 (V3 0 0 z).
Proof.
  intros z s c phi Hz E. unfold ta77_delta. cbn [vx vy vz]. cbv zeta. replace (0 * 0 + 0 * 0) with 0 by ring. rewrite sqrt_0.
  replace (req 0 0) with true by (unfold req; destruct (Req_EM_T 0 0); congruence).
  replace (sqrt (0 + z * z)) with (- z). 2:{ replace (0 + z * z) with ((- z) * (- z)) by ring. now rewrite sqrt_square by lra. }
  assert (T := sincos phi). unfold len2, vadd. cbn [vx vy vz].
  replace ((0 + - z * s * cos phi) * (0 + - z * s * cos phi) + (0 + - z * s * sin phi) * (0 + - z * s * sin phi) + (z + - - z * (1 - c)) * (z + - - z * (1 - c)))
    with (z * z * (s * s * (sin phi * sin phi + cos phi * cos phi) + (2 - c) * (2 - c))) by ring.
  rewrite T. replace (s * s) with (1 - c * c) by lra. ring.
Qed.
(** the second pair of angles is a pair of angles *)
Theorem C53_theta2 : forall w d, 0 <= w <= 1 -> sin_theta2 w d * sin_theta2 w d + cos_theta2 w d * cos_theta2 w d = 1.
Proof.
  intros w d Hw. unfold sin_theta2, cos_theta2. cbv zeta. assert (U := theta_unit d).
  set (s := sin_theta d) in *. set (c := cos_theta d) in *. clearbody s c.
  assert (P : 0 <= w * (s * s) + w * (1 - w) * ((1 - c) * (1 - c))).
  { assert (0 <= s * s) by nra. assert (0 <= (1 - c) * (1 - c)) by nra.
    assert (0 <= w * (s * s)) by (apply Rmult_le_pos; lra). assert (0 <= w * (1 - w)) by (apply Rmult_le_pos; lra).
    assert (0 <= w * (1 - w) * ((1 - c) * (1 - c))) by (apply Rmult_le_pos; lra). lra. }
  assert (Q := sqrt_sqrt _ P). set (r := sqrt _) in *.
  destruct (rlt (r * s) 0); replace (s * s) with (1 - c * c) in Q by lra; nra.
Qed.

(** * C78: momentum of the colliding pair, C79: like particles *)
Lemma sin_theta2_1 d : sin_theta2 1 d = sin_theta d.
Proof.
  unfold sin_theta2. cbv zeta. set (s := sin_theta d). replace (1 * (s * s) + 1 * (1 - 1) * _) with (s * s) by ring.
  destruct (Rle_lt_dec 0 s) as [H|H].
  - rewrite sqrt_square by assumption. rewrite rlt_f; [reflexivity|]. nra.
  - replace (s * s) with (- s * - s) by ring. rewrite sqrt_square by lra. rewrite rlt_t; [ring|]. nra.
Qed.
Lemma cos_theta2_1 d : cos_theta2 1 d = cos_theta d.
Proof. unfold cos_theta2. ring. Qed.
Lemma ta77_equal ma mb va vb d phi dz : va <> vb ->
  let u := vsub va vb in let m_ab := ma * mb / (ma + mb) in let du := ta77_delta u (sin_theta d) (cos_theta d) phi in
  ta77_sorted ma mb 1 va vb d phi dz = (vadd va (vscale (m_ab / ma) du), vadd vb (vscale (m_ab / mb) du)).
Proof.
  intros N. cbv zeta. unfold ta77_sorted. cbv zeta. rewrite req_f.
  - rewrite sin_theta2_1, cos_theta2_1, sqrt_1. replace (phi + 2 * PI * (1 - 1) * (1 - dz)) with phi by ring. reflexivity.
  - intros Q. apply sqrt_zero in Q; [|nra]. apply N.
    assert (L : len2 (vsub va vb) = 0) by exact Q. apply len2_zero in L. unfold vsub, zero3 in L. injection L as A B C.
    apply v3_eq; lra.
Qed.
(** two particles of equal weight: the momentum of the pair changes by twice the momentum one of them should give the other *)
Theorem C78_momentum : forall ma mb w va vb d phi dz va' vb', 0 < ma -> 0 < mb -> 0 < w -> va <> vb ->
  ta77_single ma mb (Part w va) (Part w vb) d phi dz = (va', vb') ->
  vadd (vscale ma va') (vscale mb vb') =
  vadd (vadd (vscale ma va) (vscale mb vb))
       (vscale (2 * (ma * mb / (ma + mb))) (ta77_delta (vsub va vb) (sin_theta d) (cos_theta d) phi)).
Proof.
  intros ma mb w va vb d phi dz va' vb' Ha Hb Hw N E. unfold ta77_single in E. cbv zeta in E. cbn [weight velocity] in E.
  replace (w / w) with 1 in E by (field; lra). rewrite rlt_f in E by lra. rewrite ta77_equal in E by assumption.
  injection E as <- <-. set (du := ta77_delta _ _ _ _). clearbody du. apply v3_eq; unfold vadd, vscale; cbn; field; lra.
Qed.
Theorem C78_refuted : exists ma mb w va vb d phi dz, 0 < ma /\ 0 < mb /\ 0 < w /\
  let '(va', vb') := ta77_single ma mb (Part w va) (Part w vb) d phi dz in
  vadd (vscale ma va') (vscale mb vb') <> vadd (vscale ma va) (vscale mb vb).
Proof.
  exists 1, 1, 1, (V3 1 0 0), (V3 0 0 0), 1, (PI / 2), 0. split; [lra|]. split; [lra|]. split; [lra|].
  assert (N : V3 1 0 0 <> V3 0 0 0) by (intros E; injection E; lra).
  destruct (ta77_single _ _ _ _ _ _ _) as [va' vb'] eqn:E. apply C78_momentum in E; [|lra|lra|lra|exact N]. rewrite E.
  unfold vsub, ta77_delta. cbn [vx vy vz]. cbv zeta. replace ((1 - 0) * (1 - 0) + (0 - 0) * (0 - 0)) with 1 by ring.
  replace (1 + (0 - 0) * (0 - 0)) with 1 by ring. rewrite sqrt_1, req_f by lra. rewrite cos_PI2, sin_PI2.
  unfold sin_theta, cos_theta, vadd, vscale. cbn. intros Q. injection Q. lra.
Qed.
(** two particles of one species and of equal weight are shifted together: their relative velocity does not change at all *)
Theorem C79_like_refuted : forall m w va vb d phi dz va' vb', 0 < m -> 0 < w ->
  ta77_single m m (Part w va) (Part w vb) d phi dz = (va', vb') -> vsub va' vb' = vsub va vb.
Proof.
  intros m w va vb d phi dz va' vb' Hm Hw E. unfold ta77_single in E. cbv zeta in E. cbn [weight velocity] in E.
  replace (w / w) with 1 in E by (field; lra). rewrite rlt_f in E by lra.
  destruct (req (len2 (vsub va vb)) 0) eqn:Q.
  - unfold req in Q. destruct (Req_EM_T _ 0) as [Z|]; [|discriminate]. unfold ta77_sorted in E. cbv zeta in E.
    fold (len2 (vsub va vb)) in E. rewrite Z, sqrt_0 in E.
    replace (req 0 0) with true in E by (unfold req; destruct (Req_EM_T 0 0); congruence). injection E as <- <-. reflexivity.
  - rewrite ta77_equal in E.
    + injection E as <- <-. apply v3_eq; unfold vsub, vadd; cbn; ring.
    + intros ->. unfold req in Q. destruct (Req_EM_T _ 0) as [|Z]; [discriminate|]. apply Z. unfold len2, vsub. cbn. ring.
Qed.
(** while a scattering by the same angle should turn it *)
Example C79_ex : vadd (V3 1 0 0) (ta77_delta_paper (V3 1 0 0) (sin_theta 1) (cos_theta 1) (PI / 2)) = V3 0 1 0.
Proof.
  unfold ta77_delta_paper, ta77_delta. cbn [vx vy vz]. cbv zeta. replace (1 * 1 + 0 * 0) with 1 by ring.
  replace (1 + 0 * 0) with 1 by ring. rewrite sqrt_1, req_f by lra. rewrite cos_PI2, sin_PI2. unfold sin_theta, cos_theta, vadd. cbn.
  f_equal; lra.
Qed.

(** * C77: volume of the cells of a domain that is not at the axis *)
(** volume of the ring between the radii [i dr] and [(i+1) dr], [i] counted from the axis *)
Definition ring_volume (dr dz : R) (i : Z) : R := PI * dz * ((IZR (i + 1) * dr) * (IZR (i + 1) * dr) - (IZR i * dr) * (IZR i * dr)).
Lemma ring_volume_eq dr dz i : ring_volume dr dz i = PI * dz * dr * dr * (2 * IZR i + 1).
Proof. unfold ring_volume. rewrite plus_IZR. ring. Qed.
Theorem C77_partial : forall dr dz i, geometry_cell_volume dr dz 0 i = ring_volume dr dz i.
Proof. intros. rewrite ring_volume_eq. unfold geometry_cell_volume. ring. Qed.
Theorem C77_ratio : forall dr dz shift i, geometry_cell_volume dr dz shift i = ring_volume dr dz (i + shift) - PI * dz * dr * dr * IZR shift.
Proof. intros. rewrite ring_volume_eq, plus_IZR. unfold geometry_cell_volume. ring. Qed.
(** every domain away from the axis: the volume is too small, the density too large *)
Theorem C77_refuted : forall dr dz shift i l, 0 < dr -> 0 < dz -> (0 < shift)%Z -> (0 <= i)%Z -> populated l ->
  geometry_cell_volume dr dz shift i < ring_volume dr dz (i + shift) /\
  amount_tot l / ring_volume dr dz (i + shift) < density dr dz shift i l.
Proof.
  intros dr dz shift i l Hr Hz Hs Hi Hl. rewrite <- (Rplus_0_r (geometry_cell_volume dr dz shift i)).
  assert (E := C77_ratio dr dz shift i). assert (S := IZR_lt _ _ Hs). assert (P := PI_RGT_0).
  assert (X : 0 < PI * dz * dr * dr) by (apply Rmult_lt_0_compat; [apply Rmult_lt_0_compat; [apply Rmult_lt_0_compat|]|]; assumption).
  assert (Y : 0 < PI * dz * dr * dr * IZR shift) by (apply Rmult_lt_0_compat; lra).
  assert (V := cell_volume_pos dr dz shift i Hr Hz ltac:(lia) Hi). assert (A := amount_pos l Hl).
  split; [lra|]. unfold density, Rdiv. apply Rmult_lt_compat_l; [exact A|]. apply Rinv_lt_contravar; [|lra].
  apply Rmult_lt_0_compat; lra.
Qed.
(** ten cells away from the axis, innermost cell: 11 instead of 21 *)
Example C77_ex : geometry_cell_volume 1 1 10 0 = PI * 11 /\ ring_volume 1 1 10 = PI * 21.
Proof. split; [unfold geometry_cell_volume|rewrite ring_volume_eq]; ring. Qed.

Print Assumptions C51_partial.
Print Assumptions C51_refuted_row.
Print Assumptions C51_refuted.
Print Assumptions C51_cold_refuted.
Print Assumptions C52_correct.
Print Assumptions C52_cold_refuted.
Print Assumptions C53_length.
Print Assumptions C53_partial.
Print Assumptions C53_paper.
Print Assumptions C53_refuted.
Print Assumptions C53_refuted_minus_z.
Print Assumptions C53_theta2.
Print Assumptions C77_partial.
Print Assumptions C77_refuted.
Print Assumptions C78_momentum.
Print Assumptions C78_refuted.
Print Assumptions C79_like_refuted.
