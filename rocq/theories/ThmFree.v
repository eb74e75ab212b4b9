(** C163: a particle that no force acts on. *)
From Coq Require Import Reals Lra Psatz.
From Verif Require Import Base ParticleModel ParticleProofs StepModel ThmParticle ThmStep.
From Verif Require ThmRound CollectorModel.
Open Scope R_scope.

(** ** specification *)
(** the place is at least half a cell away from the walls of the domain *)
Definition clear_of_walls (g : geo) (r z : R) : Prop :=
  (w_rr g = true -> r - IZR (g_bot g) * g_dr g <= g_size_r g - g_dr g / 2) /\ (w_r0 g = true -> g_dr g / 2 <= r - IZR (g_bot g) * g_dr g) /\
  (w_zz g = true -> z - IZR (g_left g) * g_dz g <= g_size_z g - g_dz g / 2) /\ (w_z0 g = true -> g_dz g / 2 <= z - IZR (g_left g) * g_dz g).
(** after a time t of uniform motion: radius, height, radial and azimuthal velocity, in the cylindrical coordinates of the place where the
    particle is (x, y: Cartesian coordinates, the particle starts at y = 0) *)
Definition free_x (t : R) (p : part) : R := pos_r p + vel_r p * t.
Definition free_y (t : R) (p : part) : R := vel_phi p * t.
Definition free_r (t : R) (p : part) : R := sqrt (free_x t p ^ 2 + free_y t p ^ 2).
Definition free_z (t : R) (p : part) : R := pos_z p + vel_z p * t.
Definition free_vr (t : R) (p : part) : R := (free_x t p * vel_r p + free_y t p * vel_phi p) / free_r t p.
Definition free_vphi (t : R) (p : part) : R := (free_x t p * vel_phi p - free_y t p * vel_r p) / free_r t p.
Definition angular_momentum (p : part) : R := pos_r p * vel_phi p.
(** p' is p after a time t of uniform motion *)
Definition uniform_motion (t : R) (p p' : part) : Prop :=
  pos_r p' = free_r t p /\ pos_phi p' = 0 /\ pos_z p' = free_z t p /\ vel_r p' = free_vr t p /\ vel_phi p' = free_vphi t p /\ vel_z p' = vel_z p /\ weight p' = weight p.
(** the specification is right: angular momentum is kept *)
Lemma free_angular t p p' : free_r t p <> 0 -> uniform_motion t p p' -> angular_momentum p' = angular_momentum p.
Proof.
  intros H (A & _ & _ & _ & B & _). unfold angular_momentum. rewrite A, B. unfold free_vphi, free_x, free_y. field. exact H.
Qed.
Lemma advanced_fun g dt p a b : advanced g dt p a -> advanced g dt p b -> a = b.
Proof. intros [n A] [m B]. specialize (A (Nat.max n m) ltac:(apply Nat.le_max_l)). specialize (B (Nat.max n m) ltac:(apply Nat.le_max_r)). congruence. Qed.

(** ** one step *)
Section Step.
Variables (g : geo) (dt : R) (p : part).
Hypothesis Wg : wide g.
Hypothesis Op : on_plane p.
Hypothesis Off : free_r dt p <> 0.
Hypothesis Cw : clear_of_walls g (free_r dt p) (free_z dt p).
Hypothesis Fwd : 0 <= free_x dt p.
Lemma moved_dist : dist (mover dt p) = free_r dt p.
Proof using Op. unfold dist, free_r, free_x, free_y. cbn [mover pos_r pos_phi]. destruct Op as [_ E]. rewrite E. f_equal. ring. Qed.
Lemma moved_off : off_axis (mover dt p).
Proof using Op Off.
  destruct Op as [_ E]. unfold off_axis. cbn [mover pos_r pos_phi]. rewrite E. fold (free_x dt p).
  destruct (Req_dec (free_x dt p) 0) as [X|X]; [|now left]. right. intros Y. apply Off. unfold free_r. rewrite X.
  replace (free_y dt p) with 0 by (unfold free_y; lra). replace (0 ^ 2 + 0 ^ 2) with 0 by ring. apply sqrt_0.
Qed.
Lemma moved_is p' : advanced g dt p p' -> p' = back_velocity (back_position (mover dt p)).
Proof using Wg Op Off Cw.
  intros A. apply (advanced_fun g dt p); [exact A|]. exists 0%nat. intros fuel _. unfold advance. rewrite C30_untouched; [reflexivity|].
  unfold inside, local_r, local_z. change (pos_r (back_position (mover dt p))) with (sqrt (pos_r (mover dt p) * pos_r (mover dt p) + pos_phi (mover dt p) * pos_phi (mover dt p))).
  rewrite back_dist, moved_dist. exact Cw.
Qed.
Lemma step_formula p' : advanced g dt p p' -> pos_r p' = free_r dt p /\ pos_phi p' = 0 /\ pos_z p' = free_z dt p /\
  vel_r p' = (free_x dt p * vel_r p - free_y dt p * vel_phi p) / free_r dt p /\ vel_phi p' = (free_x dt p * vel_phi p + free_y dt p * vel_r p) / free_r dt p /\
  vel_z p' = vel_z p /\ weight p' = weight p.
Proof using Wg Op Off Cw Fwd.
  intros A. apply moved_is in A. subst p'. pose proof moved_off as Mo. destruct (back_formula _ Mo) as [A B].
  destruct (C32_back_to_plane _ Mo) as (C1 & C2 & C3 & C4 & C5 & C6). cbv zeta in *. rewrite moved_dist in *.
  destruct Op as [_ E]. rewrite A, B. cbn [mover pos_r pos_phi pos_z vel_r vel_phi vel_z]. rewrite E. fold (free_x dt p). rewrite Rabs_right by lra.
  rewrite Rplus_0_l. fold (free_y dt p). repeat split; try assumption; unfold Rdiv; f_equal; ring.
Qed.
End Step.
Lemma free_pos t p : free_r t p <> 0 -> 0 < free_r t p.
Proof. intros H. assert (P := sqrt_pos (free_x t p ^ 2 + free_y t p ^ 2)). fold (free_r t p) in P. lra. Qed.
Lemma free_sq t p : free_r t p * free_r t p = free_x t p ^ 2 + free_y t p ^ 2.
Proof. unfold free_r. apply sqrt_sqrt. assert (A := pow2_ge_0 (free_x t p)). assert (B := pow2_ge_0 (free_y t p)). lra. Qed.
Lemma div_eq a b r : r <> 0 -> a / r = b / r -> a = b.
Proof. intros H E. apply Rmult_eq_reg_r with (/ r); [exact E|]. now apply Rinv_neq_0_compat. Qed.
(** Away from the walls, one step is the uniform motion exactly if the particle has no azimuthal velocity.  (The place is right, the velocity is not.) *)
Theorem C163_step_partial : forall g dt p p', wide g -> on_plane p -> free_r dt p <> 0 -> clear_of_walls g (free_r dt p) (free_z dt p) -> 0 <= free_x dt p -> dt <> 0 ->
  advanced g dt p p' ->
  (pos_r p' = free_r dt p /\ pos_phi p' = 0 /\ pos_z p' = free_z dt p /\ vel_z p' = vel_z p /\ weight p' = weight p) /\ (uniform_motion dt p p' <-> vel_phi p = 0).
Proof.
  intros g dt p p' W O Off Cw F Hd A. destruct (step_formula g dt p W O Off Cw F p' A) as (A1 & A2 & A3 & A4 & A5 & A6 & A7). split; [auto|]. unfold uniform_motion. rewrite A4, A5. split.
  - intros (_ & _ & _ & E & _). apply (div_eq _ _ _ Off) in E. unfold free_y in E. assert (Z : vel_phi p * vel_phi p * dt = 0) by lra.
    apply Rmult_integral in Z as [Z|Z]; [|contradiction]. now apply Rmult_integral in Z as [Z|Z].
  - intros E. repeat (split; [assumption|]). unfold free_vr, free_vphi, free_y. rewrite E. split; [unfold Rdiv; f_equal; ring|]. split; [unfold Rdiv; f_equal; ring|]. auto.
Qed.
(** The angular momentum grows by 2 v_r v_phi dt in a step. *)
Theorem C163_angular_refuted : forall g dt p p', wide g -> on_plane p -> free_r dt p <> 0 -> clear_of_walls g (free_r dt p) (free_z dt p) -> 0 <= free_x dt p ->
  advanced g dt p p' -> angular_momentum p' = angular_momentum p + 2 * vel_r p * vel_phi p * dt.
Proof.
  intros g dt p p' W O Off Cw F A. destruct (step_formula g dt p W O Off Cw F p' A) as (A1 & _ & _ & _ & A5 & _). unfold angular_momentum. rewrite A1, A5. unfold free_x, free_y. field. exact Off.
Qed.
(** A particle with azimuthal velocity that does not fly inwards: on its straight line it recedes from the axis ever faster, in the code ever slower. *)
Theorem C163_inward_refuted : forall g dt p p', wide g -> on_plane p -> clear_of_walls g (free_r dt p) (free_z dt p) -> 0 < dt -> 0 < pos_r p -> 0 <= vel_r p -> vel_phi p <> 0 ->
  advanced g dt p p' -> vel_r p < free_vr dt p /\ vel_r p' < vel_r p.
Proof.
  intros g dt p p' W O Cw Hd Hr Hv Hp A.
  assert (Fx : 0 < free_x dt p) by (unfold free_x; assert (0 <= vel_r p * dt) by (apply Rmult_le_pos; lra); lra).
  assert (Sq := free_sq dt p). assert (Yp : 0 < vel_phi p * vel_phi p) by nra. assert (Y : 0 < free_y dt p * vel_phi p) by (unfold free_y; nra).
  assert (Off : free_r dt p <> 0).
  { intros E. rewrite E in Sq. assert (B := pow2_ge_0 (free_y dt p)). assert (0 < free_x dt p ^ 2) by nra. lra. }
  assert (P := free_pos _ _ Off). assert (Le : free_x dt p <= free_r dt p).
  { apply Rsqr_incr_0_var; [|lra]. unfold Rsqr. rewrite Sq. assert (B := pow2_ge_0 (free_y dt p)). lra. }
  destruct (step_formula g dt p W O Off Cw ltac:(lra) p' A) as (_ & _ & _ & A4 & _). rewrite A4. unfold free_vr. split.
  - apply Rmult_lt_reg_r with (free_r dt p); [exact P|]. unfold Rdiv. rewrite Rmult_assoc, Rinv_l, Rmult_1_r by exact Off.
    apply Rsqr_incrst_0; [| apply Rmult_le_pos; lra | assert (0 <= free_x dt p * vel_r p) by (apply Rmult_le_pos; lra); lra].
    unfold Rsqr. replace (vel_r p * free_r dt p * (vel_r p * free_r dt p)) with (vel_r p * vel_r p * (free_r dt p * free_r dt p)) by ring. rewrite Sq.
    assert (D : (free_x dt p * vel_r p + free_y dt p * vel_phi p) * (free_x dt p * vel_r p + free_y dt p * vel_phi p) - vel_r p * vel_r p * (free_x dt p ^ 2 + free_y dt p ^ 2) =
      vel_phi p * vel_phi p * (2 * pos_r p * (vel_r p * dt) + vel_r p * dt * (vel_r p * dt) + vel_phi p * vel_phi p * (dt * dt))) by (unfold free_x, free_y; ring).
    assert (Q : 0 < vel_phi p * vel_phi p * (2 * pos_r p * (vel_r p * dt) + vel_r p * dt * (vel_r p * dt) + vel_phi p * vel_phi p * (dt * dt))); [|lra].
    apply Rmult_lt_0_compat; [exact Yp|]. assert (0 <= vel_r p * dt) by (apply Rmult_le_pos; lra). assert (0 <= 2 * pos_r p * (vel_r p * dt)) by (apply Rmult_le_pos; lra).
    assert (0 <= vel_r p * dt * (vel_r p * dt)) by (apply Rmult_le_pos; assumption). assert (0 < vel_phi p * vel_phi p * (dt * dt)) by (apply Rmult_lt_0_compat; nra). lra.
  - apply Rmult_lt_reg_r with (free_r dt p); [exact P|]. unfold Rdiv. rewrite Rmult_assoc, Rinv_l, Rmult_1_r by exact Off.
    assert (free_x dt p * vel_r p <= vel_r p * free_r dt p) by (rewrite (Rmult_comm (free_x dt p)); apply Rmult_le_compat_l; assumption). lra.
Qed.

(** ** many steps *)
Lemma step_between a s n : 1 <= n -> (a <= a + s <= a + n * s) \/ (a + n * s <= a + s <= a).
Proof. intros H. destruct (Rle_dec 0 s); [left|right]; split; nra. Qed.
Lemma clear_between g a b s u n : 1 <= n -> clear_of_walls g a b -> clear_of_walls g (a + n * s) (b + n * u) -> clear_of_walls g (a + s) (b + u).
Proof.
  intros H (A1 & A2 & A3 & A4) (B1 & B2 & B3 & B4). assert (X := step_between a s n H). assert (Y := step_between b u n H).
  repeat split; intros E; [specialize (A1 E); specialize (B1 E)|specialize (A2 E); specialize (B2 E)|specialize (A3 E); specialize (B3 E)|specialize (A4 E); specialize (B4 E)]; lra.
Qed.
(** Any number of steps in a meridian plane: a straight line, if it starts and ends away from the walls and on the same side of the axis. *)
Theorem C163_meridian_partial : forall g dt n p, wide g -> on_plane p -> vel_phi p = 0 -> 0 < pos_r p -> clear_of_walls g (pos_r p) (pos_z p) ->
  let t := INR n * dt in 0 < pos_r p + vel_r p * t -> clear_of_walls g (pos_r p + vel_r p * t) (pos_z p + vel_z p * t) ->
  (exists p', ThmRound.rounds (advanced g dt) n p p') /\
  forall p', ThmRound.rounds (advanced g dt) n p p' -> pos_r p' = pos_r p + vel_r p * t /\ pos_phi p' = 0 /\ pos_z p' = pos_z p + vel_z p * t /\
    vel_r p' = vel_r p /\ vel_phi p' = 0 /\ vel_z p' = vel_z p /\ weight p' = weight p.
Proof.
  intros g dt n. induction n as [|n IH]; intros p W O Hp Hr Cw t Hx Ce.
  - unfold t. cbn [ThmRound.rounds INR]. split; [now exists p|]. intros p' ->. destruct O as [_ E]. rewrite !Rmult_0_l, !Rmult_0_r, !Rplus_0_r. auto 10.
  - assert (N : 1 <= INR (S n)) by (rewrite S_INR; assert (Q := pos_INR n); lra).
    assert (T1 : vel_r p * t = INR (S n) * (vel_r p * dt)) by (unfold t; ring). assert (T2 : vel_z p * t = INR (S n) * (vel_z p * dt)) by (unfold t; ring).
    assert (X1 : 0 < pos_r p + vel_r p * dt) by (rewrite T1 in Hx; destruct (step_between (pos_r p) (vel_r p * dt) _ N); lra).
    assert (C1 : clear_of_walls g (pos_r p + vel_r p * dt) (pos_z p + vel_z p * dt)) by (rewrite T1, T2 in Ce; exact (clear_between _ _ _ _ _ _ N Cw Ce)).
    assert (Fr : free_r dt p = pos_r p + vel_r p * dt).
    { unfold free_r, free_x, free_y. rewrite Hp. replace ((pos_r p + vel_r p * dt) ^ 2 + (0 * dt) ^ 2) with ((pos_r p + vel_r p * dt) * (pos_r p + vel_r p * dt)) by ring. apply sqrt_square. lra. }
    assert (Off : free_r dt p <> 0) by lra. assert (Fx : 0 <= free_x dt p) by (unfold free_x; lra).
    assert (Cf : clear_of_walls g (free_r dt p) (free_z dt p)) by (rewrite Fr; exact C1).
    destruct (C94_free_flight g dt p W O Off) as (p1 & Ad & _); try apply Cf.
    assert (Step : forall q, advanced g dt p q -> pos_r q = pos_r p + vel_r p * dt /\ pos_phi q = 0 /\ pos_z q = pos_z p + vel_z p * dt /\ vel_r q = vel_r p /\ vel_phi q = 0 /\ vel_z q = vel_z p /\ weight q = weight p).
    { intros q Aq. destruct (step_formula g dt p W O Off Cf Fx q Aq) as (A1 & A2 & A3 & A4 & A5 & A6 & A7). rewrite A1, A2, A3, A4, A5, A6, A7, Fr. unfold free_x, free_y, free_z. rewrite Hp.
      repeat split; try reflexivity; field; lra. }
    assert (Next : forall q, advanced g dt p q -> (exists p', ThmRound.rounds (advanced g dt) n q p') /\
      forall p', ThmRound.rounds (advanced g dt) n q p' -> pos_r p' = pos_r q + vel_r q * (INR n * dt) /\ pos_phi p' = 0 /\ pos_z p' = pos_z q + vel_z q * (INR n * dt) /\
        vel_r p' = vel_r q /\ vel_phi p' = 0 /\ vel_z p' = vel_z q /\ weight p' = weight q).
    { intros q Aq. destruct (Step q Aq) as (A1 & A2 & A3 & A4 & A5 & A6 & A7).
      assert (E1 : pos_r q + vel_r q * (INR n * dt) = pos_r p + vel_r p * t) by (rewrite A1, A4; unfold t; rewrite S_INR; ring).
      assert (E2 : pos_z q + vel_z q * (INR n * dt) = pos_z p + vel_z p * t) by (rewrite A3, A6; unfold t; rewrite S_INR; ring).
      apply IH; try assumption; [split; [lra|exact A2]|lra|rewrite A1, A3; exact C1|rewrite E1; exact Hx|rewrite E1, E2; exact Ce]. }
    split.
    + destruct (Next p1 Ad) as [(p' & Rp) _]. exists p'. exists p1. split; assumption.
    + intros p' (q & Aq & Rq). destruct (Step q Aq) as (A1 & A2 & A3 & A4 & A5 & A6 & A7). destruct (Next q Aq) as [_ Nx]. destruct (Nx p' Rq) as (B1 & B2 & B3 & B4 & B5 & B6 & B7).
      rewrite B1, B3, B4, B6, B7, A1, A3, A4, A6, A7. unfold t. rewrite S_INR. repeat split; try assumption; ring.
Qed.

(** ** examples *)
(** a domain of 8 x 8 cells that has all walls; a particle that flies for three rounds; a particle that flies past the axis *)
Definition flyer (vr vphi : R) : part := {| pos_r := 3; pos_phi := 0; pos_z := 5; vel_r := vr; vel_phi := vphi; vel_z := - 1; p_sin := 0; weight := 1 |}.
Definition walls8 : geo := domain_geo {| CollectorModel.nr := 8; CollectorModel.nz := 8; CollectorModel.rd_ := 1; CollectorModel.zd_ := 1 |} 1 1 0 0.
Example C163_ex : wide walls8 /\ on_plane (flyer (1 / 2) 0) /\ vel_phi (flyer (1 / 2) 0) = 0 /\ 0 < pos_r (flyer (1 / 2) 0) /\ clear_of_walls walls8 3 5 /\ clear_of_walls walls8 (3 + 1 / 2 * (INR 3 * 1)) (5 + - 1 * (INR 3 * 1)) /\
  w_rr walls8 = true /\ w_r0 walls8 = true /\ w_zz walls8 = true /\ w_z0 walls8 = true.
Proof. cbn. unfold wide, on_plane, clear_of_walls. cbn. repeat split; try intros _; try lra. Qed.
Example C163_past_ex : on_plane (flyer 0 4) /\ free_r 1 (flyer 0 4) = 5 /\ clear_of_walls walls8 5 4 /\ 0 <= free_x 1 (flyer 0 4) /\ free_vr 1 (flyer 0 4) = 16 / 5 /\
  (forall p', advanced walls8 1 (flyer 0 4) p' -> vel_r p' = - 16 / 5) /\
  exists p', advanced walls8 1 (flyer (1 / 2) 1) p' /\ angular_momentum p' = angular_momentum (flyer (1 / 2) 1) + 1.
Proof.
  assert (W : wide walls8) by (unfold wide; cbn; lra).
  assert (F : free_r 1 (flyer 0 4) = 5) by (unfold free_r, free_x, free_y; cbn [flyer pos_r vel_r vel_phi]; replace ((3 + 0 * 1) ^ 2 + (4 * 1) ^ 2) with (5 * 5) by ring; apply sqrt_square; lra).
  assert (C : clear_of_walls walls8 5 4) by (unfold clear_of_walls; cbn; repeat split; intros _; lra).
  split; [split; cbn; lra|]. split; [exact F|]. split; [exact C|]. split; [unfold free_x; cbn; lra|]. split; [|split].
  - unfold free_vr. rewrite F. unfold free_x, free_y. cbn. lra.
  - intros p' A. destruct (step_formula walls8 1 (flyer 0 4) W ltac:(split; cbn; lra) ltac:(lra) ltac:(rewrite F; unfold free_z; cbn [flyer pos_z vel_z]; replace (5 + - 1 * 1) with 4 by ring; exact C) ltac:(unfold free_x; cbn; lra) p' A) as (_ & _ & _ & E & _).
    rewrite E, F. unfold free_x, free_y. cbn. lra.
  - set (p := flyer (1 / 2) 1). assert (Sq := free_sq 1 p). unfold free_x, free_y in Sq. cbn [p flyer pos_r vel_r vel_phi] in Sq. assert (P := sqrt_pos (free_x 1 p ^ 2 + free_y 1 p ^ 2)). fold (free_r 1 p) in P.
    fold p in Sq. assert (B : 3 < free_r 1 p < 4) by (split; nra).
    assert (Cp : clear_of_walls walls8 (free_r 1 p) (free_z 1 p)) by (unfold clear_of_walls, free_z; cbn - [free_r]; repeat split; intros _; lra).
    assert (O : on_plane p) by (split; cbn; lra). destruct (C94_free_flight walls8 1 p W O) as (p' & A & _); [fold (free_x 1 p); fold (free_y 1 p); fold (free_r 1 p); lra| | | | |]; try apply Cp.
    exists p'. split; [exact A|]. rewrite (C163_angular_refuted walls8 1 p p' W O ltac:(lra) Cp ltac:(unfold free_x; cbn; lra) A). cbn [p flyer vel_r vel_phi]. lra.
Qed.

Print Assumptions C163_step_partial.
Print Assumptions C163_angular_refuted.
Print Assumptions C163_inward_refuted.
Print Assumptions C163_meridian_partial.
