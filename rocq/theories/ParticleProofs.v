(** Proofs about the reflection of particles. *)
From Verif Require Import Base RndUtil ParticleModel.
From Coq Require Import Reals Lra.
Open Scope R_scope.

(** positivity of products *)
Ltac mpos := repeat (match goal with |- 0 < _ * _ => apply Rmult_lt_0_compat end); try assumption; try lra.

Lemma Rltb_true a b : Rltb a b = true <-> a < b.
Proof. unfold Rltb. destruct (Rlt_dec a b); split; auto; discriminate. Qed.
Lemma Rltb_false a b : Rltb a b = false <-> b <= a.
Proof. unfold Rltb. destruct (Rlt_dec a b); split; try discriminate; auto; intros; lra. Qed.
Lemma Rleb_true a b : Rleb a b = true <-> a <= b.
Proof. unfold Rleb. destruct (Rle_dec a b); split; auto; discriminate. Qed.
Lemma Rleb_false a b : Rleb a b = false <-> b < a.
Proof. unfold Rleb. destruct (Rle_dec a b); split; try discriminate; auto; intros; lra. Qed.
Lemma isnormal_true x : x <> 0 -> isnormal x = true.
Proof. unfold isnormal. destruct (Req_EM_T x 0); [contradiction|reflexivity]. Qed.

(** ** one direction *)
Section Line.
(** lower and upper reflecting plane, and whether they are present *)
Variables lo hi : R.
Variables wlo whi : bool.
Definition out1 (p : R) : bool := (Rltb hi p && whi) || (Rltb p lo && wlo).
Definition up1 (s : R * R) : R * R := if Rltb hi (fst s) && whi then (hi * 2 - fst s, - snd s) else s.
Definition dn1 (s : R * R) : R * R :=
  if Rltb (fst s) lo && wlo then let p' := 2 * lo - fst s in ((if Rltb p' lo then lo else p'), - snd s) else s.
Definition pass1 (s : R * R) : R * R := dn1 (up1 s).
Fixpoint iter1 (n : nat) (s : R * R) : R * R := match n with O => s | S k => iter1 k (pass1 s) end.

(** the image of a point in the two mirrors: an even number of mirror images keeps the velocity, an odd one flips it *)
Definition image (s t : R * R) : Prop :=
  exists k : Z, (fst t = fst s + 2 * IZR k * (hi - lo) /\ snd t = snd s) \/
                (fst t = 2 * lo - fst s + 2 * IZR k * (hi - lo) /\ snd t = - snd s).
Lemma image_refl s : image s s.
Proof. exists 0%Z. left. split; lra. Qed.
Lemma image_trans s t u : image s t -> image t u -> image s u.
Proof.
  intros [k [[A B]|[A B]]] [l [[C D]|[C D]]].
  - exists (k + l)%Z. left. rewrite plus_IZR, C, D, A, B. split; lra.
  - exists (l - k)%Z. right. rewrite minus_IZR, C, D, A, B. split; lra.
  - exists (k + l)%Z. right. rewrite plus_IZR, C, D, A, B. split; lra.
  - exists (l - k)%Z. left. rewrite minus_IZR, C, D, A, B. split; lra.
Qed.
Lemma up1_image s : image s (up1 s).
Proof.
  unfold up1. destruct (Rltb hi (fst s) && whi); [|apply image_refl].
  exists 1%Z. right. cbn [fst snd]. split; lra.
Qed.
Lemma dn1_image s : image s (dn1 s).
Proof.
  unfold dn1. destruct (Rltb (fst s) lo && wlo) eqn:E; [|apply image_refl].
  apply andb_true_iff in E. destruct E as [E _]. apply Rltb_true in E. cbv zeta.
  replace (Rltb (2 * lo - fst s) lo) with false by (symmetry; apply Rltb_false; lra).
  exists 0%Z. right. cbn [fst snd]. split; lra.
Qed.
Lemma pass1_image s : image s (pass1 s).
Proof. unfold pass1. eapply image_trans; [apply up1_image|apply dn1_image]. Qed.
Lemma iter1_image n : forall s, image s (iter1 n s).
Proof.
  induction n as [|n IH]; intros s; cbn [iter1]; [apply image_refl|].
  eapply image_trans; [apply pass1_image|apply IH].
Qed.
Lemma pass1_inside s : out1 (fst s) = false -> pass1 s = s.
Proof.
  unfold out1. intros H. apply orb_false_iff in H. destruct H as [A B].
  unfold pass1, up1. rewrite A. unfold dn1. now rewrite B.
Qed.
Lemma iter1_inside n s : out1 (fst s) = false -> iter1 n s = s.
Proof. intros H. induction n as [|n IH]; cbn [iter1]; auto. now rewrite pass1_inside. Qed.
Lemma iter1_S n s : iter1 (S n) s = pass1 (iter1 n s).
Proof. revert s. induction n as [|n IH]; intros s; [reflexivity|]. change (iter1 (S (S n)) s) with (iter1 (S n) (pass1 s)). now rewrite IH. Qed.

Hypothesis Hlohi : lo < hi.
Hypothesis Hlo : 0 < lo.
(** no coordinate 0 appears *)
Definition nonzero1 (p : R) : Prop := p <> 0 /\ (wlo = false -> whi = true -> p <> 2 * hi).

Lemma pass1_nonzero s : nonzero1 (fst s) -> nonzero1 (fst (pass1 s)).
Proof.
  intros [H1 H2]. unfold pass1, up1, dn1, nonzero1.
  destruct (Rltb hi (fst s)) eqn:E1; [apply Rltb_true in E1|apply Rltb_false in E1];
  destruct whi; cbn [andb fst snd].
  - destruct (Rltb (hi * 2 - fst s) lo) eqn:E2; [apply Rltb_true in E2|apply Rltb_false in E2]; destruct wlo; cbn [andb fst snd].
    + replace (Rltb (2 * lo - (hi * 2 - fst s)) lo) with false by (symmetry; apply Rltb_false; lra). split; [lra|discriminate].
    + specialize (H2 eq_refl eq_refl). split; [lra|]. intros _ _. lra.
    + split; [lra|discriminate].
    + split; [lra|]. intros _ _. lra.
  - replace (Rltb (fst s) lo) with false by (symmetry; apply Rltb_false; lra). cbn [andb fst]. split; [lra|discriminate].
  - destruct (Rltb (fst s) lo) eqn:E2; [apply Rltb_true in E2|apply Rltb_false in E2]; destruct wlo; cbn [andb fst snd]; auto.
    + replace (Rltb (2 * lo - fst s) lo) with false by (symmetry; apply Rltb_false; lra). split; [lra|discriminate].
  - destruct (Rltb (fst s) lo) eqn:E2; [apply Rltb_true in E2|apply Rltb_false in E2]; destruct wlo; cbn [andb fst snd]; auto.
    + replace (Rltb (2 * lo - fst s) lo) with false by (symmetry; apply Rltb_false; lra). split; [lra|discriminate].
Qed.
Lemma iter1_nonzero n : forall s, nonzero1 (fst s) -> nonzero1 (fst (iter1 n s)).
Proof. induction n as [|n IH]; intros s H; cbn [iter1]; auto. apply IH. now apply pass1_nonzero. Qed.

(** enough passes bring the point inside *)
Lemma iter1_reaches_up n : forall s, lo <= fst s -> fst s <= hi + 2 * INR n * (hi - lo) ->
  exists m, out1 (fst (iter1 m s)) = false.
Proof.
  induction n as [|n IH]; intros s H1 H2.
  - exists 0%nat. cbn [iter1 INR] in *. unfold out1.
    replace (Rltb hi (fst s)) with false by (symmetry; apply Rltb_false; lra).
    replace (Rltb (fst s) lo) with false by (symmetry; apply Rltb_false; lra). reflexivity.
  - rewrite S_INR in H2. destruct (Rltb hi (fst s) && whi) eqn:E.
    + assert (Eu : up1 s = (hi * 2 - fst s, - snd s)) by (unfold up1; now rewrite E).
      apply andb_true_iff in E. destruct E as [E Ew]. apply Rltb_true in E.
      destruct (Rltb (hi * 2 - fst s) lo && wlo) eqn:E2.
      * assert (Ep : fst (pass1 s) = 2 * lo - (hi * 2 - fst s)).
        { unfold pass1. rewrite Eu. unfold dn1. cbn [fst snd]. rewrite E2. cbv zeta.
          apply andb_true_iff in E2. destruct E2 as [E2 _]. apply Rltb_true in E2.
          replace (Rltb (2 * lo - (hi * 2 - fst s)) lo) with false by (symmetry; apply Rltb_false; lra). reflexivity. }
        apply andb_true_iff in E2. destruct E2 as [E2 _]. apply Rltb_true in E2.
        destruct (IH (pass1 s)) as [m Hm]; [rewrite Ep; lra|rewrite Ep; lra|]. exists (S m). exact Hm.
      * exists 1%nat. cbn [iter1]. unfold pass1. rewrite Eu. unfold dn1. cbn [fst snd]. rewrite E2. cbn [fst].
        unfold out1. rewrite E2, orb_false_r. replace (Rltb hi (hi * 2 - fst s)) with false; [reflexivity|].
        symmetry; apply Rltb_false; lra.
    + exists 0%nat. cbn [iter1]. unfold out1. rewrite E.
      replace (Rltb (fst s) lo) with false by (symmetry; apply Rltb_false; lra). reflexivity.
Qed.
Lemma iter1_reaches s : exists m, out1 (fst (iter1 m s)) = false.
Proof.
  assert (Up : forall t, lo <= fst t -> exists m, out1 (fst (iter1 m t)) = false).
  { intros t Ht. destruct (archimed ((fst t - hi) / (2 * (hi - lo)))) as [A _].
    apply (iter1_reaches_up (Z.to_nat (up ((fst t - hi) / (2 * (hi - lo))))) t Ht).
    rewrite INR_IZR_INZ.
    assert (B : (fst t - hi) / (2 * (hi - lo)) <= IZR (Z.of_nat (Z.to_nat (up ((fst t - hi) / (2 * (hi - lo))))))).
    { apply Rlt_le, Rlt_le_trans with (1 := A). apply IZR_le. lia. }
    apply Rmult_le_compat_r with (r := 2 * (hi - lo)) in B; [|lra].
    replace ((fst t - hi) / (2 * (hi - lo)) * (2 * (hi - lo))) with (fst t - hi) in B by (field; lra). lra. }
  destruct (Rle_lt_dec lo (fst s)) as [H|H]; [now apply Up|].
  destruct wlo eqn:W.
  - assert (Ep : fst (pass1 s) = 2 * lo - fst s).
    { unfold pass1, up1. replace (Rltb hi (fst s)) with false by (symmetry; apply Rltb_false; lra). cbn [andb].
      unfold dn1. rewrite W. replace (Rltb (fst s) lo) with true by (symmetry; apply Rltb_true; lra). cbn [andb fst].
      replace (Rltb (2 * lo - fst s) lo) with false by (symmetry; apply Rltb_false; lra). reflexivity. }
    destruct (Up (pass1 s)) as [m Hm]; [rewrite Ep; lra|]. exists (S m). exact Hm.
  - exists 0%nat. cbn [iter1]. unfold out1. rewrite W, andb_false_r, orb_false_r.
    replace (Rltb hi (fst s)) with false by (symmetry; apply Rltb_false; lra). reflexivity.
Qed.
Lemma iter1_stays m n s : (m <= n)%nat -> out1 (fst (iter1 m s)) = false -> iter1 n s = iter1 m s.
Proof.
  intros H. induction H as [|n H IH]; intros E; [reflexivity|].
  rewrite iter1_S, IH by auto. now apply pass1_inside.
Qed.
End Line.

(** ** both directions *)
Section Plane.
Variable g : geo.
Let rs (s : rstate) : R * R := let '(pr, _, vr, _) := s in (pr, vr).
Let zs (s : rstate) : R * R := let '(_, pz, _, vz) := s in (pz, vz).
Let mk (a b : R * R) : rstate := (fst a, fst b, snd a, snd b).
Let rpass := pass1 (half_dr g) (radius_wall g) (w_r0 g) (w_rr g).
Let zpass := pass1 (half_dz g) (longitude_wall g) (w_z0 g) (w_zz g).
Let rout := out1 (half_dr g) (radius_wall g) (w_r0 g) (w_rr g).
Let zout := out1 (half_dz g) (longitude_wall g) (w_z0 g) (w_zz g).

Lemma beyond_split pr pz : beyond g pr pz = rout pr || zout pz.
Proof.
  unfold beyond, rout, zout, out1.
  destruct (Rltb (radius_wall g) pr && w_rr g), (Rltb (longitude_wall g) pz && w_zz g), (Rltb pr (half_dr g) && w_r0 g); reflexivity.
Qed.
Lemma pass_split a b : refl_pass g (mk a b) = mk (rpass a) (zpass b).
Proof.
  destruct a as [pr vr], b as [pz vz]. unfold refl_pass, mk, rpass, zpass, pass1.
  assert (A : forall x y u v, refl_rr g (x, y, u, v) = mk (up1 (radius_wall g) (w_rr g) (x, u)) (y, v)).
  { intros. unfold refl_rr, up1, mk. cbn [fst snd]. now destruct (_ && _). }
  assert (B : forall x y u v, refl_zz g (x, y, u, v) = mk (x, u) (up1 (longitude_wall g) (w_zz g) (y, v))).
  { intros. unfold refl_zz, up1, mk. cbn [fst snd]. now destruct (_ && _). }
  assert (Dr : g_dr g = 2 * half_dr g) by (unfold half_dr; lra).
  assert (Dz : g_dz g = 2 * half_dz g) by (unfold half_dz; lra).
  assert (C : forall x y u v, refl_r0 g (x, y, u, v) = mk (dn1 (half_dr g) (w_r0 g) (x, u)) (y, v)).
  { intros. unfold refl_r0, dn1, mk. cbn [fst snd]. rewrite Dr. now destruct (_ && _). }
  assert (D : forall x y u v, refl_z0 g (x, y, u, v) = mk (x, u) (dn1 (half_dz g) (w_z0 g) (y, v))).
  { intros. unfold refl_z0, dn1, mk. cbn [fst snd]. rewrite Dz. now destruct (_ && _). }
  cbn [fst snd]. rewrite A. unfold mk at 1. rewrite B. unfold mk at 1. cbn [fst snd].
  rewrite C. unfold mk at 1. rewrite D. unfold mk. cbn [fst snd].
  rewrite <- !surjective_pairing. reflexivity.
Qed.
Lemma loop_eq fuel a b : refl_loop g fuel (mk a b) =
  (if isnormal (fst a) && isnormal (fst b) && (rout (fst a) || zout (fst b)) then
     match fuel with O => None | S f => refl_loop g f (mk (rpass a) (zpass b)) end
   else Some (mk a b)).
Proof.
  destruct fuel as [|f]; cbn [refl_loop]; unfold mk at 1; rewrite beyond_split.
  - reflexivity.
  - now rewrite pass_split.
Qed.

Hypothesis Hdr : 0 < g_dr g. Hypothesis Hdz : 0 < g_dz g.
Hypothesis Hr : g_dr g < g_size_r g. Hypothesis Hz : g_dz g < g_size_z g.
Lemma r_walls : 0 < half_dr g < radius_wall g.
Proof. unfold half_dr, radius_wall. lra. Qed.
Lemma z_walls : 0 < half_dz g < longitude_wall g.
Proof. unfold half_dz, longitude_wall. lra. Qed.

(** the loop stops: after n passes, both coordinates are n-fold passes, and either both inside or one is 0 *)
Lemma loop_stops a b : exists n, (forall fuel, (n <= fuel)%nat ->
    refl_loop g fuel (mk a b) = Some (mk (iter1 (half_dr g) (radius_wall g) (w_r0 g) (w_rr g) n a)
                                         (iter1 (half_dz g) (longitude_wall g) (w_z0 g) (w_zz g) n b))) /\
  (nonzero1 (radius_wall g) (w_r0 g) (w_rr g) (fst a) -> nonzero1 (longitude_wall g) (w_z0 g) (w_zz g) (fst b) ->
   rout (fst (iter1 (half_dr g) (radius_wall g) (w_r0 g) (w_rr g) n a)) = false /\
   zout (fst (iter1 (half_dz g) (longitude_wall g) (w_z0 g) (w_zz g) n b)) = false).
Proof.
  destruct r_walls as [R1 R2]. destruct z_walls as [Z1 Z2].
  destruct (iter1_reaches (half_dr g) (radius_wall g) (w_r0 g) (w_rr g) R2 a) as [m1 H1].
  destruct (iter1_reaches (half_dz g) (longitude_wall g) (w_z0 g) (w_zz g) Z2 b) as [m2 H2].
  set (m := Nat.max m1 m2).
  assert (G1 : rout (fst (iter1 (half_dr g) (radius_wall g) (w_r0 g) (w_rr g) m a)) = false).
  { rewrite (iter1_stays _ _ _ _ m1); auto. unfold m; lia. }
  assert (G2 : zout (fst (iter1 (half_dz g) (longitude_wall g) (w_z0 g) (w_zz g) m b)) = false).
  { rewrite (iter1_stays _ _ _ _ m2); auto. unfold m; lia. }
  clearbody m. clear H1 H2 m1 m2. revert a b G1 G2. induction m as [|m IH]; intros a b G1 G2.
  - exists 0%nat. split; [|intros; split; auto]. intros fuel _. rewrite loop_eq.
    cbn [iter1] in G1, G2. rewrite G1, G2, andb_false_r. reflexivity.
  - destruct (isnormal (fst a) && isnormal (fst b) && (rout (fst a) || zout (fst b))) eqn:E.
    + destruct (IH (rpass a) (zpass b) G1 G2) as (n & N1 & N2). exists (S n). split.
      * intros fuel Hf. destruct fuel as [|fuel]; [lia|]. rewrite loop_eq, E. cbn [iter1]. apply N1. lia.
      * intros Q1 Q2. cbn [iter1]. apply N2; apply pass1_nonzero; auto.
    + exists 0%nat. split.
      * intros fuel _. now rewrite loop_eq, E.
      * intros [Q1 _] [Q2 _]. cbn [iter1]. rewrite !isnormal_true in E by auto. cbn [andb] in E.
        now apply orb_false_iff in E.
Qed.
End Plane.
