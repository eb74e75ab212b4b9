(** Theorems about the density, momentum, energy and temperature maps: properties C95 to C97. *)
From Coq Require Import Reals Lra Psatz ZifyBool.
From Verif Require Import Base ListUtil RndUtil PushModel ParticleModel ParticleProofs ThmParticle MomentModel.
Open Scope R_scope.
Import ListNotations.

(** * Specification *)
Definition rsum {A} (f : A -> R) (l : list A) : R := fold_right (fun x acc => f x + acc) 0 l.
(** the share of a particle in a cell: what a unit weight at its position contributes (characterised by C34) *)
Definition share (dr dz : R) (bottom left : Z) (i k : Z) (p : part) : R :=
  cell_sum (weight_cylindrical dr dz bottom left (pos_r p) (pos_z p) 1) i k.
(** a particle of the domain *)
Definition placed (dr dz : R) (bottom left : Z) (p : part) : Prop :=
  0 <= pos_r p /\ 0 <= pos_z p /\ 0 < weight p /\
  (bottom <= cell_number (pos_r p) dr /\ cell_number (pos_r p) dr + 1 < 2 ^ 32)%Z /\
  (left <= cell_number (pos_z p) dz /\ cell_number (pos_z p) dz + 1 < 2 ^ 32)%Z.
(** physics, with [c] the velocity of light *)
Definition speed2 (p : part) : R := vel_r p ^ 2 + vel_phi p ^ 2 + vel_z p ^ 2.
Definition lorentz (c v2 : R) : R := / sqrt (1 - v2 / c ^ 2).
Definition true_momentum (c m : R) (comp : part -> R) (p : part) : R := m * lorentz c (speed2 p) * comp p.
Definition kinetic (c m : R) (p : part) : R := (lorentz c (speed2 p) - 1) * m * c ^ 2.

Lemma rlt_true a b : a < b -> rlt a b = true.
Proof. intros. unfold rlt. destruct (Rlt_dec a b); [reflexivity|contradiction]. Qed.
Lemma rlt_false a b : b <= a -> rlt a b = false.
Proof. intros. unfold rlt. destruct (Rlt_dec a b); [lra|reflexivity]. Qed.
Lemma req_false a b : a <> b -> req a b = false.
Proof. intros. unfold req. destruct (Req_EM_T a b); [contradiction|reflexivity]. Qed.
Lemma req_refl a : req a a = true.
Proof. unfold req. destruct (Req_EM_T a a); [reflexivity|contradiction]. Qed.

Lemma cell_sum_app l1 l2 i k : cell_sum (l1 ++ l2) i k = cell_sum l1 i k + cell_sum l2 i k.
Proof.
  induction l1 as [|[[a b] x] l IH]; cbn [app cell_sum fold_right]; [unfold cell_sum; cbn [fold_right]; lra|].
  fold (cell_sum (l ++ l2) i k) (cell_sum l i k). rewrite IH. destruct ((a =? i)%Z && (b =? k)%Z); lra.
Qed.
Lemma cell_sum_nonneg l i k : Forall (fun e => 0 <= snd e) l -> 0 <= cell_sum l i k.
Proof.
  induction 1 as [|[[a b] x] l H _ IH]; cbn [cell_sum fold_right]; [lra|]. fold (cell_sum l i k). cbn [snd] in H.
  destruct ((a =? i)%Z && (b =? k)%Z); lra.
Qed.
Lemma rsum_ext {A} (f g : A -> R) l : (forall x, In x l -> f x = g x) -> rsum f l = rsum g l.
Proof. induction l as [|x l IH]; intros H; [reflexivity|]. cbn. rewrite (H x) by now left. f_equal. apply IH. intros y Hy. apply H. now right. Qed.
Lemma rsum_scale {A} (f : A -> R) a l : rsum (fun x => a * f x) l = a * rsum f l.
Proof. induction l as [|x l IH]; cbn; [lra|]. fold (rsum (fun x => a * f x) l) (rsum f l). rewrite IH. ring. Qed.
Lemma rsum_le {A} (f g : A -> R) l : (forall x, In x l -> f x <= g x) -> rsum f l <= rsum g l.
Proof.
  induction l as [|x l IH]; intros H; cbn; [lra|]. fold (rsum f l) (rsum g l). pose proof (H x (or_introl eq_refl)).
  assert (rsum f l <= rsum g l) by (apply IH; intros y Hy; apply H; now right). lra.
Qed.
Lemma rsum_nonneg {A} (f : A -> R) l : (forall x, In x l -> 0 <= f x) -> 0 <= rsum f l.
Proof. intros H. replace 0 with (rsum (fun _ : A => 0) l); [now apply rsum_le|]. clear H. induction l; cbn; [reflexivity|]. fold (rsum (fun _ : A => 0) l). lra. Qed.

Section Maps.
Variables dr dz : R.
Variables bottom left : Z.
Hypothesis Hdr : 0 < dr.
Hypothesis Hdz : 0 < dz.
Hypothesis Hb : (0 <= bottom)%Z.
Hypothesis Hl : (0 <= left)%Z.
Variables i k : Z.
Local Notation sh := (share dr dz bottom left i k).
Local Notation plc := (placed dr dz bottom left).

Lemma wc_linear pr pz w : cell_sum (weight_cylindrical dr dz bottom left pr pz w) i k = w * cell_sum (weight_cylindrical dr dz bottom left pr pz 1) i k.
Proof.
  unfold weight_cylindrical. destruct (Rltb dr pr); [|destruct (Rleb pr (dr / 2))]; unfold cell_sum; cbn [fold_right];
  repeat match goal with |- context [if ?b then _ else _] => destruct b end; unfold Rdiv; ring.
Qed.
Lemma share_nonneg p : plc p -> 0 <= sh p.
Proof.
  intros (A & B & _ & C & D). destruct (C34_weighting dr dz bottom left (pos_r p) (pos_z p) 1 Hdr Hdz A B) as (x & y & z & t & E & P1 & P2 & P3 & P4 & _);
    try lra; try (destruct C, D; cbv zeta; repeat split; first [assumption | lia]).
  unfold share. rewrite E. apply cell_sum_nonneg. repeat (apply Forall_cons; [assumption|]). apply Forall_nil.
Qed.
Lemma deposit_sum val ps : deposit dr dz bottom left val ps i k = rsum (fun p => val p * sh p) ps.
Proof.
  unfold deposit. induction ps as [|p ps IH]; [reflexivity|]. cbn [flat_map rsum fold_right]. rewrite cell_sum_app, IH, wc_linear. reflexivity.
Qed.
End Maps.

Section Means.
Variables dr dz : R.
Variables bottom left : Z.
Hypothesis Hdr : 0 < dr.
Hypothesis Hdz : 0 < dz.
Hypothesis Hb : (0 <= bottom)%Z.
Hypothesis Hl : (0 <= left)%Z.
Variables c lim mass inv_charge : R.
Hypothesis Hlim : 0 < lim < c.
Hypothesis Hmass : 0 < mass.
Local Notation sh := (share dr dz bottom left).
Local Notation plc := (placed dr dz bottom left).

(** ** the values that are deposited *)
Lemma vel2_speed2 p : vel2 p = speed2 p.
Proof. unfold vel2, speed2. ring. Qed.
Lemma speed2_nonneg p : 0 <= speed2 p.
Proof. unfold speed2. pose proof (pow2_ge_0 (vel_r p)). pose proof (pow2_ge_0 (vel_phi p)). pose proof (pow2_ge_0 (vel_z p)). lra. Qed.
Lemma gamma_lorentz v2 : gamma c v2 = lorentz c v2.
Proof. unfold gamma, lorentz. replace (c * c) with (c ^ 2) by ring. unfold Rdiv. ring. Qed.
(** the factor that the code applies *)
Definition used_gamma (v2 : R) : R := if rlt v2 (lim * lim) then lorentz c v2 else 1.
Lemma used_slow v2 : v2 < lim ^ 2 -> used_gamma v2 = lorentz c v2.
Proof. intros. unfold used_gamma. rewrite rlt_true; [reflexivity|]. lra. Qed.
Lemma used_fast v2 : lim ^ 2 <= v2 -> used_gamma v2 = 1.
Proof. intros. unfold used_gamma. rewrite rlt_false; [reflexivity|]. lra. Qed.
Lemma lorentz_ge1 v2 : 0 <= v2 -> v2 < c ^ 2 -> 1 <= lorentz c v2.
Proof using Hlim.
  intros A B. unfold lorentz. assert (C2 : 0 < c ^ 2) by (apply pow_lt; lra).
  assert (D : 0 < 1 - v2 / c ^ 2 <= 1).
  { split.
    - assert (v2 / c ^ 2 < 1) by (apply Rmult_lt_reg_r with (c ^ 2); [lra|]; unfold Rdiv; rewrite Rmult_assoc, Rinv_l by lra; lra). lra.
    - assert (0 <= v2 / c ^ 2) by (apply Rmult_le_pos; [lra|left; now apply Rinv_0_lt_compat]). lra. }
  assert (S1 : 0 < sqrt (1 - v2 / c ^ 2)) by (apply sqrt_lt_R0; lra).
  assert (S2 : sqrt (1 - v2 / c ^ 2) <= 1) by (rewrite <- sqrt_1 at 2; apply sqrt_le_1; lra).
  rewrite <- Rinv_1 at 1. apply Rinv_le_contravar; lra.
Qed.
Lemma used_ge1 v2 : 0 <= v2 -> 1 <= used_gamma v2.
Proof using Hlim.
  intros A. destruct (Rlt_le_dec v2 (lim ^ 2)) as [H|H].
  - rewrite used_slow by auto. apply lorentz_ge1; [auto|]. assert (lim ^ 2 < c ^ 2) by nra. lra.
  - rewrite used_fast by auto. lra.
Qed.
Lemma mom_val_used comp p : mom_val c lim mass comp p = weight p * (mass * used_gamma (speed2 p) * comp p).
Proof. unfold mom_val, used_gamma. rewrite vel2_speed2. destruct (rlt (speed2 p) (lim * lim)); rewrite ?gamma_lorentz; ring. Qed.
Lemma abs_val_used p : abs_val c lim mass p = weight p * (mass * used_gamma (speed2 p) * sqrt (speed2 p)).
Proof using Hlim.
  unfold abs_val. rewrite vel2_speed2. pose proof (speed2_nonneg p) as N. rewrite sqrt_sqrt by auto. unfold used_gamma.
  destruct (Rlt_le_dec (speed2 p) (lim * lim)) as [H|H].
  - rewrite !rlt_true; auto; [rewrite gamma_lorentz; ring|]. rewrite <- (sqrt_square lim) by lra. apply sqrt_lt_1; auto; nra.
  - rewrite !rlt_false; auto; [ring|]. rewrite <- (sqrt_square lim) by lra. apply sqrt_le_1; auto; nra.
Qed.
Definition dens (ps : list part) (i k : Z) : R := rsum (fun p => weight p * sh i k p) ps.
Definition mean_of (f : part -> R) (ps : list part) (i k : Z) : R := rsum (fun p => weight p * sh i k p * f p) ps / dens ps i k.
Definition code_momentum (comp : part -> R) (p : part) : R := mass * used_gamma (speed2 p) * comp p.

Lemma dens_nonneg ps i k : Forall plc ps -> 0 <= dens ps i k.
Proof using Hdr Hdz Hb Hl.
  intros H. rewrite Forall_forall in H. apply rsum_nonneg. intros p Hp. pose proof (share_nonneg dr dz bottom left Hdr Hdz Hb Hl i k p (H p Hp)).
  destruct (H p Hp) as (_ & _ & W & _). apply Rmult_le_pos; lra.
Qed.
Lemma density_is ps s i k : density_map (calc_density dr dz bottom left ps s) i k = dens ps i k.
Proof. cbn. now rewrite deposit_sum. Qed.
Lemma mom_is comp ps i k : deposit dr dz bottom left (mom_val c lim mass comp) ps i k = rsum (fun p => weight p * sh i k p * code_momentum comp p) ps.
Proof. rewrite deposit_sum. apply rsum_ext. intros p _. rewrite mom_val_used. unfold code_momentum. ring. Qed.
Lemma abs_is ps i k : deposit dr dz bottom left (abs_val c lim mass) ps i k = rsum (fun p => weight p * sh i k p * code_momentum (fun p => sqrt (speed2 p)) p) ps.
Proof using Hlim. rewrite deposit_sum. apply rsum_ext. intros p _. rewrite abs_val_used. unfold code_momentum. ring. Qed.

Lemma mean_between f ps i k lo hi : Forall plc ps -> dens ps i k <> 0 -> (forall p, In p ps -> lo <= f p <= hi) -> lo <= mean_of f ps i k <= hi.
Proof using Hdr Hdz Hb Hl.
  intros H Hd Hf. pose proof (dens_nonneg ps i k H) as D. assert (D1 : 0 < dens ps i k) by lra. unfold mean_of. rewrite Forall_forall in H.
  assert (W : forall p, In p ps -> 0 <= weight p * sh i k p).
  { intros p Hp. pose proof (share_nonneg dr dz bottom left Hdr Hdz Hb Hl i k p (H p Hp)). destruct (H p Hp) as (_ & _ & W & _). apply Rmult_le_pos; lra. }
  split; apply Rmult_le_reg_r with (dens ps i k); auto; unfold Rdiv; rewrite (Rmult_assoc (rsum _ ps)), Rinv_l, Rmult_1_r by lra; unfold dens;
  rewrite <- rsum_scale; apply rsum_le; intros p Hp; specialize (W p Hp); specialize (Hf p Hp); nra.
Qed.
End Means.

Record setup (dr dz : R) (bottom left : Z) (c lim mass : R) : Prop := {
  s_dr : 0 < dr; s_dz : 0 < dz; s_b : (0 <= bottom)%Z; s_l : (0 <= left)%Z; s_lim : 0 < lim < c; s_mass : 0 < mass }.
Lemma mean_ext dr dz bottom left f g ps i k : (forall p, In p ps -> f p = g p) -> mean_of dr dz bottom left f ps i k = mean_of dr dz bottom left g ps i k.
Proof. intros H. unfold mean_of. f_equal. apply rsum_ext. intros p Hp. now rewrite (H p Hp). Qed.

(** * C95: density and momentum *)
Theorem C95_density : forall dr dz bottom left c lim mass ps s i k, setup dr dz bottom left c lim mass -> Forall (placed dr dz bottom left) ps ->
  density_map (calc_density dr dz bottom left ps s) i k = rsum (fun p => weight p * share dr dz bottom left i k p) ps /\
  forall p, In p ps -> 0 <= share dr dz bottom left i k p.
Proof.
  intros dr dz bottom left c lim mass ps s i k [H1 H2 H3 H4 H5 H6] H. split; [now apply density_is|].
  intros p Hp. rewrite Forall_forall in H. apply share_nonneg; auto.
Qed.
Lemma code_mean dr dz bottom left c lim mass ps s i k :
  let m := calc_momentum dr dz bottom left c lim mass ps s in dens dr dz bottom left ps i k <> 0 ->
  mom_r m i k = mean_of dr dz bottom left (code_momentum c lim mass vel_r) ps i k /\
  mom_phi m i k = mean_of dr dz bottom left (code_momentum c lim mass vel_phi) ps i k /\
  mom_z m i k = mean_of dr dz bottom left (code_momentum c lim mass vel_z) ps i k.
Proof.
  intros m Hd. subst m. cbn -[deposit]. unfold mean_cell. rewrite !mom_is. rewrite deposit_sum. fold (dens dr dz bottom left ps i k).
  rewrite req_false by auto. auto.
Qed.
Lemma code_slow c lim mass comp p : speed2 p < lim ^ 2 -> code_momentum c lim mass comp p = true_momentum c mass comp p.
Proof. intros H. unfold code_momentum, true_momentum. now rewrite used_slow. Qed.
(** below the limit the map is the weighted mean of the relativistic momenta; a cell without particles shows zero *)
Theorem C95_momentum_partial : forall dr dz bottom left c lim mass ps s i k, setup dr dz bottom left c lim mass -> Forall (placed dr dz bottom left) ps ->
  (forall p, In p ps -> speed2 p < lim ^ 2) ->
  let m := calc_momentum dr dz bottom left c lim mass ps s in
  let d := rsum (fun p => weight p * share dr dz bottom left i k p) ps in
  let mean comp := rsum (fun p => weight p * share dr dz bottom left i k p * true_momentum c mass comp p) ps / d in
  (d <> 0 -> mom_r m i k = mean vel_r /\ mom_phi m i k = mean vel_phi /\ mom_z m i k = mean vel_z) /\
  (d = 0 -> mom_r m i k = 0 /\ mom_phi m i k = 0 /\ mom_z m i k = 0).
Proof.
  intros dr dz bottom left c lim mass ps s i k HS HP Hslow m d mean. split; intros Hd.
  - destruct (code_mean dr dz bottom left c lim mass ps s i k Hd) as (A & B & C). fold m in A, B, C. rewrite A, B, C.
    repeat split; unfold mean, d; apply mean_ext; intros p Hp; apply code_slow; auto.
  - subst m. cbn -[deposit]. unfold mean_cell. rewrite !deposit_sum. fold d. rewrite Hd, req_refl. auto.
Qed.
(** no value outside of the range of the values of the particles *)
Theorem C95_range : forall dr dz bottom left c lim mass ps s i k lo hi, setup dr dz bottom left c lim mass -> Forall (placed dr dz bottom left) ps ->
  (forall p, In p ps -> speed2 p < lim ^ 2 /\ lo <= true_momentum c mass vel_z p <= hi) ->
  rsum (fun p => weight p * share dr dz bottom left i k p) ps <> 0 ->
  lo <= mom_z (calc_momentum dr dz bottom left c lim mass ps s) i k <= hi.
Proof.
  intros dr dz bottom left c lim mass ps s i k lo hi HS HP Hf Hd. destruct (code_mean dr dz bottom left c lim mass ps s i k Hd) as (_ & _ & A).
  rewrite A. destruct HS. apply mean_between; auto. intros p Hp. destruct (Hf p Hp) as [V W]. now rewrite code_slow.
Qed.
Lemma one_mean dr dz bottom left f p i k : weight p * share dr dz bottom left i k p <> 0 -> mean_of dr dz bottom left f [p] i k = f p.
Proof. intros H. unfold mean_of, dens, rsum. cbn [fold_right]. rewrite !Rplus_0_r. field. split; intros E; apply H; rewrite E; ring. Qed.
Lemma one_dens dr dz bottom left p i k : dens dr dz bottom left [p] i k = weight p * share dr dz bottom left i k p.
Proof. unfold dens, rsum. cbn [fold_right]. lra. Qed.
(** above the limit the Lorentz factor is left out: the map shows too little *)
Theorem C95_fast_refuted : forall dr dz bottom left c lim mass p s i k, setup dr dz bottom left c lim mass -> placed dr dz bottom left p ->
  share dr dz bottom left i k p <> 0 -> lim ^ 2 <= speed2 p -> speed2 p < c ^ 2 -> 0 < vel_z p ->
  mom_z (calc_momentum dr dz bottom left c lim mass [p] s) i k = mass * vel_z p /\
  mass * vel_z p < true_momentum c mass vel_z p.
Proof.
  intros dr dz bottom left c lim mass p s i k HS HP Hsh V1 V2 Hz. assert (W : weight p * share dr dz bottom left i k p <> 0).
  { destruct HP as (_ & _ & W & _). apply Rmult_integral_contrapositive_currified; [lra|auto]. }
  split.
  - destruct (code_mean dr dz bottom left c lim mass [p] s i k) as (_ & _ & A); [now rewrite one_dens|]. rewrite A, one_mean by auto.
    unfold code_momentum. rewrite used_fast by auto. ring.
  - destruct HS as [_ _ _ _ Hl Hm]. unfold true_momentum, lorentz.
    assert (C2 : 0 < c ^ 2) by (apply pow_lt; lra). assert (L2 : 0 < lim ^ 2) by (apply pow_lt; lra).
    assert (Q : 0 < speed2 p / c ^ 2 < 1).
    { split; [apply Rmult_lt_0_compat; [lra|now apply Rinv_0_lt_compat]|].
      apply Rmult_lt_reg_r with (c ^ 2); [lra|]. unfold Rdiv. rewrite Rmult_assoc, Rinv_l by lra. lra. }
    assert (S1 : 0 < sqrt (1 - speed2 p / c ^ 2)) by (apply sqrt_lt_R0; lra).
    assert (S2 : sqrt (1 - speed2 p / c ^ 2) < 1) by (rewrite <- sqrt_1 at 2; apply sqrt_lt_1; lra).
    assert (1 < / sqrt (1 - speed2 p / c ^ 2)) by (rewrite <- Rinv_1 at 1; apply Rinv_lt_contravar; lra).
    assert (0 < mass * vel_z p) by (apply Rmult_lt_0_compat; auto). nra.
Qed.
(** ... so a slower particle may show more momentum than a faster one *)
Theorem C95_order_refuted : forall dr dz bottom left c lim mass pr pz w i k, setup dr dz bottom left c lim mass ->
  (forall vz, placed dr dz bottom left {| pos_r := pr; pos_phi := 0; pos_z := pz; vel_r := 0; vel_phi := 0; vel_z := vz; p_sin := 0; weight := w |}) ->
  (forall vz, share dr dz bottom left i k {| pos_r := pr; pos_phi := 0; pos_z := pz; vel_r := 0; vel_phi := 0; vel_z := vz; p_sin := 0; weight := w |} <> 0) ->
  exists slow fast, 0 < slow < fast /\ fast < c /\
    let shown vz := mom_z (calc_momentum dr dz bottom left c lim mass
      [{| pos_r := pr; pos_phi := 0; pos_z := pz; vel_r := 0; vel_phi := 0; vel_z := vz; p_sin := 0; weight := w |}] (new_maps (fun _ _ => 0))) i k in
    shown fast < shown slow.
Proof.
  intros dr dz bottom left c lim mass pr pz w i k HS HP Hsh.
  set (mk := fun vz => {| pos_r := pr; pos_phi := 0; pos_z := pz; vel_r := 0; vel_phi := 0; vel_z := vz; p_sin := 0; weight := w |}).
  assert (SP : forall v, speed2 (mk v) = v ^ 2) by (intros; unfold speed2; cbn; ring).
  assert (SH : forall v, mom_z (calc_momentum dr dz bottom left c lim mass [mk v] (new_maps (fun _ _ => 0))) i k = mass * used_gamma c lim (v ^ 2) * v).
  { intros v. assert (W : weight (mk v) * share dr dz bottom left i k (mk v) <> 0).
    { destruct (HP v) as (_ & _ & W & _). apply Rmult_integral_contrapositive_currified; [cbn in *; lra|exact (Hsh v)]. }
    destruct (code_mean dr dz bottom left c lim mass [mk v] (new_maps (fun _ _ => 0)) i k) as (_ & _ & A); [now rewrite one_dens|].
    rewrite A, one_mean by auto. unfold code_momentum. rewrite SP. reflexivity. }
  destruct HS as [_ _ _ _ Hl Hm].
  assert (C2 : 0 < c ^ 2) by (apply pow_lt; lra). assert (L2 : 0 < lim ^ 2 < c ^ 2) by (split; [apply pow_lt; lra|nra]).
  set (L := lim ^ 2 / c ^ 2). assert (HL : 0 < L < 1).
  { unfold L. split; [apply Rmult_lt_0_compat; [lra|now apply Rinv_0_lt_compat]|].
    apply Rmult_lt_reg_r with (c ^ 2); [lra|]. unfold Rdiv. rewrite Rmult_assoc, Rinv_l by lra. lra. }
  exists (lim * (1 - L / 4)), lim. split; [split; nra|]. split; [lra|]. cbv zeta.
  change (mom_z (calc_momentum dr dz bottom left c lim mass [mk lim] (new_maps (fun _ _ => 0))) i k <
    mom_z (calc_momentum dr dz bottom left c lim mass [mk (lim * (1 - L / 4))] (new_maps (fun _ _ => 0))) i k).
  rewrite !SH.
  rewrite (used_fast c lim (lim ^ 2)) by lra.
  rewrite used_slow by (rewrite Rpow_mult_distr; assert ((1 - L / 4) ^ 2 < 1) by nra; nra).
  assert (Qe : (lim * (1 - L / 4)) ^ 2 / c ^ 2 = L * (1 - L / 4) ^ 2) by (unfold L; field; lra).
  unfold lorentz. rewrite Qe. assert (B : 0 < 1 - L * (1 - L / 4) ^ 2 < (1 - L / 4) ^ 2) by (clear -HL; split; nra).
  set (q := 1 - L * (1 - L / 4) ^ 2) in *. assert (S1 : 0 < sqrt q) by (apply sqrt_lt_R0; lra).
  assert (S2 : sqrt q < 1 - L / 4) by (rewrite <- (sqrt_Rsqr (1 - L / 4)) by lra; apply sqrt_lt_1; unfold Rsqr; nra).
  rewrite Rmult_1_r. rewrite (Rmult_assoc mass (/ sqrt q)). apply Rmult_lt_compat_l; [auto|].
  apply Rmult_lt_reg_l with (sqrt q); [auto|]. rewrite <- Rmult_assoc, Rinv_r by lra. nra.
Qed.

(** * C96: temperature *)
Lemma energy_m_nonneg c lim mass p2 : 0 < mass -> 0 <= p2 -> 0 <= energy_m c lim mass p2.
Proof.
  intros Hm Hp. unfold energy_m. destruct (rlt _ p2).
  - cbv zeta. set (e := mass * (c * c)). assert (E : 0 <= e) by (unfold e; apply Rmult_le_pos; [lra|apply Rle_0_sqr]).
    assert (e <= sqrt (p2 * (c * c) + e * e)).
    { rewrite <- (sqrt_square e) at 1 by auto. apply sqrt_le_1; [nra| |].
      - apply Rplus_le_le_0_compat; [apply Rmult_le_pos; [auto|apply Rle_0_sqr]|nra].
      - assert (0 <= p2 * (c * c)) by (apply Rmult_le_pos; [auto|apply Rle_0_sqr]). lra. }
    lra.
  - unfold Rdiv. apply Rmult_le_pos; [lra|]. left. now apply Rinv_0_lt_compat.
Qed.
Lemma energy_m_zero c lim mass : energy_m c lim mass 0 = 0.
Proof. unfold energy_m. rewrite rlt_false; [unfold Rdiv; ring|]. pose proof (Rle_0_sqr (lim * mass)). unfold Rsqr in *. nra. Qed.
Lemma energy_m_neg c lim mass p2 : 0 < mass -> p2 <= 0 -> energy_m c lim mass p2 = p2 / (2 * mass).
Proof. intros Hm Hp. unfold energy_m. rewrite rlt_false; [field; lra|]. pose proof (Rle_0_sqr (lim * mass)). unfold Rsqr in *. nra. Qed.

Lemma triangle {A} (x y z n w : A -> R) l : (forall a, In a l -> 0 <= w a /\ 0 <= n a /\ x a ^ 2 + y a ^ 2 + z a ^ 2 = n a ^ 2) ->
  0 <= rsum (fun a => w a * n a) l /\
  rsum (fun a => w a * x a) l ^ 2 + rsum (fun a => w a * y a) l ^ 2 + rsum (fun a => w a * z a) l ^ 2 <= rsum (fun a => w a * n a) l ^ 2.
Proof.
  induction l as [|a l IH]; intros H; [cbn; split; lra|]. destruct IH as [N I]; [intros; apply H; now right|].
  destruct (H a (or_introl eq_refl)) as (W & P & E).
  unfold rsum. cbn [fold_right]. fold (rsum (fun a => w a * n a) l) (rsum (fun a => w a * x a) l) (rsum (fun a => w a * y a) l) (rsum (fun a => w a * z a) l).
  set (X := rsum (fun a => w a * x a) l) in *. set (Y := rsum (fun a => w a * y a) l) in *. set (Z := rsum (fun a => w a * z a) l) in *.
  set (S := rsum (fun a => w a * n a) l) in *. clearbody X Y Z S. split; [apply Rplus_le_le_0_compat; [apply Rmult_le_pos|]; auto|].
  assert (CS : X * x a + Y * y a + Z * z a <= S * n a).
  { assert (Q : (X * x a + Y * y a + Z * z a) ^ 2 <= (S * n a) ^ 2).
    { replace ((S * n a) ^ 2) with (S ^ 2 * n a ^ 2) by ring. rewrite <- E.
      assert (0 <= (X * y a - Y * x a) ^ 2) by apply pow2_ge_0. assert (0 <= (Y * z a - Z * y a) ^ 2) by apply pow2_ge_0.
      assert (0 <= (X * z a - Z * x a) ^ 2) by apply pow2_ge_0.
      assert (0 <= x a ^ 2 + y a ^ 2 + z a ^ 2) by (rewrite E; apply pow2_ge_0). nra. }
    assert (0 <= S * n a) by (apply Rmult_le_pos; auto). nra. }
  replace ((w a * n a + S) ^ 2) with (w a ^ 2 * n a ^ 2 + 2 * w a * (S * n a) + S ^ 2) by ring. rewrite <- E.
  assert (w a * (X * x a + Y * y a + Z * z a) <= w a * (S * n a)) by (apply Rmult_le_compat_l; auto). nra.
Qed.

Section Temperature.
Variables dr dz : R.
Variables bottom left : Z.
Variables c lim mass inv_charge : R.
Hypothesis HS : setup dr dz bottom left c lim mass.
Hypothesis Hinv : 0 < inv_charge.
Local Notation temp ps s := (temperature_map (calc_temperature dr dz bottom left c lim mass inv_charge ps s)).
Local Notation dns := (dens dr dz bottom left).
Local Notation psum comp ps i k := (rsum (fun p => weight p * share dr dz bottom left i k p * code_momentum c lim mass comp p) ps).

Lemma temp_is ps s i k : dns ps i k <> 0 -> temp ps s i k =
  energy_m c lim mass ((mom_abs_w s i k ^ 2 - (psum vel_r ps i k ^ 2 + psum vel_phi ps i k ^ 2 + psum vel_z ps i k ^ 2)) / dns ps i k ^ 2) * inv_charge.
Proof using.
  intros Hd. cbn -[deposit energy_m]. unfold temperature_cell. cbn -[deposit energy_m pow].
  rewrite !mom_is. rewrite deposit_sum. fold (dns ps i k). rewrite req_false by auto. f_equal. f_equal. unfold Rdiv. f_equal; [ring|]. f_equal. ring.
Qed.
Lemma temp_empty ps s i k : dns ps i k = 0 -> temp ps s i k = 0.
Proof using. intros Hd. cbn -[deposit energy_m]. unfold temperature_cell. cbn -[deposit energy_m pow]. rewrite !deposit_sum. fold (dns ps i k). now rewrite Hd, req_refl. Qed.

Lemma abs_sq (p : part) : code_momentum c lim mass vel_r p ^ 2 + code_momentum c lim mass vel_phi p ^ 2 + code_momentum c lim mass vel_z p ^ 2 =
  code_momentum c lim mass (fun p => sqrt (speed2 p)) p ^ 2.
Proof using.
  unfold code_momentum. rewrite !Rpow_mult_distr. replace (sqrt (speed2 p) ^ 2) with (speed2 p) by (symmetry; apply pow2_sqrt, speed2_nonneg).
  unfold speed2. ring.
Qed.
Lemma abs_nonneg p : 0 <= code_momentum c lim mass (fun p => sqrt (speed2 p)) p.
Proof using HS.
  destruct HS. unfold code_momentum. pose proof (used_ge1 c lim s_lim0 (speed2 p) (speed2_nonneg p)).
  apply Rmult_le_pos; [apply Rmult_le_pos; lra|apply sqrt_pos].
Qed.
Lemma w_nonneg ps i k p : Forall (placed dr dz bottom left) ps -> In p ps -> 0 <= weight p * share dr dz bottom left i k p.
Proof using HS.
  intros H Hp. rewrite Forall_forall in H. destruct HS. pose proof (share_nonneg dr dz bottom left s_dr0 s_dz0 s_b0 s_l0 i k p (H p Hp)).
  destruct (H p Hp) as (_ & _ & W & _). apply Rmult_le_pos; lra.
Qed.
Lemma fresh_nonneg ps s i k : Forall (placed dr dz bottom left) ps -> mom_abs_w s i k = deposit dr dz bottom left (abs_val c lim mass) ps i k ->
  0 <= temp ps s i k.
Proof using HS Hinv.
  intros HP HA. destruct (Req_dec (dns ps i k) 0) as [Hd|Hd]; [rewrite temp_empty by auto; lra|].
  rewrite temp_is by auto. apply Rmult_le_pos; [|lra]. pose proof HS as [_ _ _ _ Hl Hm]. apply energy_m_nonneg; [auto|].
  assert (P : 0 < dns ps i k ^ 2) by (destruct (Rlt_le_dec 0 (dns ps i k)); [now apply pow_lt|nra]).
  apply Rmult_le_pos; [|left; now apply Rinv_0_lt_compat]. rewrite HA, abs_is by auto.
  destruct (triangle (code_momentum c lim mass vel_r) (code_momentum c lim mass vel_phi) (code_momentum c lim mass vel_z)
    (code_momentum c lim mass (fun p => sqrt (speed2 p))) (fun p => weight p * share dr dz bottom left i k p) ps) as [_ T]; [|lra].
  intros p Hp. split; [now apply (w_nonneg ps)|]. split; [apply abs_nonneg|apply abs_sq].
Qed.
Lemma fresh_cold ps s i k v : Forall (placed dr dz bottom left) ps -> mom_abs_w s i k = deposit dr dz bottom left (abs_val c lim mass) ps i k ->
  (forall p, In p ps -> (vel_r p, vel_phi p, vel_z p) = v) -> temp ps s i k = 0.
Proof using HS Hinv.
  intros HP HA HV. destruct (Req_dec (dns ps i k) 0) as [Hd|Hd]; [now apply temp_empty|].
  rewrite temp_is by auto. rewrite HA, abs_is by (destruct HS; auto). destruct v as [[vr vp] vz].
  set (v2 := vr ^ 2 + vp ^ 2 + vz ^ 2).
  assert (G : forall comp x, (forall p, In p ps -> comp p = x) -> psum comp ps i k = mass * used_gamma c lim v2 * x * dns ps i k).
  { intros comp x Hc. unfold dens. rewrite <- rsum_scale. apply rsum_ext. intros p Hp. unfold code_momentum. rewrite (Hc p Hp).
    replace (speed2 p) with v2; [ring|]. specialize (HV p Hp). injection HV as E1 E2 E3. unfold speed2, v2. now rewrite E1, E2, E3. }
  rewrite (G vel_r vr), (G vel_phi vp), (G vel_z vz), (G _ (sqrt v2));
    try (intros p Hp; specialize (HV p Hp); injection HV as E1 E2 E3; unfold speed2, v2; congruence).
  replace (_ - _) with 0; [unfold Rdiv; rewrite Rmult_0_l, energy_m_zero; ring|].
  rewrite !Rpow_mult_distr, pow2_sqrt by (unfold v2; pose proof (pow2_ge_0 vr); pose proof (pow2_ge_0 vp); pose proof (pow2_ge_0 vz); lra).
  unfold v2. ring.
Qed.
End Temperature.

(** the temperature is not negative, and zero if all particles move alike, when the map of the absolute momenta belongs to the same particles *)
Theorem C96_fresh_partial : forall dr dz bottom left c lim mass inv_charge ps s i k, setup dr dz bottom left c lim mass -> 0 < inv_charge ->
  Forall (placed dr dz bottom left) ps ->
  let t := temperature_map (run_calls dr dz bottom left c lim mass inv_charge [CallEnergy ps; CallTemperature ps] s) i k in
  0 <= t /\ forall v, (forall p, In p ps -> (vel_r p, vel_phi p, vel_z p) = v) -> t = 0.
Proof.
  intros dr dz bottom left c lim mass inv_charge ps s i k HS Hi HP t. unfold t, run_calls. cbn [fold_left run_call]. split.
  - apply fresh_nonneg; auto.
  - intros v Hv. apply (fresh_cold dr dz bottom left c lim mass inv_charge HS Hi ps) with (v := v); auto.
Qed.
(** the calls that the temperature needs are never made by the temperature itself: without the energy diagnostics the map of absolute
    momenta is what was in the memory when it was allocated *)
Definition no_energy (x : call) : Prop := match x with CallEnergy _ => False | _ => True end.
Lemma no_energy_memory dr dz bottom left c lim mass inv_charge l s : Forall no_energy l ->
  mom_abs_w (run_calls dr dz bottom left c lim mass inv_charge l s) = mom_abs_w s.
Proof. intros H. revert s. induction H as [|x l Hx _ IH]; intros s; [reflexivity|]. 
  change (mom_abs_w (run_calls dr dz bottom left c lim mass inv_charge l (run_call dr dz bottom left c lim mass inv_charge s x)) = mom_abs_w s).
  rewrite IH. destruct x; try contradiction; reflexivity. Qed.
(** in cleared memory no temperature is ever positive, whatever the particles and the history *)
Theorem C96_never_positive_refuted : forall dr dz bottom left c lim mass inv_charge l ps i k, setup dr dz bottom left c lim mass -> 0 < inv_charge ->
  Forall (placed dr dz bottom left) ps -> Forall no_energy l ->
  let t := temperature_map (run_calls dr dz bottom left c lim mass inv_charge (l ++ [CallTemperature ps]) (new_maps (fun _ _ => 0))) i k in
  t <= 0 /\
  ((forall p, In p ps -> speed2 p < lim ^ 2) -> rsum (fun p => weight p * share dr dz bottom left i k p) ps <> 0 ->
   rsum (fun p => weight p * share dr dz bottom left i k p * true_momentum c mass vel_z p) ps <> 0 -> t < 0).
Proof.
  intros dr dz bottom left c lim mass inv_charge l ps i k HS Hi HP Hl t. unfold t, run_calls. rewrite fold_left_app. cbn [fold_left run_call].
  set (s := fold_left _ l _). assert (M : mom_abs_w s i k = 0) by (unfold s; change (fold_left (run_call dr dz bottom left c lim mass inv_charge) l) with (run_calls dr dz bottom left c lim mass inv_charge l); now rewrite no_energy_memory).
  destruct (Req_dec (dens dr dz bottom left ps i k) 0) as [Hd|Hd].
  - rewrite temp_empty by auto. split; [lra|]. intros _ H. contradiction.
  - rewrite temp_is by auto. rewrite M. pose proof HS as [_ _ _ _ Hlim Hm].
    set (X := rsum _ ps). set (Y := rsum (fun p => _ * code_momentum c lim mass vel_phi p) ps). set (Z := rsum (fun p => _ * code_momentum c lim mass vel_z p) ps).
    assert (P : 0 < dens dr dz bottom left ps i k ^ 2) by (destruct (Rlt_le_dec 0 (dens dr dz bottom left ps i k)); [now apply pow_lt|nra]).
    set (d2 := dens dr dz bottom left ps i k ^ 2) in *. pose proof (Rinv_0_lt_compat _ P) as PI'.
    pose proof (pow2_ge_0 X). pose proof (pow2_ge_0 Y). pose proof (pow2_ge_0 Z).
    replace ((0 ^ 2 - (X ^ 2 + Y ^ 2 + Z ^ 2)) / d2) with (- ((X ^ 2 + Y ^ 2 + Z ^ 2) * / d2)) by (unfold Rdiv; ring).
    assert (Q : 0 <= (X ^ 2 + Y ^ 2 + Z ^ 2) * / d2) by (apply Rmult_le_pos; lra).
    rewrite energy_m_neg by lra. assert (I2 : 0 < / (2 * mass)) by (apply Rinv_0_lt_compat; lra). unfold Rdiv.
    assert (I3 : 0 < / (2 * mass) * inv_charge) by (apply Rmult_lt_0_compat; auto). split.
    + rewrite Rmult_assoc. nra.
    + intros Hs _ Hz. assert (EZ : Z <> 0).
      { intros E. apply Hz. rewrite <- E. unfold Z. apply rsum_ext. intros p Hp. rewrite code_slow; auto. }
      assert (0 < Z ^ 2) by nra. assert (0 < (X ^ 2 + Y ^ 2 + Z ^ 2) * / d2) by (apply Rmult_lt_0_compat; lra). rewrite Rmult_assoc. nra.
Qed.
(** ... and in general the result depends on the content of fresh memory *)
Theorem C96_memory_refuted : forall dr dz bottom left c lim mass inv_charge l ps i k, setup dr dz bottom left c lim mass -> 0 < inv_charge ->
  Forall (placed dr dz bottom left) ps -> Forall no_energy l -> rsum (fun p => weight p * share dr dz bottom left i k p) ps <> 0 ->
  exists mem1 mem2, temperature_map (run_calls dr dz bottom left c lim mass inv_charge (l ++ [CallTemperature ps]) (new_maps mem1)) i k <>
    temperature_map (run_calls dr dz bottom left c lim mass inv_charge (l ++ [CallTemperature ps]) (new_maps mem2)) i k.
Proof.
  intros dr dz bottom left c lim mass inv_charge l ps i k HS Hi HP Hl Hd.
  set (X := rsum (fun p => weight p * share dr dz bottom left i k p * code_momentum c lim mass vel_r p) ps).
  set (Y := rsum (fun p => weight p * share dr dz bottom left i k p * code_momentum c lim mass vel_phi p) ps).
  set (Z := rsum (fun p => weight p * share dr dz bottom left i k p * code_momentum c lim mass vel_z p) ps).
  set (d := dens dr dz bottom left ps i k). pose proof (pow2_ge_0 X). pose proof (pow2_ge_0 Y). pose proof (pow2_ge_0 Z).
  assert (P : 0 < d ^ 2) by (unfold d; destruct (Rlt_le_dec 0 (dens dr dz bottom left ps i k)); [now apply pow_lt|assert (dens dr dz bottom left ps i k <> 0) by exact Hd; nra]).
  pose proof HS as [_ _ _ _ Hlim Hm].
  assert (T : forall mem, temperature_map (run_calls dr dz bottom left c lim mass inv_charge (l ++ [CallTemperature ps]) (new_maps mem)) i k =
    energy_m c lim mass ((mem i k ^ 2 - (X ^ 2 + Y ^ 2 + Z ^ 2)) / d ^ 2) * inv_charge).
  { intros mem. unfold run_calls. rewrite fold_left_app. cbn [fold_left run_call]. rewrite temp_is by exact Hd.
    change (fold_left (run_call dr dz bottom left c lim mass inv_charge) l) with (run_calls dr dz bottom left c lim mass inv_charge l).
    rewrite no_energy_memory by auto. reflexivity. }
  (* the value [q] is shown as [energy_m q]; choose q = 0 and q = - (lim m)^2 * ..., both not above zero, or above *)
  exists (fun _ _ => sqrt (X ^ 2 + Y ^ 2 + Z ^ 2)), (fun _ _ => sqrt (X ^ 2 + Y ^ 2 + Z ^ 2 + d ^ 2 * (lim * lim * mass * mass))).
  rewrite !T. rewrite !pow2_sqrt; [|assert (0 <= d ^ 2 * (lim * lim * mass * mass)); [|lra]|lra].
  2: { apply Rmult_le_pos; [lra|]. pose proof (Rle_0_sqr (lim * mass)). unfold Rsqr in *. nra. }
  rewrite Rminus_diag_eq by reflexivity. unfold Rdiv at 1. rewrite Rmult_0_l, energy_m_zero, Rmult_0_l.
  replace ((X ^ 2 + Y ^ 2 + Z ^ 2 + d ^ 2 * (lim * lim * mass * mass) - (X ^ 2 + Y ^ 2 + Z ^ 2)) / d ^ 2) with (lim * lim * mass * mass) by (field; intros E; rewrite E in P; lra).
  unfold energy_m. rewrite rlt_false by lra.
  assert (0 < lim * lim * mass * mass) by (repeat apply Rmult_lt_0_compat; lra).
  assert (0 < 1 / 2 * (lim * lim * mass * mass) / mass * inv_charge).
  { unfold Rdiv. apply Rmult_lt_0_compat; [|auto]. apply Rmult_lt_0_compat; [lra|]. now apply Rinv_0_lt_compat. }
  lra.
Qed.

(** * C97: energy *)
Lemma energy_is dr dz bottom left c lim mass inv_charge ps s i k : 0 < lim < c -> dens dr dz bottom left ps i k <> 0 ->
  energy_map (calc_energy dr dz bottom left c lim mass inv_charge ps s) i k =
  energy_m c lim mass (mean_of dr dz bottom left (code_momentum c lim mass (fun p => sqrt (speed2 p))) ps i k ^ 2) * inv_charge.
Proof.
  intros Hl Hd. cbn -[deposit energy_m]. unfold energy_cell. cbn -[deposit energy_m pow].
  rewrite abs_is by auto. rewrite deposit_sum. fold (dens dr dz bottom left ps i k). rewrite req_false by auto. f_equal. f_equal.
  unfold mean_of. field. auto.
Qed.
Lemma uniform_mean dr dz bottom left f x ps i k : dens dr dz bottom left ps i k <> 0 -> (forall p, In p ps -> f p = x) -> mean_of dr dz bottom left f ps i k = x.
Proof.
  intros Hd H. unfold mean_of. rewrite (rsum_ext _ (fun p => x * (weight p * share dr dz bottom left i k p))) by (intros p Hp; rewrite (H p Hp); ring).
  rewrite rsum_scale. fold (dens dr dz bottom left ps i k). field. auto.
Qed.
(** (gamma v / c)^2 = gamma^2 - 1 *)
Lemma lorentz_sq c v2 : 0 < c -> 0 <= v2 -> v2 < c ^ 2 -> lorentz c v2 ^ 2 * v2 = (lorentz c v2 ^ 2 - 1) * c ^ 2.
Proof.
  intros Hc A B. unfold lorentz. assert (C2 : 0 < c ^ 2) by (apply pow_lt; lra).
  assert (D : 0 < 1 - v2 / c ^ 2).
  { assert (v2 / c ^ 2 < 1) by (apply Rmult_lt_reg_r with (c ^ 2); [lra|]; unfold Rdiv; rewrite Rmult_assoc, Rinv_l by lra; lra). lra. }
  rewrite pow_inv. rewrite pow2_sqrt by lra. field. repeat split; lra.
Qed.
(** particles of one speed below the limit: exact once the momentum exceeds the limit, above the kinetic energy by a factor (gamma + 1) / 2 below it *)
Theorem C97_uniform_partial : forall dr dz bottom left c lim mass inv_charge ps s i k v2, setup dr dz bottom left c lim mass ->
  (forall p, In p ps -> speed2 p = v2) -> 0 <= v2 < lim ^ 2 -> rsum (fun p => weight p * share dr dz bottom left i k p) ps <> 0 ->
  let shown := energy_map (calc_energy dr dz bottom left c lim mass inv_charge ps s) i k in
  let g := lorentz c v2 in
  (lim ^ 2 < g ^ 2 * v2 -> shown = (g - 1) * mass * c ^ 2 * inv_charge) /\
  (g ^ 2 * v2 <= lim ^ 2 -> shown = (g - 1) * mass * c ^ 2 * inv_charge * ((g + 1) / 2)).
Proof.
  intros dr dz bottom left c lim mass inv_charge ps s i k v2 HS Hv V Hd shown g. pose proof HS as [_ _ _ _ Hl Hm].
  assert (C2 : v2 < c ^ 2) by (assert (lim ^ 2 < c ^ 2) by nra; lra). pose proof (lorentz_sq c v2 ltac:(lra) ltac:(lra) C2) as LS. fold g in LS.
  assert (G1 : 1 <= g) by (apply (lorentz_ge1 c lim); lra).
  unfold shown. rewrite energy_is by auto. rewrite (uniform_mean _ _ _ _ _ (mass * g * sqrt v2)).
  2: exact Hd.
  2: { intros p Hp. unfold code_momentum. rewrite (Hv p Hp), used_slow by lra. reflexivity. }
  rewrite !Rpow_mult_distr, pow2_sqrt by lra. assert (M2 : 0 < mass ^ 2) by (apply pow_lt; lra). unfold energy_m. split; intros H.
  - rewrite rlt_true by nra. cbv zeta.
    replace (mass ^ 2 * g ^ 2 * v2 * (c * c) + mass * (c * c) * (mass * (c * c))) with ((g * mass * c ^ 2) * (g * mass * c ^ 2)).
    + rewrite sqrt_square; [ring|]. apply Rmult_le_pos; [apply Rmult_le_pos; lra|apply pow2_ge_0].
    + replace (mass ^ 2 * g ^ 2 * v2 * (c * c)) with (mass ^ 2 * (g ^ 2 * v2) * c ^ 2) by ring. rewrite LS. ring.
  - rewrite rlt_false by nra. replace (mass ^ 2 * g ^ 2 * v2) with (mass ^ 2 * (g ^ 2 * v2)) by ring. rewrite LS. field. lra.
Qed.
(** the map never shows more than (sqrt 2 - 1) m c^2, however energetic the particles are *)
Theorem C97_cap_refuted : forall dr dz bottom left c lim mass inv_charge ps s i k, setup dr dz bottom left c lim mass -> 0 < inv_charge ->
  2 * lim ^ 2 <= c ^ 2 -> Forall (placed dr dz bottom left) ps -> (forall p, In p ps -> speed2 p < c ^ 2) ->
  energy_map (calc_energy dr dz bottom left c lim mass inv_charge ps s) i k <= (sqrt 2 - 1) * mass * c ^ 2 * inv_charge.
Proof.
  intros dr dz bottom left c lim mass inv_charge ps s i k HS Hinv H2 HP Hv. pose proof HS as [D1 D2 D3 D4 Hl Hm].
  assert (C2 : 0 < c ^ 2) by (apply pow_lt; lra). assert (M2 : 0 < mass ^ 2) by (apply pow_lt; lra).
  assert (S2 : 14 / 10 < sqrt 2) by (rewrite <- (sqrt_square (14 / 10)) by lra; apply sqrt_lt_1; lra).
  assert (CAP : 0 < (sqrt 2 - 1) * mass * c ^ 2) by (repeat apply Rmult_lt_0_compat; lra).
  destruct (Req_dec (dens dr dz bottom left ps i k) 0) as [Hd|Hd].
  { cbn -[deposit energy_m]. unfold energy_cell. cbn -[deposit energy_m pow]. rewrite deposit_sum. fold (dens dr dz bottom left ps i k). rewrite Hd, req_refl.
    apply Rmult_le_pos; lra. }
  rewrite energy_is by auto. apply Rmult_le_compat_r; [lra|].
  set (P := mean_of _ _ _ _ _ _ _ _).
  assert (HPm : 0 <= P <= mass * c).
  { apply mean_between; auto. intros p Hp. split; [now apply (abs_nonneg dr dz bottom left)|]. unfold code_momentum. rewrite Rmult_assoc.
    apply Rmult_le_compat_l; [lra|]. pose proof (speed2_nonneg p) as N. pose proof (Hv p Hp) as V.
    destruct (Rlt_le_dec (speed2 p) (lim ^ 2)) as [L|L].
    - rewrite used_slow by auto. assert (G1 : 1 <= lorentz c (speed2 p)) by (apply (lorentz_ge1 c lim); auto).
      pose proof (lorentz_sq c (speed2 p) ltac:(lra) N V) as LS. set (g := lorentz c (speed2 p)) in *.
      rewrite <- (sqrt_square g), <- sqrt_mult by nra. rewrite <- (sqrt_square c) by lra. apply sqrt_le_1; [nra|nra|].
      (* g^2 v2 = (g^2 - 1) c^2 and v2 <= c^2 / 2 give g^2 <= 2 *)
      replace (g * g * speed2 p) with (g ^ 2 * speed2 p) by ring. rewrite LS.
      assert (speed2 p <= c ^ 2 / 2) by lra. assert (g ^ 2 * speed2 p <= g ^ 2 * (c ^ 2 / 2)) by (apply Rmult_le_compat_l; [apply pow2_ge_0|auto]). nra.
    - rewrite used_fast by auto. rewrite Rmult_1_l. rewrite <- (sqrt_square c) by lra. apply sqrt_le_1; nra. }
  assert (P2 : P ^ 2 <= mass ^ 2 * c ^ 2) by (replace (mass ^ 2 * c ^ 2) with ((mass * c) ^ 2) by ring; apply pow_incr; lra).
  unfold energy_m. destruct (rlt (lim * lim * mass * mass) (P ^ 2)) eqn:E.
  - cbv zeta. assert (Q : sqrt (P ^ 2 * (c * c) + mass * (c * c) * (mass * (c * c))) <= sqrt 2 * (mass * c ^ 2)).
    { rewrite <- (sqrt_square (mass * c ^ 2)) by (apply Rmult_le_pos; lra). rewrite <- sqrt_mult by nra. apply sqrt_le_1.
      - pose proof (pow2_ge_0 P). pose proof (Rle_0_sqr c). unfold Rsqr in *. apply Rplus_le_le_0_compat; [apply Rmult_le_pos; auto|nra].
      - nra.
      - assert (P ^ 2 * c ^ 2 <= mass ^ 2 * c ^ 2 * c ^ 2) by (apply Rmult_le_compat_r; lra). nra. }
    nra.
  - unfold rlt in E. destruct (Rlt_dec (lim * lim * mass * mass) (P ^ 2)) as [|NL]; [discriminate|].
    assert (Q : P ^ 2 <= c ^ 2 / 2 * mass ^ 2) by nra.
    assert (1 / 2 * P ^ 2 / mass <= mass * c ^ 2 / 4).
    { apply Rmult_le_reg_r with mass; [auto|]. unfold Rdiv. rewrite Rmult_assoc, Rinv_l, Rmult_1_r by lra. nra. }
    assert (0 < mass * c ^ 2) by (apply Rmult_lt_0_compat; auto). nra.
Qed.
(** the energy of the mean momentum is not the mean energy: a fast and a resting particle show half of their mean energy *)
Theorem C97_mean_refuted : forall dr dz bottom left c lim mass inv_charge p q s i k, setup dr dz bottom left c lim mass -> 0 < inv_charge ->
  2 * lim ^ 2 <= c ^ 2 ->
  0 < weight p * share dr dz bottom left i k p -> weight q * share dr dz bottom left i k q = weight p * share dr dz bottom left i k p ->
  speed2 q = 0 -> 0 < speed2 p < lim ^ 2 ->
  energy_map (calc_energy dr dz bottom left c lim mass inv_charge [p; q] s) i k < (kinetic c mass p + kinetic c mass q) / 2 * inv_charge * (3 / 4).
Proof.
  intros dr dz bottom left c lim mass inv_charge p q s i k HS Hinv H2 Hp Hq V0 V. pose proof HS as [_ _ _ _ Hl Hm].
  assert (C2 : 0 < c ^ 2) by (apply pow_lt; lra). assert (M2 : 0 < mass ^ 2) by (apply pow_lt; lra).
  set (w := weight p * share dr dz bottom left i k p) in *.
  assert (Hd : dens dr dz bottom left [p; q] i k = 2 * w) by (unfold dens, rsum; cbn [fold_right]; rewrite Hq; fold w; ring).
  rewrite energy_is by (auto; rewrite Hd; lra).
  replace ((kinetic c mass p + kinetic c mass q) / 2 * inv_charge * (3 / 4)) with ((kinetic c mass p + kinetic c mass q) / 2 * (3 / 4) * inv_charge) by ring.
  apply Rmult_lt_compat_r; [auto|].
  assert (K0 : kinetic c mass q = 0).
  { unfold kinetic, lorentz. rewrite V0. unfold Rdiv. rewrite Rmult_0_l, Rminus_0_r, sqrt_1, Rinv_1. ring. }
  rewrite K0. set (g := lorentz c (speed2 p)). assert (Vc : speed2 p < c ^ 2) by lra.
  pose proof (lorentz_sq c (speed2 p) ltac:(lra) ltac:(lra) Vc) as LS. fold g in LS.
  assert (G1 : 1 <= g) by (apply (lorentz_ge1 c lim); lra).
  assert (G2 : g ^ 2 * speed2 p <= c ^ 2).
  { assert (speed2 p <= c ^ 2 / 2) by lra. assert (g ^ 2 * speed2 p <= g ^ 2 * (c ^ 2 / 2)) by (apply Rmult_le_compat_l; [apply pow2_ge_0|auto]). nra. }
  assert (G3 : g ^ 2 <= 2) by nra. assert (G4 : g <= 15 / 10) by nra.
  assert (MN : mean_of dr dz bottom left (code_momentum c lim mass (fun p => sqrt (speed2 p))) [p; q] i k = mass * g * sqrt (speed2 p) / 2).
  { unfold mean_of. rewrite Hd. unfold rsum. cbn [fold_right]. rewrite Hq. fold w. unfold code_momentum. rewrite V0, sqrt_0.
    rewrite (used_slow c lim (speed2 p)) by lra. fold g. field. lra. }
  rewrite MN. replace ((mass * g * sqrt (speed2 p) / 2) ^ 2) with (mass ^ 2 * (g ^ 2 * sqrt (speed2 p) ^ 2) / 4) by field. rewrite pow2_sqrt by lra.
  assert (GL : g ^ 2 * speed2 p <= 2 * lim ^ 2).
  { assert (g ^ 2 * speed2 p <= 2 * speed2 p) by (apply Rmult_le_compat_r; lra). lra. }
  unfold energy_m. rewrite rlt_false by nra. unfold kinetic. fold g. rewrite LS.
  replace (1 / 2 * (mass ^ 2 * ((g ^ 2 - 1) * c ^ 2) / 4) / mass) with ((g - 1) * (mass * c ^ 2) * ((g + 1) / 8)) by (field; lra).
  assert (G5 : 1 < g).
  { destruct (Req_dec g 1) as [E1|]; [|lra]. rewrite E1 in LS. lra. }
  assert (0 < (g - 1) * (mass * c ^ 2)) by (apply Rmult_lt_0_compat; [lra|apply Rmult_lt_0_compat; lra]). nra.
Qed.

(** * Concrete instances *)
Definition mp (v : R) : part := {| pos_r := 5 / 2; pos_phi := 0; pos_z := 5 / 2; vel_r := 0; vel_phi := 0; vel_z := v; p_sin := 0; weight := 3 |}.
Lemma mp_cell : cell_number (5 / 2) 1 = 2%Z.
Proof. unfold cell_number. apply Int_part_unique. lra. Qed.
Lemma mp_placed v : placed 1 1 0 0 (mp v).
Proof. unfold placed. cbn [mp pos_r pos_z weight]. rewrite mp_cell. repeat split; try lra; try lia. Qed.
Lemma mp_share v : share 1 1 0 0 2 2 (mp v) = 9 / (200 * PI).
Proof.
  unfold share, weight_cylindrical. cbn [mp pos_r pos_z]. rewrite mp_cell. replace (Rltb 1 (5 / 2)) with true by (symmetry; apply Rltb_true; lra).
  change (u32 (2 - 0)) with 2%Z. change (u32 (2 + 1)) with 3%Z. unfold cell_sum. cbn [fold_right Z.eqb andb Pos.eqb].
  unfold cyl_rng_vol, cell_volume_i. pose proof PI_RGT_0. field. lra.
Qed.
Lemma mp_pos : 0 < 9 / (200 * PI).
Proof. pose proof PI_RGT_0. apply Rmult_lt_0_compat; [lra|apply Rinv_0_lt_compat; lra]. Qed.
Example C95_ex : setup 1 1 0 0 10 4 2 /\ Forall (placed 1 1 0 0) [mp 3; mp 1] /\ (forall p, In p [mp 3; mp 1] -> speed2 p < 4 ^ 2) /\
  rsum (fun p => weight p * share 1 1 0 0 2 2 p) [mp 3; mp 1] = 27 / (100 * PI) /\
  mom_z (calc_momentum 1 1 0 0 10 4 2 [mp 6] (new_maps (fun _ _ => 0))) 2 2 = 12 /\ true_momentum 10 2 vel_z (mp 6) = 15.
Proof.
  assert (S : setup 1 1 0 0 10 4 2) by (constructor; lra || lia). split; [exact S|]. split; [repeat (apply Forall_cons; [apply mp_placed|]); apply Forall_nil|].
  split; [intros p [<-|[<-|[]]]; unfold speed2; cbn; lra|]. split; [unfold rsum; cbn [fold_right]; rewrite !mp_share; cbn [mp weight]; pose proof PI_RGT_0; field; lra|]. split.
  - assert (V : speed2 (mp 6) = 36) by (unfold speed2; cbn; ring).
    destruct (C95_fast_refuted 1 1 0 0 10 4 2 (mp 6) (new_maps (fun _ _ => 0)) 2 2 S (mp_placed 6)) as [A _];
      [rewrite mp_share; pose proof mp_pos; lra|lra|lra|cbn; lra|]. rewrite A. cbn. lra.
  - unfold true_momentum, lorentz, speed2. cbn [mp vel_r vel_phi vel_z].
    replace (1 - (0 ^ 2 + 0 ^ 2 + 6 ^ 2) / 10 ^ 2) with ((8 / 10) * (8 / 10)) by field. rewrite sqrt_square by lra. field.
Qed.
Example C96_ex : (forall p, In p [mp 3; mp 1] -> speed2 p < 4 ^ 2) /\ Forall no_energy [CallDensity [mp 1]; CallMomentum [mp 2]] /\
  0 < rsum (fun p => weight p * share 1 1 0 0 2 2 p * true_momentum 10 2 vel_z p) [mp 3; mp 1].
Proof.
  split; [intros p [<-|[<-|[]]]; unfold speed2; cbn; lra|]. split; [repeat constructor|].
  assert (T : forall v, 0 < v < 4 -> 0 < true_momentum 10 2 vel_z (mp v)).
  { intros v Hv. unfold true_momentum. assert (speed2 (mp v) = v ^ 2) by (unfold speed2; cbn; ring). rewrite H.
    pose proof (lorentz_ge1 10 4 ltac:(lra) (v ^ 2) ltac:(nra) ltac:(nra)). cbn [mp vel_z]. apply Rmult_lt_0_compat; nra. }
  unfold rsum. cbn [fold_right]. rewrite !mp_share. cbn [mp weight]. pose proof (T 3 ltac:(lra)). pose proof (T 1 ltac:(lra)). pose proof mp_pos.
  assert (0 < 3 * (9 / (200 * PI)) * true_momentum 10 2 vel_z (mp 3)) by (apply Rmult_lt_0_compat; lra).
  assert (0 < 3 * (9 / (200 * PI)) * true_momentum 10 2 vel_z (mp 1)) by (apply Rmult_lt_0_compat; lra). unfold mp in *. lra.
Qed.
Example C97_ex : 2 * 4 ^ 2 <= 10 ^ 2 /\ weight (mp 0) * share 1 1 0 0 2 2 (mp 0) = weight (mp 3) * share 1 1 0 0 2 2 (mp 3) /\
  speed2 (mp 0) = 0 /\ 0 < speed2 (mp 3) < 4 ^ 2.
Proof. rewrite !mp_share. unfold speed2. cbn. repeat split; lra. Qed.

Print Assumptions C95_density.
Print Assumptions C95_momentum_partial.
Print Assumptions C95_range.
Print Assumptions C95_fast_refuted.
Print Assumptions C95_order_refuted.
Print Assumptions C96_fresh_partial.
Print Assumptions C96_never_positive_refuted.
Print Assumptions C96_memory_refuted.
Print Assumptions C97_uniform_partial.
Print Assumptions C97_cap_refuted.
Print Assumptions C97_mean_refuted.
