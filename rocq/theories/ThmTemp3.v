(** C142, continued: between 10 eV and 3 keV the plasma starts with about the configured temperature. *)
From Coq Require Import Reals Lra.
From Verif Require Import Base RndUtil PushModel ParticleModel InitModel MjTable MjModel MjProofs ThmMj ExpFix ThmTemp ThmTemp2.
Local Open Scope list_scope.
Open Scope R_scope.

Definition xlow (j : Z) : Z := elo (- ehi (ylo 1 j + 1)).
Definition xhigh (j : Z) : Z := (ehi (- elo (ylo 1 j)) * 5001 / 5000 + 1)%Z.
Definition clo (j : Z) : Z := clampz (one_z - xhigh j).
Definition chi (j : Z) : Z := clampz (one_z - xlow j).
Definition glo1 (j : Z) : Z := glo 1 1 1 (j - 1).
Definition ghi1 (j : Z) : Z := ghi 1 1 1 j.
Definition pt_good (j : Z) : bool := ((0 <? elo (- (ylo 1 j + 1))) && (0 <? elo (- - elo (ylo 1 j))) && point_ok 1 1 1 j && (0 <=? ghi1 j))%Z.
(** the same numbers, each computed once *)
Definition point3 (i : nat) : Z * Z * Z * Z * bool :=
  (let j := 801 - Z.of_nat i in let y := ylo 1 j in let h := hz 1 j in let t := it 1 1 in
   let a := elo (- (y + 1)) in let w := - elo y in let c := elo (- w) in let c' := elo (- (w + (t + 1))) in let e := elo (- (h + 1)) in
   let g := elo h * 1 / 1 in let g' := (one_z * one_z / e + 1) * 1 / 1 + 1 in
   (clampz (one_z - ((one_z * one_z / c + 1) * 5001 / 5000 + 1)), clampz (one_z - elo (- (one_z * one_z / a + 1))), g, g',
    (0 <? a) && (0 <? c) && ((0 <? a) && (0 <? c') && (0 <? e) && (0 <? g)) && (0 <=? g')))%Z.
Definition n_check (l : list (Z * Z)) : bool :=
  ((2936 * one_z * one_z <=? 1000 * zsum fst l) && (1000 * zsum snd l <=? 3067 * one_z * one_z))%Z.
Lemma n_checked : points point3 301 snd piece1 (fun _ _ => n_check) = true.
Proof. vm_cast_no_check (eq_refl true). Qed.
Lemma ends_ok : ((topz <=? clo 801) && (chi 500 * 1000 <=? one_z) && (chi 613 * 1000 <=? 15 * one_z) && (one_z <=? 2 * glo1 614) && (ghi1 500 <=? one_z))%Z = true.
Proof. vm_cast_no_check (eq_refl true). Qed.
Local Opaque elo ehi one_z.
Lemma point3_eq i : point3 i = (back clo 801 i, back chi 801 i, glo 1 1 1 (801 - Z.of_nat i), ghi 1 1 1 (801 - Z.of_nat i), pt_good (801 - Z.of_nat i)).
Proof. unfold back, clo, chi, xlow, xhigh, pt_good, ghi1, glo, ghi, point_ok, point3. cbv zeta. rewrite !ehi_eq. reflexivity. Qed.
Lemma piece3_eq i : piece1 (point3 i) (point3 (S i)) = (low_term (back clo 801) (back chi 801) (back glo1 801) i, high_term (back clo 801) (back chi 801) (back ghi1 801) i).
Proof.
  rewrite !point3_eq. unfold low_term, high_term, back, glo1, ghi1. replace (801 - Z.of_nat i - 1)%Z with (801 - Z.of_nat (S i))%Z by lia. reflexivity.
Qed.
Lemma numbers : ((2936 * one_z * one_z <=? 1000 * low_sum (back clo 801) (back chi 801) (back glo1 801) 301) &&
  (1000 * high_sum (back clo 801) (back chi 801) (back ghi1 801) 301 <=? 3067 * one_z * one_z))%Z = true.
Proof.
  destruct (points_spec _ _ _ _ _ n_checked) as [_ H]. unfold n_check in H.
  rewrite (low_list _ _ (back glo1 801) fst (fun i => piece1 (point3 i) (point3 (S i)))), (high_list _ _ (back ghi1 801) snd (fun i => piece1 (point3 i) (point3 (S i)))); [exact H|..];
    intros i; rewrite piece3_eq; reflexivity.
Qed.
Lemma all_good : forallb (fun i => pt_good (801 - Z.of_nat i)) (seq 0 302) = true.
Proof.
  destruct (points_spec _ _ _ _ _ n_checked) as [H _]. rewrite forallb_forall. intros i I. apply in_seq in I.
  specialize (H i ltac:(lia)). rewrite point3_eq in H. exact H.
Qed.
Local Opaque elo ehi one_z.

Lemma H0_small T : 10 <= T -> - H0 T <= 1 / 6000.
Proof.
  intros HT. unfold H0. cbv zeta. assert (I1 : 0 < 1 / T) by (apply Rmult_lt_0_compat; [lra|apply Rinv_0_lt_compat; lra]).
  assert (I2 : 1 / T <= 1 / 10) by (unfold Rdiv; rewrite !Rmult_1_l; apply Rinv_le_contravar; lra). set (t := 1 / T) in *. clearbody t.
  assert (A := increasing_from0 (fun t => ln (1 + t + 1 / 2 * t * t) - t + t * t * t / 6)
    (fun t => (1 + t) / (1 + t + 1 / 2 * t * t) - 1 + t * t / 2) t).
  cbv beta in A. rewrite !Rmult_0_r, !Rplus_0_r, ln_1 in A.
  assert (B : 0 - 0 + 0 / 6 <= ln (1 + t + 1 / 2 * t * t) - t + t * t * t / 6); [apply A; [| |lra]|].
  - intros x X. assert (P : 0 < 1 + x + 1 / 2 * x * x) by nra.
    replace ((1 + x) / (1 + x + 1 / 2 * x * x) - 1 + x * x / 2) with
      (/ (1 + x + 1 / 2 * x * x) * (0 + 1 + (1 / 2 * 1 * x + 1 / 2 * x * 1)) - 1 + ((1 * x + x * 1) * x + x * x * 1) * / 6) by (field; lra).
    apply derivable_pt_lim_plus; [apply derivable_pt_lim_minus|].
    + apply (derivable_pt_lim_comp (fun x => 1 + x + 1 / 2 * x * x) ln); [|apply derivable_pt_lim_ln, P].
      apply (derivable_pt_lim_plus (fun x => 1 + x) (fun x => 1 / 2 * x * x)).
      * apply (derivable_pt_lim_plus (fun _ => 1) (fun x => x)); [apply derivable_pt_lim_const|apply derivable_pt_lim_id].
      * apply (derivable_pt_lim_mult (fun x => 1 / 2 * x) (fun x => x)); [|apply derivable_pt_lim_id].
        apply (derivable_pt_lim_scal (fun x => x)), derivable_pt_lim_id.
    + apply derivable_pt_lim_id.
    + apply (derivable_pt_lim_ext (fun x => (x * x * x) * / 6)); [intros z; unfold Rdiv; ring|].
      replace (((1 * x + x * 1) * x + x * x * 1) * / 6) with (((1 * x + x * 1) * x + x * x * 1) * / 6 + (x * x * x) * 0) by ring.
      apply (derivable_pt_lim_mult (fun x => x * x * x) (fun _ => / 6)); [|apply derivable_pt_lim_const].
      apply (derivable_pt_lim_mult (fun x => x * x) (fun x => x)); [apply (derivable_pt_lim_mult (fun x => x) (fun x => x))|]; apply derivable_pt_lim_id.
  - intros x X. assert (P : 0 < 1 + x + 1 / 2 * x * x) by nra.
    replace ((1 + x) / (1 + x + 1 / 2 * x * x) - 1 + x * x / 2) with (x * x / 2 * ((x + 1 / 2 * x * x) / (1 + x + 1 / 2 * x * x))) by (field; lra).
    apply Rmult_le_pos; [nra|]. apply Rmult_le_pos; [nra|apply Rlt_le, Rinv_0_lt_compat, P].
  - assert (t * t * t <= 1 / 1000); [|lra]. assert (t * t <= 1 / 100) by nra. nra.
Qed.
Lemma factor T : 10 <= T -> 1 <= exp (- H0 T) <= 5001 / 5000.
Proof.
  intros HT. assert (A := H0_small T HT). destruct (H0_neg T ltac:(lra)) as [B _]. split; [assert (C := exp_ge1 (- H0 T)); lra|].
  set (x := - H0 T) in *. clearbody x. assert (C := exp_ge1 (- x)). assert (P := exp_pos x).
  assert (E : exp x * exp (- x) = 1) by (rewrite <- exp_plus, Rplus_opp_r; apply exp_0). nra.
Qed.
Definition pcut (T : R) (j : Z) : R := clamp (1 - surv T (at_y 1 j)).
Lemma pcut_bounds T j : 10 <= T -> pt_good j = true -> rv (clo j) <= pcut T j <= rv (chi j).
Proof.
  intros HT K. unfold pt_good in K. apply andb_prop in K as [K _]. apply andb_prop in K as [K _]. apply andb_prop in K as [K1 K2]. apply Z.ltb_lt in K1, K2.
  destruct (rv_quo (42 * j - 29970 * 1) (999 * 1) ltac:(lia)) as [L H]. fold (ylo 1 j) in L, H. fold (at_y 1 j) in L, H.
  destruct (factor T HT) as [F1 F2].
  assert (E : surv T (at_y 1 j) = exp (- exp (at_y 1 j)) * exp (- H0 T)) by (unfold surv; rewrite <- exp_plus; f_equal; ring).
  assert (S1 : rv (xlow j) <= exp (- exp (at_y 1 j))).
  { unfold xlow. eapply Rle_trans; [apply elo_spec|]. apply exp_mono. rewrite rv_opp. assert (X := ehi_spec _ K1). assert (Y := exp_mono _ _ H). lra. }
  assert (S2 : exp (- exp (at_y 1 j)) <= rv (ehi (- elo (ylo 1 j)))).
  { eapply Rle_trans; [|apply ehi_spec, K2]. apply exp_mono. rewrite rv_opp. assert (X := elo_spec (ylo 1 j)). assert (Y := exp_mono _ _ L). lra. }
  assert (P := exp_pos (- exp (at_y 1 j))).
  destruct (rv_frac (ehi (- elo (ylo 1 j))) 5001 5000 ltac:(lia)) as [_ FR]. fold (xhigh j) in FR.
  unfold clo, chi, pcut. rewrite !rv_clamp, !rv_minus, rv_one. split; apply clamp_mono; rewrite E.
  - assert (exp (- exp (at_y 1 j)) * exp (- H0 T) <= rv (ehi (- elo (ylo 1 j))) * (5001 / 5000)) by (apply Rmult_le_compat; lra). lra.
  - nra.
Qed.
Lemma good i : (i <= 301)%nat -> pt_good (801 - Z.of_nat i) = true.
Proof. intros I. assert (A := all_good). rewrite forallb_forall in A. apply A, in_seq. lia. Qed.
Lemma good_point j : pt_good j = true -> point_ok 1 1 1 j = true /\ (0 <= ghi1 j)%Z.
Proof. intros K. unfold pt_good in K. apply andb_prop in K as [K K4]. apply andb_prop in K as [_ K3]. apply Z.leb_le in K4. split; assumption. Qed.
Lemma g1_bounds j : (0 <= j)%Z -> pt_good j = true -> rv (glo 1 1 1 j) <= exp (hlin (at_i 1 j)) <= rv (ghi 1 1 1 j).
Proof.
  intros J K. destruct (g_bounds 1 1 1 ltac:(lia) ltac:(lia) ltac:(lia) j J (proj1 (good_point j K))) as [G _].
  replace (IZR 1 / IZR 1 * exp (hlin (at_i 1 j))) with (exp (hlin (at_i 1 j))) in G by field. exact G.
Qed.

Section Warm.
Variable T : R.
Hypothesis HT : 10 <= T <= 3000.
Lemma pcut_mono j k : (j <= k)%Z -> pcut T j <= pcut T k.
Proof using HT.
  intros J. unfold pcut. apply clamp_mono.
  assert (Y : at_y 1 j <= at_y 1 k) by (unfold at_y; apply Rmult_le_compat_r; [apply Rlt_le, Rinv_0_lt_compat, IZR_lt; lia|apply IZR_le; lia]).
  apply exp_mono in Y. assert (Z : surv T (at_y 1 k) <= surv T (at_y 1 j)) by (apply exp_mono; lra). lra.
Qed.
Lemma pcut_top : pcut T 801 = top_draw.
Proof using HT.
  assert (Q := ends_ok). apply andb_prop in Q as [Q _]. apply andb_prop in Q as [Q _]. apply andb_prop in Q as [Q _]. apply andb_prop in Q as [Q _]. apply Z.leb_le in Q.
  destruct (pcut_bounds T 801 ltac:(lra) (good 0 ltac:(lia))) as [L _]. assert (R := clamp_range (1 - surv T (at_y 1 801))). fold (pcut T 801) in R.
  apply rv_le in Q. rewrite rv_top in Q. lra.
Qed.
Lemma rv_mul k z : rv (k * z) = IZR k * rv z.
Proof using. unfold rv. rewrite mult_IZR. field. apply Rgt_not_eq, one_pos. Qed.
Lemma pcut_low : pcut T 500 <= 1 / 1000 /\ pcut T 613 <= 15 / 1000.
Proof using HT.
  assert (Q := ends_ok). apply andb_prop in Q as [Q _]. apply andb_prop in Q as [Q _]. apply andb_prop in Q as [Q Q2]. apply andb_prop in Q as [_ Q1]. apply Z.leb_le in Q1, Q2.
  assert (G1 := good 301 (le_n 301)). change (801 - Z.of_nat 301)%Z with 500%Z in G1. assert (G2 := good 188 ltac:(lia)). change (801 - Z.of_nat 188)%Z with 613%Z in G2.
  destruct (pcut_bounds T 500 ltac:(lra) G1) as [_ L1]. destruct (pcut_bounds T 613 ltac:(lra) G2) as [_ L2].
  apply rv_le in Q1, Q2. rewrite (Z.mul_comm _ 1000), rv_mul in Q1. rewrite (Z.mul_comm _ 1000), !rv_mul in Q2. rewrite rv_one in *. lra.
Qed.
(** below the first point *)
Lemma gam_below k u : (0 <= k < 999)%Z -> 0 <= u <= top_draw -> u < 1 - surv T (at_y 1 k) -> 0 < gam T u <= T * exp (hlin (at_i 1 k)).
Proof using HT.
  intros K HU B. destruct (C113_gamma_partial T u ltac:(lra) HU) as (g & E & P).
  assert (I : 1 / 3000 <= 1 / T) by (unfold Rdiv; rewrite !Rmult_1_l; apply Rinv_le_contravar; lra).
  assert (L := H0_lower T (1 / 3000) ltac:(lra) ltac:(lra) I). assert (E26 := e26). destruct (ln_draw u HU) as [C D].
  destruct (rel_table T u ltac:(lra) HU ltac:(unfold rel_arg; lra)) as [G X].
  split; [unfold gam; rewrite E; exact P|]. unfold gam. rewrite G.
  set (x := (ln (rel_arg T u) + 30) * (999 / (12 + 30))) in *.
  assert (A : rel_arg T u < exp (at_y 1 k)).
  { assert (S1 : 0 < surv T (at_y 1 k)) by apply exp_pos. assert (LB : ln (surv T (at_y 1 k)) < ln (1 - u)) by (apply ln_increasing; lra).
    unfold surv in LB. rewrite ln_exp in LB. unfold rel_arg. lra. }
  assert (PA : 0 < rel_arg T u) by (assert (PX := exp_pos (- 26)); unfold rel_arg; lra).
  assert (LX : ln (rel_arg T u) <= at_y 1 k) by (rewrite <- (ln_exp (at_y 1 k)); apply ln_mono; lra).
  assert (XI : x <= at_i 1 k) by (rewrite <- (at_y_i 1 ltac:(lia)); unfold x; apply Rmult_le_compat_r; lra).
  assert (I9 : at_i 1 k < 999) by (unfold at_i; replace (IZR k / IZR 1) with (IZR k) by field; apply IZR_lt; lia).
  apply Rmult_le_compat_l; [lra|]. apply exp_mono, hlin_mono; lra.
Qed.
(** the sums of gamma / T *)
Lemma gamma_build n : (n <= 301)%nat -> exists l h, sums (fun u => Ok (gam T u / T)) (pcut T (801 - Z.of_nat n)) (pcut T 801) l h /\
  rv2 (low_sum (back clo 801) (back chi 801) (back glo1 801) n) <= l /\ h <= rv2 (high_sum (back clo 801) (back chi 801) (back ghi1 801) n).
Proof using HT.
  intros N. apply (build (back clo 801) (back chi 801) (back glo1 801) (back ghi1 801) (fun u => Ok (gam T u / T)) (fun i => pcut T (801 - Z.of_nat i)) n).
  - intros i I. apply pcut_mono. lia.
  - intros i I. apply pcut_bounds; [lra|apply good; lia].
  - intros i I. apply (good_point (801 - Z.of_nat i)). apply good. lia.
  - intros i I x X. exists (gam T x / T). split; [reflexivity|]. destruct (clamp_inside _ _ _ X) as [B U].
    assert (G := gam_between 1 ltac:(lia) T (801 - Z.of_nat (S i)) (801 - Z.of_nat i) x ltac:(lra) U ltac:(lia) ltac:(lia) B).
    assert (G1 := g1_bounds (801 - Z.of_nat (S i)) ltac:(lia) (good (S i) ltac:(lia))). assert (G2 := g1_bounds (801 - Z.of_nat i) ltac:(lia) (good i ltac:(lia))).
    unfold back, glo1, ghi1. replace (801 - Z.of_nat i - 1)%Z with (801 - Z.of_nat (S i))%Z by lia.
    assert (M : forall a b, T * a <= b -> a <= b / T).
    { intros a b H. apply Rmult_le_reg_l with T; [lra|]. replace (T * (b / T)) with b by (field; lra). exact H. }
    assert (M' : forall a b, b <= T * a -> b / T <= a).
    { intros a b H. apply Rmult_le_reg_l with T; [lra|]. replace (T * (b / T)) with b by (field; lra). exact H. }
    assert (X1 := M _ _ (proj1 G)). assert (X2 := M' _ _ (proj2 G)). lra.
Qed.
Lemma gamma_sums : exists l h, sums (fun u => Ok (gam T u / T)) 0 top_draw l h /\ 2936 / 1000 <= l /\ h <= 307 / 100.
Proof using HT.
  destruct (gamma_build 301 (le_n 301)) as (l & h & S & L & H). change (801 - Z.of_nat 301)%Z with 500%Z in S. rewrite pcut_top in S.
  destruct pcut_low as [P500 _]. assert (R := clamp_range (1 - surv T (at_y 1 500))). fold (pcut T 500) in R.
  exists (0 * (pcut T 500 - 0) + l), (1 * (pcut T 500 - 0) + h). split.
  - apply sums_cons; [lra| |exact S]. intros u [U1 U2]. exists (gam T u / T). split; [reflexivity|].
    assert (HU : 0 <= u <= top_draw) by lra.
    assert (B : u < 1 - surv T (at_y 1 500)).
    { unfold pcut, clamp in U2. unfold Rmax in U2. destruct (Rle_dec 0 (Rmin top_draw (1 - surv T (at_y 1 500)))); [|lra].
      assert (M := Rmin_r top_draw (1 - surv T (at_y 1 500))). lra. }
    destruct (gam_below 500 u ltac:(lia) HU B) as [G1 G2].
    assert (Q := ends_ok). apply andb_prop in Q as [_ Q]. apply Z.leb_le, rv_le in Q. rewrite rv_one in Q.
    assert (GG := good 301 (le_n 301)). change (801 - Z.of_nat 301)%Z with 500%Z in GG. assert (G3 := g1_bounds 500 ltac:(lia) GG). fold (ghi1 500) in G3.
    split; [apply Rmult_le_pos; [lra|apply Rlt_le, Rinv_0_lt_compat; lra]|].
    apply Rmult_le_reg_l with T; [lra|]. replace (T * (gam T u / T)) with (gam T u) by (field; lra). nra.
  - assert (Q := numbers). apply andb_prop in Q as [Q1 Q2]. apply Z.leb_le, rv2_le in Q1. apply Z.leb_le, rv2_le in Q2. rewrite <- Z.mul_assoc in Q1. rewrite <- (Z.mul_assoc 3067) in Q2.
    assert (RZ : forall k z, rv2 (k * z) = IZR k * rv2 z) by (intros k z; unfold rv2, rv; rewrite mult_IZR; field; apply Rgt_not_eq, one_pos).
    assert (R1 : rv2 (one_z * one_z) = 1) by (rewrite rv2_mult, rv_one; ring). rewrite (RZ 1000%Z) in Q1, Q2. rewrite (RZ 2936%Z), R1 in Q1. rewrite (RZ 3067%Z), R1 in Q2. lra.
Qed.
Lemma sums_affine (f g : R -> outcome R) k d : 0 <= k -> forall a b l h, sums f a b l h ->
  (forall u e, a < u < b -> f u = Ok e -> exists e', g u = Ok e' /\ k * e - d <= e' <= k * e) -> sums g a b (k * l - d * (b - a)) (k * h).
Proof using.
  intros K a b l h S. induction S as [a|a b c m M lo hi AB P S IH]; intros E.
  - replace (k * 0 - d * (a - a)) with 0 by ring. replace (k * 0) with 0 by ring. apply sums_nil.
  - assert (BC := sums_le _ _ _ _ _ S).
    replace (k * (m * (b - a) + lo) - d * (c - a)) with ((k * m - d) * (b - a) + (k * lo - d * (c - b))) by ring.
    replace (k * (M * (b - a) + hi)) with (k * M * (b - a) + k * hi) by ring.
    apply sums_cons; [exact AB| |apply IH; intros u e U; apply E; lra].
    intros u U. destruct (P u U) as (e & F & L & H). destruct (E u e ltac:(lra) F) as (e' & G & B1 & B2). exists e'. split; [exact G|]. nra.
Qed.
Lemma acc_low u : 1 <= gam T u -> 1 - 1 / (gam T u * gam T u) <= acc T u.
Proof using.
  intros G. unfold acc. destruct (Rlt_dec (gam T u * gam T u) 1) as [L|L]; [nra|]. set (x := 1 - 1 / (gam T u * gam T u)).
  assert (D : 0 < 1 / (gam T u * gam T u) <= 1).
  { split; [apply Rmult_lt_0_compat; [lra|apply Rinv_0_lt_compat; nra]|]. unfold Rdiv. rewrite Rmult_1_l, <- Rinv_1. apply Rinv_le_contravar; lra. }
  rewrite <- (sqrt_square x) at 1 by (unfold x; lra). apply sqrt_le_1_alt. unfold x. nra.
Qed.
Lemma num_sums : exists l h, sums (fun u => Ok (acc T u * (gam T u - 1))) 0 top_draw l h /\ T * (2936 / 1000) - 2 <= l /\ h <= T * (307 / 100).
Proof using HT.
  destruct gamma_sums as (l & h & S & L & H). exists (T * l - 2 * (top_draw - 0)), (T * h). split.
  - apply (sums_affine (fun u => Ok (gam T u / T)) _ T 2); [lra|exact S|]. intros u e U E. injection E as <-. eexists. split; [reflexivity|].
    replace (T * (gam T u / T)) with (gam T u) by (field; lra). destruct (C113_gamma_partial T u ltac:(lra) ltac:(unfold draw53; unfold top_draw in U; lra)) as (g & EG & P).
    assert (G : gam T u = g) by (unfold gam; rewrite EG; reflexivity). assert (A := acc_range T u). rewrite G.
    destruct (Rle_lt_dec 1 g) as [G1|G1].
    + assert (B := acc_low u ltac:(lra)). rewrite G in B. split; [|nra].
      assert (I : 1 / (g * g) * (g - 1) <= 1).
      { apply Rmult_le_reg_r with (g * g); [nra|]. replace (1 / (g * g) * (g - 1) * (g * g)) with (g - 1) by (field; lra). nra. }
      nra.
    + unfold acc. rewrite G. destruct (Rlt_dec (g * g) 1) as [_|Y]; [lra|]. nra.
  - assert (R : 0 <= top_draw <= 1) by (unfold top_draw; assert (0 < / 2 ^ 53) by (apply Rinv_0_lt_compat, pow_lt; lra); assert (X := clamp_range 0); unfold top_draw in X; lra).
    split; [|apply Rmult_le_compat_l; lra]. assert (T * (2936 / 1000) <= T * l) by (apply Rmult_le_compat_l; lra). lra.
Qed.
Lemma den_sums : exists l h, sums (fun u => Ok (acc T u)) 0 top_draw l h /\ 94 / 100 <= l /\ h <= 1.
Proof using HT.
  destruct pcut_low as [_ P]. assert (R := clamp_range (1 - surv T (at_y 1 613))). fold (pcut T 613) in R.
  assert (TOP : 999 / 1000 <= top_draw <= 1).
  { unfold top_draw. assert (0 < / 2 ^ 53) by (apply Rinv_0_lt_compat, pow_lt; lra). assert (/ 2 ^ 53 <= / 2 ^ 10) by (apply Rinv_le_contravar; [lra|apply Rle_pow; [lra|lia]]). lra. }
  exists (0 * (pcut T 613 - 0) + 96 / 100 * (top_draw - pcut T 613)), (1 * (pcut T 613 - 0) + 1 * (top_draw - pcut T 613)). split; [|lra].
  apply sums_cons; [lra| |apply sums_one; [lra|]].
  - intros u _. exists (acc T u). split; [reflexivity|]. apply acc_range.
  - intros u U. exists (acc T u). split; [reflexivity|]. split; [|apply acc_range].
    rewrite <- pcut_top in U. destruct (clamp_inside _ _ _ U) as [B HU].
    assert (G := gam_between 1 ltac:(lia) T 613 801 u ltac:(lra) HU ltac:(lia) ltac:(lia) B).
    assert (Q := ends_ok). apply andb_prop in Q as [Q _]. apply andb_prop in Q as [_ Q]. apply Z.leb_le, rv_le in Q. rewrite rv_mul, rv_one in Q.
    assert (GG := good 188 ltac:(lia)). change (801 - Z.of_nat 188)%Z with 613%Z in GG. assert (G3 := g1_bounds 613 ltac:(lia) GG).
    change (glo1 614) with (glo 1 1 1 613) in Q.
    assert (G5 : 5 <= gam T u) by nra. assert (A := acc_low u ltac:(lra)).
    assert (I : 1 / (gam T u * gam T u) <= 4 / 100); [|lra].
    replace (4 / 100) with (1 / 25) by field. unfold Rdiv. rewrite !Rmult_1_l. apply Rinv_le_contravar; nra.
Qed.
Theorem C142_warm_partial : forall c lim mass, 0 < c -> 0 < mass -> 80 * T * EL_CHARGE / (mass * c) <= lim ->
  mean_kinetic_hot c lim mass T (91 / 100 * (3 / 2 * (T * EL_CHARGE))) (109 / 100 * (3 / 2 * (T * EL_CHARGE))).
Proof using HT.
  intros c lim mass HC M L. assert (P := el_pos). assert (HV := half_value). assert (HV' : 1 / 2 - 1 / 100000 <= half) by lra.
  exists (fun e => half * EL_CHARGE * e). split; [|split].
  - intros e HE. replace (half * EL_CHARGE * e) with (half * (e * EL_CHARGE)) by ring. apply C142_energy; [exact M|lra|].
    apply Rle_trans with (2 := L). unfold Rdiv. apply Rmult_le_compat_r; [apply Rlt_le, Rinv_0_lt_compat, Rmult_lt_0_compat; assumption|].
    apply Rmult_le_compat_r; lra.
  - intros u u2 e HU E. assert (G := energies_below T u ltac:(lra) HU). destruct (C113_gamma_partial T u ltac:(lra) HU) as (g & EG & _).
    unfold gam in G. rewrite EG in G. cbn [rel_energy] in E. rewrite EG in E. cbn [bind] in E.
    destruct (Rlt_dec (g * g) 1); [injection E as <-; exact G|]. destruct (Rle_dec (sqrt (1 - 1 / (g * g))) u2); [discriminate E|injection E as <-; exact G].
  - assert (K : 0 < half * EL_CHARGE) by (apply Rmult_lt_0_compat; lra).
    exists (acc T), (fun u => gam T u - 1). split; [intros u U; apply ends; lra|].
    destruct num_sums as (l & h & S1 & L1 & H1). destruct den_sums as (l' & h' & S2 & L2 & H2). assert (LH := sums_lh _ _ _ _ _ S2).
    exists (half * EL_CHARGE * l), (half * EL_CHARGE * h), l', h'. split; [|split; [exact S2|]].
    + refine (sums_scale _ _ (half * EL_CHARGE) (Rlt_le _ _ K) _ 0 top_draw l h S1). intros u e E. injection E as <-. f_equal. ring.
    + assert (LP : 0 <= l) by lra. split; [apply Rmult_le_pos; lra|]. split; [lra|]. split.
      * apply Rle_trans with (half * EL_CHARGE * l).
        -- assert (X : 91 / 100 * (3 / 2 * T) <= half * l) by nra. apply (Rmult_le_compat_l EL_CHARGE) in X; lra.
        -- apply Rmult_le_reg_r with h'; [lra|]. replace (half * EL_CHARGE * l / h' * h') with (half * EL_CHARGE * l) by (field; lra).
           assert (0 <= half * EL_CHARGE * l) by (apply Rmult_le_pos; lra). nra.
      * apply Rmult_le_reg_r with l'; [lra|]. replace (half * EL_CHARGE * h / l' * l') with (half * EL_CHARGE * h) by (field; lra).
        assert (X : half * h <= 109 / 100 * (3 / 2 * T) * l') by nra. apply (Rmult_le_compat_l EL_CHARGE) in X; lra.
Qed.
End Warm.
Example C142_warm_ex : mean_kinetic_hot (3 * 10 ^ 8) (15 * 10 ^ 6) (91 / 10 ^ 32) 100 (91 / 100 * (3 / 2 * (100 * EL_CHARGE))) (109 / 100 * (3 / 2 * (100 * EL_CHARGE))).
Proof. apply C142_warm_partial; unfold EL_CHARGE; lra. Qed.

Print Assumptions C142_warm_partial.
Print Assumptions C142_warm_ex.
