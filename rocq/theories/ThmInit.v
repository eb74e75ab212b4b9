(** Theorems about the initial placement of the macro-particles: properties C84 - C90. *)
From Coq Require Import Reals Lra Psatz ZifyBool.
From Verif Require Import Base RndUtil ParticleModel ParticleProofs PushModel InitModel ThmParticle.
Open Scope R_scope.

(** * Specification *)
(** a domain of the area with NR x NZ cells: it has the outer walls exactly if it reaches them *)
Definition domain_of (NR NZ : Z) (g : geo) : Prop :=
  0 < g_dr g /\ 0 < g_dz g /\ (0 <= g_bot g < g_top g)%Z /\ (g_top g <= NR < 2 ^ 31)%Z /\
  (0 <= g_left g < g_right g)%Z /\ (g_right g <= NZ < 2 ^ 31)%Z /\
  w_rr g = (g_top g =? NR)%Z /\ w_zz g = (g_right g =? NZ)%Z.
(** half a cell away from all walls of the area *)
Definition inside_area (NR NZ : Z) (dr dz : R) (p : R * R) : Prop :=
  dr / 2 <= fst p <= IZR NR * dr - dr / 2 /\ dz / 2 <= snd p <= IZR NZ * dz - dz / 2.
(** the domain owns the cell of the position *)
Definition owns_r (g : geo) (r : R) : Prop := (g_bot g <= cell_number r (g_dr g) < g_top g)%Z.
Definition owns_z (g : geo) (z : R) : Prop := (g_left g <= cell_number z (g_dz g) < g_right g)%Z.

Lemma MNZL_eq : MNZL = 1 / 1000000000000000.
Proof. unfold MNZL. replace (10 ^ 15) with 1000000000000000 by ring. lra. Qed.
Lemma nonzero_draw_range u : 0 <= u < 1 -> 0 < nonzero_draw u < 1.
Proof. intros H. unfold nonzero_draw. rewrite MNZL_eq. destruct (Req_EM_T u 0); lra. Qed.
Lemma nonzero_draw_id u : 0 < u -> nonzero_draw u = u.
Proof. intros H. unfold nonzero_draw. destruct (Req_EM_T u 0); lra. Qed.

Section Dom.
Variables (NR NZ : Z) (g : geo).
Hypothesis D : domain_of NR NZ g.
Lemma dom_bot : u32 (g_bot g) = g_bot g.
Proof. destruct D as (_ & _ & A & B & _). apply u32_small. lia. Qed.
Lemma dom_left : u32 (g_left g) = g_left g.
Proof. destruct D as (_ & _ & _ & _ & A & B & _). apply u32_small. lia. Qed.
Lemma dom_r_cells : r_cells g = (g_top g - g_bot g)%Z.
Proof. destruct D as (_ & _ & A & B & _). unfold r_cells. rewrite !(u32_small (g_top g)), !(u32_small (g_bot g)), u32_small; lia. Qed.
Lemma dom_z_cells : z_cells g = (g_right g - g_left g)%Z.
Proof. destruct D as (_ & _ & _ & _ & A & B & _). unfold z_cells. rewrite !(u32_small (g_right g)), !(u32_small (g_left g)), u32_small; lia. Qed.
Lemma dom_r_size : r_size g = (IZR (g_top g) - IZR (g_bot g) - (if w_rr g then 1 else 0)) * g_dr g.
Proof. unfold r_size. rewrite dom_r_cells, minus_IZR. destruct (w_rr g); ring. Qed.
Lemma dom_z_size : z_size g = (IZR (g_right g) - IZR (g_left g) - (if w_zz g then 1 else 0)) * g_dz g.
Proof. unfold z_size. rewrite dom_z_cells, minus_IZR. destruct (w_zz g); ring. Qed.
Lemma dom_r_size_nonneg : 0 <= r_size g.
Proof.
  rewrite dom_r_size. destruct D as (A & _ & B & _). assert (IZR (g_bot g + 1) <= IZR (g_top g)) by (apply IZR_le; lia).
  rewrite plus_IZR in H. apply Rmult_le_pos; [|lra]. destruct (w_rr g); lra.
Qed.
Lemma dom_z_size_nonneg : 0 <= z_size g.
Proof.
  rewrite dom_z_size. destruct D as (_ & A & _ & _ & B & _). assert (IZR (g_left g + 1) <= IZR (g_right g)) by (apply IZR_le; lia).
  rewrite plus_IZR in H. apply Rmult_le_pos; [|lra]. destruct (w_zz g); lra.
Qed.
End Dom.

(** a position at [x] times the filled size, from half a cell above the lower border *)
Lemma shifted_in_area lo hi N w d x : 0 < d -> (0 <= lo < hi)%Z -> (hi <= N)%Z -> w = (hi =? N)%Z -> 0 <= x <= 1 ->
  d / 2 <= x * ((IZR hi - IZR lo - (if w then 1 else 0)) * d) + IZR lo * d + d / 2 <= IZR N * d - d / 2.
Proof.
  intros Hd Hl Hn Hw Hx.
  assert (A : IZR lo + 1 <= IZR hi) by (rewrite <- plus_IZR; apply IZR_le; lia).
  assert (B : 0 <= IZR lo) by (apply IZR_le; lia).
  set (k := (if w then 1 else 0)). set (s := IZR hi - IZR lo - k).
  assert (S0 : 0 <= s) by (unfold s, k; destruct w; lra).
  assert (S1 : IZR lo + s <= IZR N - 1).
  { unfold s, k. destruct w; symmetry in Hw; [apply Z.eqb_eq in Hw; subst; lra|].
    apply Z.eqb_neq in Hw. assert (IZR hi + 1 <= IZR N) by (rewrite <- plus_IZR; apply IZR_le; lia). lra. }
  assert (X : 0 <= x * s <= s) by nra.
  replace (x * (s * d) + IZR lo * d + d / 2) with ((x * s + IZR lo + / 2) * d) by field.
  replace (IZR N * d - d / 2) with ((IZR N - / 2) * d) by field.
  split; [|apply Rmult_le_compat_r; lra].
  apply Rle_trans with (/ 2 * d); [lra|]. apply Rmult_le_compat_r; lra.
Qed.
(** the share of the filled length at which a particle is placed *)
Lemma random_z_share g d0 d1 u : 0 <= z_size g -> 0 <= d0 -> 0 <= d1 -> 0 <= u < 1 ->
  exists x, 0 <= x <= 1 /\ random_z g d0 d1 u = x * z_size g + IZR (u32 (g_left g)) * g_dz g + g_dz g / 2.
Proof.
  intros Hz H0 H1 Hu. pose proof (nonzero_draw_range _ Hu) as N. unfold random_z.
  destruct (Req_EM_T d0 d1) as [E|E].
  - exists (nonzero_draw u). split; [lra|]. ring.
  - destruct (Req_dec (z_size g) 0) as [Z0|Z0].
    + exists 0. split; [lra|]. rewrite Z0. unfold linear_profile_z. field. lra.
    + pose proof (C29_linear_profile (z_size g) d0 (d1 - d0) (nonzero_draw u)) as L. cbv zeta in L.
      destruct L as [L _]; try lra.
      set (z := linear_profile_z _ _ _ _) in *. exists (z / z_size g). split.
      * split; [apply Rmult_le_pos; [lra|left; apply Rinv_0_lt_compat; lra]|].
        apply Rmult_le_reg_r with (z_size g); [lra|]. unfold Rdiv. rewrite Rmult_assoc, Rinv_l; lra.
      * field. lra.
Qed.

(** * C84: random and flat placement stay half a cell inside the walls of the area *)
Theorem C84_in_area : forall NR NZ g d0 d1 draws, domain_of NR NZ g -> 0 <= d0 -> 0 <= d1 ->
  Forall (fun d => 0 <= fst d < 1 /\ 0 <= snd d < 1) draws ->
  length (random_placement g d0 d1 draws) = length draws /\
  Forall (inside_area NR NZ (g_dr g) (g_dz g)) (random_placement g d0 d1 draws).
Proof.
  intros NR NZ g d0 d1 draws D H0 H1 F. split; [apply map_length|].
  unfold random_placement. rewrite Forall_map. apply Forall_impl with (2 := F). clear F.
  intros [u v] [Hu Hv]. cbn [fst snd] in *. pose proof D as (A & A' & B & B' & C & C' & W & W').
  split; cbn [fst snd].
  - pose proof (nonzero_draw_range _ Hu) as N. unfold random_r. rewrite (dom_bot _ _ _ D), (dom_r_size _ _ _ D).
    rewrite (Rmult_comm _ (nonzero_draw u)). apply shifted_in_area; auto; lra || lia.
  - destruct (random_z_share g d0 d1 v (dom_z_size_nonneg _ _ _ D) H0 H1 Hv) as (x & Hx & ->).
    rewrite (dom_left _ _ _ D), (dom_z_size _ _ _ D). apply shifted_in_area; auto; lra || lia.
Qed.
(** a domain of 10 x 20 cells in the middle of an area of 30 x 60 cells *)
Definition g_mid : geo :=
  {| g_dr := 1; g_dz := 2; g_size_r := 10; g_size_z := 40; g_bot := 10; g_left := 20; g_top := 20; g_right := 40;
     w_r0 := false; w_z0 := false; w_rr := false; w_zz := false |}.
Definition g_out : geo :=
  {| g_dr := 1; g_dz := 2; g_size_r := 10; g_size_z := 40; g_bot := 20; g_left := 40; g_top := 30; g_right := 60;
     w_r0 := false; w_z0 := false; w_rr := true; w_zz := true |}.
Lemma g_mid_domain : domain_of 30 60 g_mid.
Proof. repeat split; cbn; try lra; try lia. Qed.
Lemma g_out_domain : domain_of 30 60 g_out.
Proof. repeat split; cbn; try lra; try lia. Qed.
Example C84_ex : random_placement g_mid 3 3 [(/ 4, / 2)] = [(13, 61)].
Proof.
  unfold random_placement, random_r, random_z, r_size, z_size, r_cells, z_cells. cbn [map fst snd].
  destruct (Req_EM_T 3 3); [|lra]. rewrite !nonzero_draw_id by lra.
  cbn [g_mid g_dr g_dz g_bot g_top g_left g_right w_rr w_zz].
  rewrite !(u32_small 20), !(u32_small 10), !(u32_small 40) by lia.
  rewrite !u32_small by lia. repeat f_equal; cbn; lra.
Qed.

(** * C85: is every macro-particle placed in its own domain? *)
Lemma cell_number_spec x d k : 0 < d -> cell_number x d = k <-> IZR k * d <= x < (IZR k + 1) * d.
Proof.
  intros Hd. unfold cell_number. split.
  - intros <-. destruct (Int_part_bounds (x / d)) as [A B]. split.
    + apply Rmult_le_reg_r with (/ d); [now apply Rinv_0_lt_compat|]. rewrite Rmult_assoc, Rinv_r by lra. unfold Rdiv in A. lra.
    + apply Rmult_lt_reg_r with (/ d); [now apply Rinv_0_lt_compat|]. rewrite Rmult_assoc, Rinv_r by lra. unfold Rdiv in B. lra.
  - intros [A B]. apply Int_part_unique. split.
    + apply Rmult_le_reg_r with d; [lra|]. unfold Rdiv. rewrite Rmult_assoc, Rinv_l; lra.
    + apply Rmult_lt_reg_r with d; [lra|]. unfold Rdiv. rewrite Rmult_assoc, Rinv_l; lra.
Qed.
Lemma cell_number_range x d lo hi : 0 < d -> (lo <= cell_number x d < hi)%Z <-> IZR lo * d <= x < IZR hi * d.
Proof.
  intros Hd. pose proof (proj1 (cell_number_spec x d _ Hd) eq_refl) as [A B]. set (k := cell_number x d) in *. split.
  - intros [H1 H2]. apply IZR_le in H1. assert (IZR (k + 1) <= IZR hi) by (apply IZR_le; lia). rewrite plus_IZR in H.
    split; [apply Rle_trans with (2 := A)|apply Rlt_le_trans with (1 := B)]; apply Rmult_le_compat_r; lra.
  - intros [H1 H2]. split.
    + assert (IZR lo < IZR (k + 1)); [|apply lt_IZR in H; lia]. rewrite plus_IZR. apply Rmult_lt_reg_r with d; lra.
    + apply lt_IZR. apply Rmult_lt_reg_r with d; lra.
Qed.
(** at the outer walls the placement stays in the domain *)
Theorem C85_at_walls_partial : forall NR NZ g d0 d1 u, domain_of NR NZ g -> 0 <= d0 -> 0 <= d1 -> 0 <= u < 1 ->
  (w_rr g = true -> owns_r g (random_r g u)) /\ (w_zz g = true -> owns_z g (random_z g d0 d1 u)).
Proof.
  intros NR NZ g d0 d1 u D H0 H1 Hu. pose proof D as (A & A' & B & B' & C & C' & W & W').
  pose proof (nonzero_draw_range _ Hu) as N. split; intros E.
  - apply cell_number_range; auto. unfold random_r. rewrite (dom_bot _ _ _ D), (dom_r_size _ _ _ D), E.
    assert (X : IZR (g_bot g) + 1 <= IZR (g_top g)) by (rewrite <- plus_IZR; apply IZR_le; lia).
    set (b := IZR (g_bot g)) in *. set (t := IZR (g_top g)) in *. set (x := nonzero_draw u) in *.
    replace ((t - b - 1) * g_dr g * x + b * g_dr g + g_dr g / 2) with (((t - b - 1) * x + b + / 2) * g_dr g) by field.
    assert (0 <= (t - b - 1) * x <= t - b - 1) by nra.
    split; [apply Rmult_le_compat_r|apply Rmult_lt_compat_r]; lra.
  - apply cell_number_range; auto. destruct (random_z_share g d0 d1 u (dom_z_size_nonneg _ _ _ D) H0 H1 Hu) as (x & Hx & ->).
    rewrite (dom_left _ _ _ D), (dom_z_size _ _ _ D), E.
    assert (X : IZR (g_left g) + 1 <= IZR (g_right g)) by (rewrite <- plus_IZR; apply IZR_le; lia).
    set (b := IZR (g_left g)) in *. set (t := IZR (g_right g)) in *.
    replace (x * ((t - b - 1) * g_dz g) + b * g_dz g + g_dz g / 2) with (((t - b - 1) * x + b + / 2) * g_dz g) by field.
    assert (0 <= (t - b - 1) * x <= t - b - 1) by nra.
    split; [apply Rmult_le_compat_r|apply Rmult_lt_compat_r]; lra.
Qed.
(** everywhere else the share 1/(2n) of the draws is placed in the next domain, n being the number of cells *)
Theorem C85_inner_refuted : forall NR NZ g d u, domain_of NR NZ g -> 0 <= u < 1 ->
  (w_rr g = false -> owns_r g (random_r g u) <-> nonzero_draw u < 1 - / (2 * IZR (g_top g - g_bot g))) /\
  (w_zz g = false -> owns_z g (random_z g d d u) <-> nonzero_draw u < 1 - / (2 * IZR (g_right g - g_left g))).
Proof.
  assert (G : forall dx b t x, 0 < dx -> 0 < x < 1 -> (b < t)%Z ->
     (IZR b * dx <= (IZR t - IZR b - 0) * dx * x + IZR b * dx + dx / 2 < IZR t * dx <-> x < 1 - / (2 * IZR (t - b)))).
  { intros dx b t x Hd Hx Hbt. rewrite minus_IZR. assert (X : IZR b + 1 <= IZR t) by (rewrite <- plus_IZR; apply IZR_le; lia).
    set (n := IZR t - IZR b) in *. assert (Hn : 1 <= n) by (unfold n; lra).
    replace ((n - 0) * dx * x + IZR b * dx + dx / 2) with ((n * x + IZR b + / 2) * dx) by field.
    replace (IZR t) with (n + IZR b) by (unfold n; ring).
    split.
    - intros [_ H]. apply Rmult_lt_reg_r in H; [|lra]. apply Rmult_lt_reg_l with n; [lra|].
      replace (n * (1 - / (2 * n))) with (n - / 2) by (field; lra). lra.
    - intros H. split; [apply Rmult_le_compat_r; nra|]. apply Rmult_lt_compat_r; [lra|].
      apply Rmult_lt_compat_l with (r := n) in H; [|lra].
      replace (n * (1 - / (2 * n))) with (n - / 2) in H by (field; lra). lra. }
  intros NR NZ g d u D Hu. pose proof D as (A & A' & B & B' & C & C' & W & W').
  pose proof (nonzero_draw_range _ Hu) as N. split; intros E.
  - unfold owns_r. rewrite cell_number_range by auto. unfold random_r. rewrite (dom_bot _ _ _ D), (dom_r_size _ _ _ D), E.
    apply G; auto; lia.
  - unfold owns_z. rewrite cell_number_range by auto. unfold random_z. destruct (Req_EM_T d d); [|lra].
    rewrite (dom_left _ _ _ D), (dom_z_size _ _ _ D), E. apply G; auto; lia.
Qed.
Example C85_ex : domain_of 30 60 g_mid /\ w_rr g_mid = false /\ ~ owns_r g_mid (random_r g_mid (96 / 100)) /\ owns_r g_mid (random_r g_mid (94 / 100)).
Proof.
  split; [apply g_mid_domain|]. split; [reflexivity|].
  split; intros H || idtac.
  - apply (proj1 (C85_inner_refuted 30 60 g_mid 1 (96 / 100) g_mid_domain ltac:(lra)) eq_refl) in H.
    rewrite nonzero_draw_id in H by lra. cbn in H. lra.
  - apply (proj1 (C85_inner_refuted 30 60 g_mid 1 (94 / 100) g_mid_domain ltac:(lra)) eq_refl).
    rewrite nonzero_draw_id by lra. cbn. lra.
Qed.
(** the cell of every particle is at most one beyond the domain, so weighting it before the particle is handed over
    stays inside the ghost cells *)
Theorem C85_within_overlay : forall NR NZ g d0 d1 u v w, domain_of NR NZ g -> 0 <= d0 -> 0 <= d1 -> 0 <= u < 1 -> 0 <= v < 1 ->
  Forall (fun e => let '(a, b, _) := e in (0 <= a < r_cells g + 2 /\ 0 <= b < z_cells g + 2)%Z)
    (weight_cylindrical (g_dr g) (g_dz g) (g_bot g) (g_left g) (random_r g u) (random_z g d0 d1 v) w).
Proof.
  intros NR NZ g d0 d1 u v w D H0 H1 Hu Hv. pose proof D as (A & A' & B & B' & C & C' & W & W').
  pose proof (nonzero_draw_range _ Hu) as N.
  assert (R : (g_bot g <= cell_number (random_r g u) (g_dr g) < g_top g + 1)%Z).
  { apply cell_number_range; auto. unfold random_r. rewrite (dom_bot _ _ _ D), (dom_r_size _ _ _ D), plus_IZR.
    assert (X : IZR (g_bot g) + 1 <= IZR (g_top g)) by (rewrite <- plus_IZR; apply IZR_le; lia).
    set (b := IZR (g_bot g)) in *. set (t := IZR (g_top g)) in *. set (x := nonzero_draw u) in *. set (k := if w_rr g then 1 else 0).
    assert (0 <= k <= 1) by (unfold k; destruct (w_rr g); lra).
    replace ((t - b - k) * g_dr g * x + b * g_dr g + g_dr g / 2) with (((t - b - k) * x + b + / 2) * g_dr g) by field.
    assert (0 <= (t - b - k) * x <= t - b - k) by nra.
    split; [apply Rmult_le_compat_r|apply Rmult_lt_compat_r]; lra. }
  assert (Z : (g_left g <= cell_number (random_z g d0 d1 v) (g_dz g) < g_right g + 1)%Z).
  { apply cell_number_range; auto. destruct (random_z_share g d0 d1 v (dom_z_size_nonneg _ _ _ D) H0 H1 Hv) as (x & Hx & ->).
    rewrite (dom_left _ _ _ D), (dom_z_size _ _ _ D), plus_IZR.
    assert (X : IZR (g_left g) + 1 <= IZR (g_right g)) by (rewrite <- plus_IZR; apply IZR_le; lia).
    set (b := IZR (g_left g)) in *. set (t := IZR (g_right g)) in *. set (k := if w_zz g then 1 else 0).
    assert (0 <= k <= 1) by (unfold k; destruct (w_zz g); lra).
    replace (x * ((t - b - k) * g_dz g) + b * g_dz g + g_dz g / 2) with (((t - b - k) * x + b + / 2) * g_dz g) by field.
    assert (0 <= (t - b - k) * x <= t - b - k) by nra.
    split; [apply Rmult_le_compat_r|apply Rmult_lt_compat_r]; lra. }
  rewrite (dom_r_cells _ _ _ D), (dom_z_cells _ _ _ D).
  unfold weight_cylindrical. set (i := cell_number (random_r g u) _) in *. set (k := cell_number (random_z g d0 d1 v) _) in *.
  rewrite (u32_small (i - _)) by lia. rewrite (u32_small (k - _)) by lia. rewrite !(u32_small (_ + 1)) by lia.
  destruct (Rltb _ _); [|destruct (Rleb _ _)]; repeat constructor; lia.
Qed.

(** * C103: the weights follow the volume of the ring around the particle *)
(** volume of the ring with inner radius a, outer radius b and length h *)
Definition ring (a b h : R) : R := PI * (b ^ 2 - a ^ 2) * h.
(** the volume attributed to a particle: the ring one cell wide around it, next to the axis the disc inside of it *)
Theorem C103_volume : forall dr dz r, 0 < dr ->
  (dr / 2 < r -> ring_volume dr dz r = ring (r - dr / 2) (r + dr / 2) dz) /\
  (r <= dr / 2 -> ring_volume dr dz r = ring 0 r dz).
Proof.
  intros dr dz r Hd. unfold ring_volume, ring. split; intros H.
  - replace (Rltb (dr / 2) r) with true by (symmetry; now apply Rltb_true). field.
  - replace (Rltb (dr / 2) r) with false by (symmetry; now apply Rltb_false). ring.
Qed.
(** hence the weights of particles beyond the first half cell are proportional to their radii *)
Theorem C103_proportional : forall g d0 d1 macro rs, 0 < g_dr g -> 0 < g_dz g -> (0 < macro)%Z -> rs <> [] ->
  Forall (fun r => g_dr g / 2 < r) rs ->
  exists c, set_weight g d0 d1 macro rs = map (fun r => c * r) rs /\
    c * total rs = (d0 + d1) / 2 * ring (IZR (g_bot g) * g_dr g) (top_r_num g * g_dr g) (filled_z_size g).
Proof.
  intros g d0 d1 macro rs Hr Hz Hm Hne F.
  assert (M : 0 < IZR macro) by (apply IZR_lt in Hm; lra).
  assert (E : map (ring_volume (g_dr g) (g_dz g)) rs = map (fun r => 2 * PI * g_dr g * g_dz g * r) rs).
  { apply map_ext_in. intros r Hin. rewrite Forall_forall in F. unfold ring_volume.
    replace (Rltb (g_dr g / 2) r) with true by (symmetry; apply Rltb_true; auto). ring. }
  assert (V : v_sum g rs = 2 * PI * g_dr g * g_dz g * total rs).
  { unfold v_sum. rewrite fold_left_sum, E, total_scale, map_id. lra. }
  assert (T : 0 < total rs).
  { destruct F as [|r rs H F]; [congruence|]. cbn [total fold_right].
    assert (0 <= fold_right Rplus 0 rs); [|lra]. clear - F Hr. induction F; cbn [fold_right]; lra. }
  pose proof PI_RGT_0 as P.
  assert (Q : 0 < 2 * PI * g_dr g * g_dz g) by mpos.
  exists (N_total g d0 d1 / total rs). split.
  - unfold set_weight, v_avg. rewrite V. apply map_ext_in. intros r Hin. rewrite Forall_forall in F. unfold ring_volume.
    replace (Rltb (g_dr g / 2) r) with true by (symmetry; apply Rltb_true; auto). field. repeat split; lra.
  - unfold N_total, ring. field. lra.
Qed.
(** which all randomly placed particles are, unless the plasma is only one row of cells *)
Theorem C103_random : forall NR NZ g d0 d1 e0 e1 macro draws, domain_of NR NZ g -> (g_bot g + 1 < NR)%Z -> (0 < macro)%Z -> draws <> [] ->
  Forall (fun d => 0 <= fst d < 1) draws ->
  let rs := map fst (random_placement g e0 e1 draws) in
  exists c, set_weight g d0 d1 macro rs = map (fun r => c * r) rs.
Proof.
  intros NR NZ g d0 d1 e0 e1 macro draws D HN Hm Hne F rs.
  destruct (C103_proportional g d0 d1 macro rs) as (c & Hc & _); [apply D|apply D|assumption| | |now exists c].
  - unfold rs, random_placement. rewrite map_map. destruct draws; [congruence|discriminate].
  - unfold rs, random_placement. rewrite map_map. apply Forall_forall. intros r Hin. apply in_map_iff in Hin as (d & <- & Hd).
    rewrite Forall_forall in F. specialize (F d Hd). cbn [fst]. unfold random_r. rewrite (dom_bot _ _ _ D), (dom_r_size _ _ _ D).
    pose proof (nonzero_draw_range _ F) as N. destruct D as (A & _ & B & C & _ & _ & W & _).
    assert (0 <= IZR (g_bot g)) by (apply IZR_le; lia).
    assert (0 < IZR (g_top g) - IZR (g_bot g) - (if w_rr g then 1 else 0)).
    { rewrite W. destruct (Z.eqb_spec (g_top g) NR) as [Q|Q].
      - assert (IZR (g_bot g + 1) < IZR (g_top g)) as X by (apply IZR_lt; lia). rewrite plus_IZR in X. lra.
      - assert (IZR (g_bot g) < IZR (g_top g)) as X by (apply IZR_lt; lia). lra. }
    set (s := IZR (g_top g) - _ - _) in *. set (u := nonzero_draw _) in *.
    assert (0 < s * g_dr g * u) by (repeat apply Rmult_lt_0_compat; lra).
    assert (0 <= IZR (g_bot g) * g_dr g) by (apply Rmult_le_pos; lra). lra.
Qed.
(** at the end of the first half cell the volume jumps by the factor 4 *)
Theorem C103_jump : forall dr dz eps, 0 < dr -> 0 < eps ->
  exists r, dr / 2 < r < dr / 2 + eps /\ 4 * ring_volume dr dz (dr / 2) * (2 * r / dr) = ring_volume dr dz r.
Proof.
  intros dr dz eps Hd He. exists (dr / 2 + eps / 2). split; [lra|]. unfold ring_volume.
  replace (Rltb (dr / 2) (dr / 2)) with false by (symmetry; apply Rltb_false; lra).
  replace (Rltb (dr / 2) (dr / 2 + eps / 2)) with true by (symmetry; apply Rltb_true; lra). field. lra.
Qed.
Example C103_ex : Forall (fun r => g_dr g_ex / 2 < r) [1; 2; 5] /\ total [1; 2; 5] = 8.
Proof. split; [cbn [g_ex g_dr]; repeat constructor; lra|]. unfold total. cbn. lra. Qed.

Print Assumptions C84_in_area.
Print Assumptions C85_at_walls_partial.
Print Assumptions C85_inner_refuted.
Print Assumptions C85_within_overlay.
Print Assumptions C103_volume.
Print Assumptions C103_proportional.
Print Assumptions C103_random.
Print Assumptions C103_jump.
