(** Theorems about the initial state, continued: centered placement, density profile, shares of the domains, velocities. *)
From Coq Require Import Reals Lra Psatz ZifyBool FinFun.
From Verif Require Import Base RndUtil ParticleModel ParticleProofs PushModel InitModel ThmParticle ThmInit.
Open Scope R_scope.

(** * C88: centered placement *)
Lemma filter_zero {A B} (f : B -> bool) (h : A -> list B) l : (forall x, In x l -> filter f (h x) = []) -> filter f (flat_map h l) = [].
Proof.
  induction l as [|a l IH]; intros H; [reflexivity|]. cbn [flat_map]. rewrite filter_app, H, IH; auto.
  - intros x Hx. apply H. now right.
  - now left.
Qed.
Lemma filter_single {A B} (f : B -> bool) (h : A -> list B) l x0 : NoDup l -> In x0 l -> (forall x, In x l -> x <> x0 -> filter f (h x) = []) ->
  filter f (flat_map h l) = filter f (h x0).
Proof.
  induction l as [|a l IH]; intros N I H; [destruct I|]. inversion N as [|? ? Na Nl]; subst. cbn [flat_map]. rewrite filter_app.
  destruct I as [->|I].
  - rewrite (filter_zero f h l), app_nil_r; auto. intros x Hx. apply H; [now right|]. intros ->. auto.
  - rewrite (H a (or_introl eq_refl)) by (intros ->; auto). cbn. apply IH; auto. intros x Hx. apply H. now right.
Qed.
Lemma filter_repeat {B} (f : B -> bool) x n : filter f (repeat x n) = if f x then repeat x n else [].
Proof. induction n as [|n IH]; cbn; destruct (f x) eqn:E; rewrite ?IH; reflexivity. Qed.
Lemma flat_map_const {A B} (h : A -> list B) l n : (forall x, In x l -> length (h x) = n) -> length (flat_map h l) = (length l * n)%nat.
Proof.
  induction l as [|a l IH]; intros H; [reflexivity|]. cbn [flat_map length]. rewrite app_length, IH, (H a (or_introl eq_refl)); [reflexivity|].
  intros x Hx. apply H. now right.
Qed.
Lemma in_zseq k n : In k (map Z.of_nat (seq 0 (Z.to_nat n))) <-> (0 <= k < n)%Z.
Proof.
  rewrite in_map_iff. split.
  - intros (i & <- & Hi). apply in_seq in Hi. lia.
  - intros H. exists (Z.to_nat k). rewrite in_seq. lia.
Qed.
Lemma nodup_zseq n : NoDup (map Z.of_nat (seq 0 n)).
Proof. apply FinFun.Injective_map_NoDup; [intros x y; apply Nat2Z.inj|apply seq_NoDup]. Qed.

(** the number of macro-particles in a cell *)
Definition in_cell (dr dz : R) (a b : Z) (q : R * R) : bool := ((cell_number (fst q) dr =? a) && (cell_number (snd q) dz =? b))%Z.
Definition count_in_cell (dr dz : R) (a b : Z) (l : list (R * R)) : Z := Z.of_nat (length (filter (in_cell dr dz a b) l)).
(** the cells of the domain off the outer walls *)
Definition inner_rows (g : geo) : Z := (g_top g - g_bot g - (if w_rr g then 1 else 0))%Z.
Definition inner_cols (g : geo) : Z := (g_right g - g_left g - (if w_zz g then 1 else 0))%Z.

Section Centered.
Variables (NR NZ : Z) (g : geo) (macro : Z).
Hypothesis D : domain_of NR NZ g.
Lemma rows_eq : centered_rows g = inner_rows g.
Proof. unfold centered_rows, inner_rows. now rewrite (dom_r_cells _ _ _ D). Qed.
Lemma cols_eq : centered_cols g = inner_cols g.
Proof. unfold centered_cols, inner_cols. now rewrite (dom_z_cells _ _ _ D). Qed.
Lemma rows_nonneg : (0 <= inner_rows g)%Z.
Proof. destruct D as (_ & _ & A & _). unfold inner_rows. destruct (w_rr g); lia. Qed.
Lemma cols_nonneg : (0 <= inner_cols g)%Z.
Proof. destruct D as (_ & _ & _ & _ & A & _). unfold inner_cols. destruct (w_zz g); lia. Qed.
Lemma center_cell x0 d k : 2 * MNZL < d -> cell_number (d * IZR k + MNZL + IZR x0 * d + d / 2) d = (x0 + k)%Z.
Proof. intros H. rewrite MNZL_eq in *. apply cell_number_spec; [lra|]. rewrite plus_IZR. split; lra. Qed.
Hypothesis Hm : (0 <= macro < 2 ^ 32)%Z.
Hypothesis Hc : (0 < inner_rows g * inner_cols g)%Z.
Let n := (macro / (inner_rows g * inner_cols g))%Z.
Lemma n_range : (0 <= n < 2 ^ 32)%Z.
Proof. unfold n. split; [apply Z.div_pos; lia|]. apply Z.le_lt_trans with macro; [|lia]. apply Z.div_le_upper_bound; nia. Qed.
Definition row_list (rc : Z) : list (R * R) :=
  flat_map (fun zc => repeat (g_dr g * IZR rc + MNZL + IZR (g_bot g) * g_dr g + g_dr g / 2,
                              g_dz g * IZR zc + MNZL + IZR (g_left g) * g_dz g + g_dz g / 2) (Z.to_nat n))
           (map Z.of_nat (seq 0 (Z.to_nat (inner_cols g)))).
Lemma centered_ok : centered_placement g macro = Ok (flat_map row_list (map Z.of_nat (seq 0 (Z.to_nat (inner_rows g))))).
Proof.
  unfold centered_placement, macro_per_cell. rewrite rows_eq, cols_eq. destruct (inner_rows g * inner_cols g =? 0)%Z eqn:E; [lia|].
  fold n. pose proof n_range as NB. assert (R1 := IZR_le 0 n ltac:(lia)). assert (R2 := IZR_lt n (2 ^ 32) ltac:(lia)).
  change (IZR (2 ^ 32)) with 4294967296 in R2.
  rewrite to_u32_ok by (split; [lra|]; simpl; lra). rewrite Int_part_IZR. cbn [bind].
  rewrite (dom_bot _ _ _ D), (dom_left _ _ _ D). reflexivity.
Qed.
Lemma row_length rc : length (row_list rc) = (Z.to_nat (inner_cols g) * Z.to_nat n)%nat.
Proof. unfold row_list. rewrite (flat_map_const _ _ (Z.to_nat n)); [now rewrite map_length, seq_length|]. intros. apply repeat_length. Qed.
Hypothesis Hr : 2 * MNZL < g_dr g.
Hypothesis Hz : 2 * MNZL < g_dz g.
Lemma row_count a b rc : filter (in_cell (g_dr g) (g_dz g) a b) (row_list rc) =
  if ((a =? g_bot g + rc) && (g_left g <=? b) && (b <? g_left g + inner_cols g))%Z
  then repeat (g_dr g * IZR rc + MNZL + IZR (g_bot g) * g_dr g + g_dr g / 2,
               g_dz g * IZR (b - g_left g) + MNZL + IZR (g_left g) * g_dz g + g_dz g / 2) (Z.to_nat n) else [].
Proof.
  unfold row_list. destruct ((a =? g_bot g + rc) && (g_left g <=? b) && (b <? g_left g + inner_cols g))%Z eqn:E.
  - rewrite (filter_single _ _ _ (b - g_left g)%Z).
    + rewrite filter_repeat. unfold in_cell. cbn [fst snd]. rewrite !center_cell by auto.
      replace (g_bot g + rc =? a)%Z with true by lia. replace (g_left g + (b - g_left g) =? b)%Z with true by lia. reflexivity.
    + apply nodup_zseq.
    + apply in_zseq. lia.
    + intros x Hx Hne. rewrite filter_repeat. unfold in_cell. cbn [fst snd]. rewrite !center_cell by auto.
      replace (g_left g + x =? b)%Z with false by lia. now rewrite andb_false_r.
  - apply filter_zero. intros x Hx. apply in_zseq in Hx. rewrite filter_repeat. unfold in_cell. cbn [fst snd]. rewrite !center_cell by auto.
    replace ((g_bot g + rc =? a) && (g_left g + x =? b))%Z with false by lia. reflexivity.
Qed.
Lemma centered_count a b : count_in_cell (g_dr g) (g_dz g) a b (flat_map row_list (map Z.of_nat (seq 0 (Z.to_nat (inner_rows g))))) =
  if ((g_bot g <=? a) && (a <? g_bot g + inner_rows g) && (g_left g <=? b) && (b <? g_left g + inner_cols g))%Z then n else 0%Z.
Proof.
  unfold count_in_cell. pose proof n_range.
  destruct ((g_bot g <=? a) && (a <? g_bot g + inner_rows g) && (g_left g <=? b) && (b <? g_left g + inner_cols g))%Z eqn:E.
  - rewrite (filter_single _ _ _ (a - g_bot g)%Z).
    + rewrite row_count. replace ((a =? g_bot g + (a - g_bot g)) && (g_left g <=? b) && (b <? g_left g + inner_cols g))%Z with true by lia.
      rewrite repeat_length. lia.
    + apply nodup_zseq.
    + apply in_zseq. lia.
    + intros x Hx Hne. rewrite row_count. replace (a =? g_bot g + x)%Z with false by lia. reflexivity.
  - rewrite filter_zero; [reflexivity|]. intros x Hx. apply in_zseq in Hx. rewrite row_count.
    replace ((a =? g_bot g + x) && (g_left g <=? b) && (b <? g_left g + inner_cols g))%Z with false by lia. reflexivity.
Qed.
End Centered.
(** every cell of the domain off the outer walls gets the same number of macro-particles, all other cells none *)
Theorem C88_even : forall NR NZ g macro, domain_of NR NZ g -> (0 <= macro < 2 ^ 32)%Z -> (0 < inner_rows g * inner_cols g)%Z ->
  2 * MNZL < g_dr g -> 2 * MNZL < g_dz g ->
  exists l, centered_placement g macro = Ok l /\
  (forall a b, count_in_cell (g_dr g) (g_dz g) a b l =
     if ((g_bot g <=? a) && (a <? g_bot g + inner_rows g) && (g_left g <=? b) && (b <? g_left g + inner_cols g))%Z
     then (macro / (inner_rows g * inner_cols g))%Z else 0%Z) /\
  Z.of_nat (length l) = (macro / (inner_rows g * inner_cols g) * (inner_rows g * inner_cols g))%Z /\
  (macro - inner_rows g * inner_cols g < Z.of_nat (length l) <= macro)%Z.
Proof.
  intros NR NZ g macro D Hm Hc Hr Hz. eexists. split; [apply (centered_ok NR NZ g macro D Hm Hc)|].
  split; [intros a b; exact (centered_count g macro Hm Hc Hr Hz a b)|].
  assert (L : Z.of_nat (length (flat_map (row_list g macro) (map Z.of_nat (seq 0 (Z.to_nat (inner_rows g)))))) =
    (macro / (inner_rows g * inner_cols g) * (inner_rows g * inner_cols g))%Z).
  { rewrite (flat_map_const _ _ (Z.to_nat (inner_cols g) * Z.to_nat (macro / (inner_rows g * inner_cols g)))%nat); [|intros; apply row_length].
    rewrite map_length, seq_length. pose proof (rows_nonneg NR NZ g D). pose proof (cols_nonneg NR NZ g D). pose proof (n_range g macro Hm Hc).
    rewrite !Nat2Z.inj_mul, !Z2Nat.id by lia. ring. }
  split; [exact L|]. rewrite L. pose proof (Z.div_mod macro (inner_rows g * inner_cols g) ltac:(lia)).
  pose proof (Z.mod_pos_bound macro (inner_rows g * inner_cols g) Hc). lia.
Qed.
(** the remainder of the division is not placed: with fewer macro-particles than cells there is none at all *)
Theorem C88_none_refuted : forall NR NZ g macro, domain_of NR NZ g -> (0 <= macro < inner_rows g * inner_cols g)%Z -> (macro < 2 ^ 32)%Z ->
  2 * MNZL < g_dr g -> 2 * MNZL < g_dz g -> centered_placement g macro = Ok [].
Proof.
  intros NR NZ g macro D Hm Hm' Hr Hz. destruct (C88_even NR NZ g macro D ltac:(lia) ltac:(lia) Hr Hz) as (l & E & _ & L & _).
  rewrite Z.div_small in L by lia. destruct l; [exact E|cbn in L; lia].
Qed.
(** a domain of one row or column of cells at the outer wall *)
Theorem C88_narrow_refuted : forall NR NZ g macro, domain_of NR NZ g -> inner_rows g = 0%Z \/ inner_cols g = 0%Z -> centered_placement g macro = UB.
Proof.
  intros NR NZ g macro D H. unfold centered_placement, macro_per_cell. rewrite (rows_eq NR NZ g D), (cols_eq NR NZ g D).
  replace (inner_rows g * inner_cols g =? 0)%Z with true; [reflexivity|]. destruct H as [-> | ->]; lia.
Qed.
Example C88_ex : inner_rows g_out = 9%Z /\ inner_cols g_out = 19%Z /\
  (exists l, centered_placement g_out 400 = Ok l /\ count_in_cell 1 2 25 58 l = 2%Z /\ count_in_cell 1 2 29 58 l = 0%Z /\ Z.of_nat (length l) = 342%Z).
Proof.
  split; [reflexivity|]. split; [reflexivity|].
  destruct (C88_even 30 60 g_out 400 g_out_domain ltac:(lia) ltac:(reflexivity)
    ltac:(rewrite MNZL_eq; cbn; lra) ltac:(rewrite MNZL_eq; cbn; lra)) as (l & E & C & L & _).
  exists l. split; [exact E|]. split; [exact (C 25%Z 58%Z)|]. split; [exact (C 29%Z 58%Z)|]. exact L.
Qed.
Example C88_narrow_ex : exists g, domain_of 3 3 g /\ inner_rows g = 0%Z.
Proof.
  exists {| g_dr := 1; g_dz := 2; g_size_r := 1; g_size_z := 2; g_bot := 2; g_left := 0; g_top := 3; g_right := 3;
     w_r0 := false; w_z0 := true; w_rr := true; w_zz := true |}.
  split; [repeat split; cbn; try lra; try lia|reflexivity].
Qed.

(** * C89: the density profile of the domains *)
(** the linear profile between the ends of an area of NZ cells *)
Definition linear_density (ld rd : R) (NZ : Z) (k : Z) : R := ld + (rd - ld) * (IZR k / IZR NZ).
(** the particles (of one cross-section of unit area) between two cells under a linear profile *)
Definition trapezoid (rho : Z -> R) (dz : R) (a b : Z) : R := (rho a + rho b) / 2 * (IZR (b - a) * dz).
Fixpoint sum_cuts (f : Z -> Z -> R) (a : Z) (cuts : list Z) : R :=
  match cuts with [] => 0 | b :: l => f a b + sum_cuts f b l end.
Theorem C89_serial : forall ld rd NZ dz k, (0 < NZ)%Z -> 0 < dz ->
  density_at ld rd (IZR NZ * dz) dz k = linear_density ld rd NZ k /\
  (0 <= ld -> 0 <= rd -> (0 <= k <= NZ)%Z -> Rmin ld rd <= density_at ld rd (IZR NZ * dz) dz k <= Rmax ld rd).
Proof.
  intros ld rd NZ dz k HN Hdz. assert (P : 0 < IZR NZ) by (apply IZR_lt; lia).
  assert (E : density_at ld rd (IZR NZ * dz) dz k = linear_density ld rd NZ k) by (unfold density_at, linear_density; field; lra).
  split; [exact E|]. intros A B K. rewrite E. unfold linear_density.
  assert (T : 0 <= IZR k / IZR NZ <= 1).
  { assert (0 <= IZR k <= IZR NZ) by (split; apply IZR_le; lia). split; [apply Rmult_le_pos; [lra|left; now apply Rinv_0_lt_compat]|].
    apply Rmult_le_reg_r with (IZR NZ); auto. unfold Rdiv. rewrite Rmult_assoc, Rinv_l; lra. }
  set (t := IZR k / IZR NZ) in *. unfold Rmin, Rmax. destruct (Rle_dec ld rd); nra.
Qed.
Lemma last_next (l : list Z) : forall a b, last (b :: l) a = last l b.
Proof. induction l as [|x l IH]; intros a b; [reflexivity|]. change (last (b :: x :: l) a) with (last (x :: l) a). rewrite !IH. reflexivity. Qed.
(** the domains together hold exactly the particles of the whole profile, however the area is cut *)
Theorem C89_cuts : forall ld rd NZ dz cuts a, (0 < NZ)%Z -> 0 < dz ->
  sum_cuts (trapezoid (density_at ld rd (IZR NZ * dz) dz) dz) a cuts =
  trapezoid (linear_density ld rd NZ) dz a (last cuts a).
Proof.
  intros ld rd NZ dz cuts. intros a HN Hdz. assert (P : 0 < IZR NZ) by (apply IZR_lt; lia).
  revert a. induction cuts as [|b l IH]; intros a; cbn [sum_cuts].
  - unfold trapezoid. cbn [last]. rewrite Z.sub_diag. lra.
  - rewrite IH, last_next.
    unfold trapezoid, density_at, linear_density. rewrite !minus_IZR. field. lra.
Qed.
(** with MPI geometry->size[1] is the length of the part of one process, but the cells are counted from the beginning of the
    whole area *)
Theorem C89_mpi_refuted : forall ld rd NZ dz np k, (0 < NZ)%Z -> 0 < dz -> (1 <= np)%Z ->
  density_at ld rd (IZR NZ * dz / IZR np) dz k = ld + IZR np * (linear_density ld rd NZ k - ld) /\
  density_at ld rd (IZR NZ * dz / IZR np) dz NZ = rd + (IZR np - 1) * (rd - ld).
Proof.
  intros ld rd NZ dz np k HN Hdz Hnp. assert (P : 0 < IZR NZ) by (apply IZR_lt; lia). assert (Q : 1 <= IZR np) by (apply IZR_le; lia).
  split; unfold density_at, linear_density; field; lra.
Qed.
(** a profile falling to zero gets negative densities *)
Theorem C89_mpi_negative_refuted : forall ld NZ dz np, (0 < NZ)%Z -> 0 < dz -> (2 <= np)%Z -> 0 < ld ->
  density_at ld 0 (IZR NZ * dz / IZR np) dz NZ <= - ld.
Proof.
  intros ld NZ dz np HN Hdz Hnp Hl. rewrite (proj2 (C89_mpi_refuted ld 0 NZ dz np 0 HN Hdz ltac:(lia))).
  assert (Q : 2 <= IZR np) by (apply IZR_le; lia). nra.
Qed.
Example C89_ex : density_at 4 2 (60 * 2) 2 30 = 3 /\ density_at 4 2 (60 * 2 / 3) 2 60 = -2.
Proof. split; unfold density_at; field. Qed.

(** * C90: the shares of the domains *)
Theorem C90_shares : forall macro nr nz, (0 <= macro < 2 ^ 31)%Z -> (1 <= nr)%Z -> (1 <= nz)%Z ->
  exists k, domain_macro (IZR macro) nr nz = Ok k /\ (0 <= k)%Z /\ (nr * nz * k <= macro < nr * nz * (k + 1))%Z.
Proof.
  intros macro nr nz Hm Hr Hz. set (k := (macro / (nr * nz))%Z).
  pose proof (Z.div_mod macro (nr * nz) ltac:(nia)) as DM. pose proof (Z.mod_pos_bound macro (nr * nz) ltac:(nia)) as MB. fold k in DM.
  assert (K : (0 <= k < 2 ^ 31)%Z) by (unfold k; split; [apply Z.div_pos; nia|apply Z.div_lt_upper_bound; nia]).
  exists k. split; [|nia]. unfold domain_macro. assert (1 <= IZR nr) by (apply IZR_le; lia). assert (1 <= IZR nz) by (apply IZR_le; lia).
  replace (IZR macro / IZR nr / IZR nz) with (IZR macro / IZR (nr * nz)) by (rewrite mult_IZR; field; lra).
  assert (P : 0 < IZR (nr * nz)) by (apply IZR_lt; nia).
  assert (A : IZR (nr * nz) * IZR k <= IZR macro) by (rewrite <- mult_IZR; apply IZR_le; lia).
  assert (B : IZR macro < IZR (nr * nz) * (IZR k + 1)) by (rewrite <- plus_IZR, <- mult_IZR; apply IZR_lt; nia).
  assert (E : truncR (IZR macro / IZR (nr * nz)) = k).
  { assert (0 <= IZR k) by (apply IZR_le; lia).
    assert (S : IZR k <= IZR macro / IZR (nr * nz) < IZR k + 1).
    { split; [apply Rmult_le_reg_r with (IZR (nr * nz))|apply Rmult_lt_reg_r with (IZR (nr * nz))]; auto;
        unfold Rdiv; rewrite Rmult_assoc, Rinv_l; lra. }
    rewrite truncR_pos by lra. apply Int_part_unique. exact S. }
  unfold to_s32. rewrite E. replace ((- 2 ^ 31 <=? k) && (k <? 2 ^ 31))%Z with true by lia. cbn [bind]. now rewrite u32_small by lia.
Qed.
Example C90_ex : domain_macro 1000 3 7 = Ok 47%Z.
Proof. destruct (C90_shares 1000 3 7) as (k & E & _ & B); try lia. assert (k = 47%Z) by lia. now subst k. Qed.

(** * C91: initial velocities below the velocity of light *)
Section Speed.
Variables (c lim mass : R).
Hypothesis Hc : 0 < c.
Hypothesis Hmass : 0 < mass.
Hypothesis Hlim : 0 < lim /\ 3 * lim < c.
Lemma gamma_inv_sq x : 0 < lorenz_factor_inv c (x * x) /\ lorenz_factor_inv c (x * x) * lorenz_factor_inv c (x * x) * (c * c + x * x) = c * c.
Proof using Hc.
  clear Hlim.
  unfold lorenz_factor_inv. assert (0 <= x * x) by apply Rle_0_sqr. assert (C2 : 0 < c * c) by nra.
  assert (0 <= x * x / (c * c)) by (apply Rmult_le_pos; [auto|left; now apply Rinv_0_lt_compat]).
  assert (P : 0 < 1 + x * x / (c * c)) by lra. pose proof (sqrt_lt_R0 _ P) as S. split; [now apply Rinv_0_lt_compat|].
  rewrite <- Rinv_mult. rewrite sqrt_sqrt by lra. field. nra.
Qed.
(** square of a velocity component: x is the momentum per mass *)
Definition comp_sq (x : R) : R := if rlt lim x then x * x * (c * c) / (c * c + x * x) else x * c.
Lemma comp_sq_spec v e2 x : e2 = x * c -> 0 <= x ->
  v = (if rlt lim x then x * lorenz_factor_inv c (x * x) else sqrt e2) -> 0 <= v /\ v * v = comp_sq x.
Proof using Hc.
  clear Hlim.
  intros -> Hx ->. unfold comp_sq. destruct (rlt lim x).
  - destruct (gamma_inv_sq x) as [P Q]. split; [apply Rmult_le_pos; lra|].
    assert (0 < c * c + x * x) by (assert (0 <= x * x) by apply Rle_0_sqr; nra).
    set (g := lorenz_factor_inv c (x * x)) in *. replace (x * x * (c * c)) with (x * x * (g * g * (c * c + x * x))) by (rewrite Q; ring). field. lra.
  - split; [apply sqrt_pos|]. apply sqrt_sqrt. apply Rmult_le_pos; lra.
Qed.
(** n components of the size bounded so stay below the velocity of light exactly if (n-1) x^2 < c^2 *)
Lemma comp_bound k x : 0 <= x -> 0 < k <= 3 -> (k * comp_sq x < c * c <-> (lim < x -> (k - 1) * (x * x) < c * c)).
Proof.
  intros Hx Hk. unfold comp_sq, rlt. destruct (Rlt_dec lim x) as [L|L].
  - assert (S : 0 < c * c + x * x) by (assert (0 <= x * x) by apply Rle_0_sqr; nra). assert (C2 : 0 < c * c) by nra.
    split.
    + intros H _. apply Rmult_lt_compat_r with (r := c * c + x * x) in H; auto.
      replace (k * (x * x * (c * c) / (c * c + x * x)) * (c * c + x * x)) with (k * (x * x) * (c * c)) in H by (field; lra).
      assert ((k * (x * x)) * (c * c) < (c * c + x * x) * (c * c)) by lra. apply Rmult_lt_reg_r in H0; auto. lra.
    + intros H. specialize (H L). apply Rmult_lt_reg_r with (c * c + x * x); auto.
      replace (k * (x * x * (c * c) / (c * c + x * x)) * (c * c + x * x)) with (k * (x * x) * (c * c)) by (field; lra).
      assert (k * (x * x) < c * c + x * x) by lra. nra.
  - split; [intros _ H; lra|]. intros _. assert (x <= lim) by lra.
    apply Rle_lt_trans with (3 * lim * c); [|nra]. replace (k * (x * c)) with (k * x * c) by ring. apply Rmult_le_compat_r; [lra|]. nra.
Qed.
Lemma EL_pos : 0 < EL_CHARGE.
Proof. unfold EL_CHARGE. apply Rmult_lt_0_compat; [lra|]. apply Rinv_0_lt_compat. apply pow_lt. lra. Qed.
(** momentum per mass of a quantum of e electronvolts: e q / (m c) *)
Definition quantum_momentum (e : R) : R := e * EL_CHARGE / (mass * c).
Lemma qm_nonneg e : 0 <= e -> 0 <= quantum_momentum e.
Proof using Hc Hmass. intros H. clear Hlim. pose proof EL_pos. unfold quantum_momentum. apply Rmult_le_pos; [nra|]. left. apply Rinv_0_lt_compat. nra. Qed.
Lemma thermal_sq e : 0 <= e -> 0 <= thermal_cmp c lim mass e /\
  thermal_cmp c lim mass e * thermal_cmp c lim mass e =
  if rlt lim (quantum_momentum e) then comp_sq (quantum_momentum e) else 2 * quantum_momentum e * c.
Proof using Hc Hmass.
  clear Hlim. intros He. pose proof EL_pos. pose proof (qm_nonneg e He) as Hx. unfold thermal_cmp, mc_inv, two_over_mass.
  replace (e * (EL_CHARGE / (mass * c))) with (quantum_momentum e) by (unfold quantum_momentum; field; lra).
  unfold comp_sq. destruct (rlt lim (quantum_momentum e)) eqn:L.
  - pose proof (comp_sq_spec _ (quantum_momentum e * c) (quantum_momentum e) eq_refl Hx eq_refl) as S. unfold comp_sq in S. rewrite L in S. exact S.
  - replace (e * (2 * EL_CHARGE / mass)) with (2 * quantum_momentum e * c) by (unfold quantum_momentum; field; lra).
    split; [apply sqrt_pos|]. apply sqrt_sqrt. nra.
Qed.
Lemma eigen_sq t : 0 <= t -> 0 <= eigen_cmp c lim mass t /\ eigen_cmp c lim mass t * eigen_cmp c lim mass t = comp_sq (2 * quantum_momentum t).
Proof using Hc Hmass.
  clear Hlim. intros Ht. pose proof EL_pos. pose proof (qm_nonneg t Ht) as Hx. apply comp_sq_spec with (e2 := t * two_over_mass mass).
  - unfold two_over_mass, quantum_momentum. field. lra.
  - lra.
  - unfold eigen_cmp, mc_inv. replace (t * (EL_CHARGE / (mass * c)) * 2) with (2 * quantum_momentum t) by (unfold quantum_momentum; field; lra). reflexivity.
Qed.
Lemma len2_scaled t d0 d1 d2 : len2 (V3 (d0 * t) (d1 * t) (d2 * t)) = (d0 * d0 + d1 * d1 + d2 * d2) * (t * t).
Proof. unfold len2. cbn. ring. Qed.
Lemma draws_3 d0 d1 d2 : -1 <= d0 <= 1 -> -1 <= d1 <= 1 -> -1 <= d2 <= 1 -> 0 <= d0 * d0 + d1 * d1 + d2 * d2 <= 3.
Proof. intros. nra. Qed.
End Speed.
(** the eigen distribution: below the velocity of light exactly up to a momentum of m c / sqrt 2 *)
Theorem C91_eigen_partial : forall c lim mass t, 0 < c -> 0 < mass -> 0 < lim -> 3 * lim < c -> 0 <= t ->
  (len2 (eigen_velocity c lim mass t) < c * c <->
   (lim < 2 * quantum_momentum c mass t -> 2 * (2 * quantum_momentum c mass t * (2 * quantum_momentum c mass t)) < c * c)).
Proof.
  intros c lim mass t Hc Hm Hl Hl3 Ht. pose proof (qm_nonneg c mass Hc Hm t Ht) as Hx.
  destruct (eigen_sq c lim mass Hc Hm t Ht) as [_ S].
  unfold eigen_velocity. replace (len2 (V3 (eigen_cmp c lim mass t) (eigen_cmp c lim mass t) (eigen_cmp c lim mass t)))
    with (3 * comp_sq c lim (2 * quantum_momentum c mass t)) by (rewrite <- S; unfold len2; cbn; ring).
  rewrite (comp_bound c lim Hc (conj Hl Hl3) 3) by lra. replace (3 - 1) with 2 by ring. reflexivity.
Qed.
(** the rectangular distribution: the same bound for all draws *)
Theorem C91_rectangular_partial : forall c lim mass t d0 d1 d2, 0 < c -> 0 < mass -> 0 < lim -> 3 * lim < c -> 0 <= t ->
  -1 <= d0 <= 1 -> -1 <= d1 <= 1 -> -1 <= d2 <= 1 ->
  2 * (2 * quantum_momentum c mass t * (2 * quantum_momentum c mass t)) < c * c ->
  len2 (rectangular_velocity c lim mass t d0 d1 d2) < c * c.
Proof.
  intros c lim mass t d0 d1 d2 Hc Hm Hl Hl3 Ht H0 H1 H2 Hb. pose proof (qm_nonneg c mass Hc Hm t Ht) as Hx.
  destruct (eigen_sq c lim mass Hc Hm t Ht) as [_ S]. unfold rectangular_velocity. rewrite len2_scaled, S.
  assert (B : 3 * comp_sq c lim (2 * quantum_momentum c mass t) < c * c) by (apply comp_bound; auto; try lra; intros; lra).
  pose proof (draws_3 d0 d1 d2 H0 H1 H2). assert (0 <= comp_sq c lim (2 * quantum_momentum c mass t)) by (rewrite <- S; apply Rle_0_sqr). nra.
Qed.
(** the thermal distribution: the components are divided by sqrt 2, so that the momentum may be up to sqrt 2 m c *)
Lemma norm_sq : 4999999 / 10000000 < norm_sqrt2 * norm_sqrt2 < 1 / 2 /\ 0 < norm_sqrt2.
Proof. unfold norm_sqrt2. replace (10 ^ 16) with 10000000000000000 by ring. lra. Qed.
Theorem C91_thermal_partial : forall c lim mass e d0 d1 d2, 0 < c -> 0 < mass -> 0 < lim -> 3 * lim < c -> 0 <= e ->
  -1 <= d0 <= 1 -> -1 <= d1 <= 1 -> -1 <= d2 <= 1 ->
  quantum_momentum c mass e * quantum_momentum c mass e <= 2 * (c * c) ->
  len2 (thermal_velocity c lim mass e d0 d1 d2) < c * c.
Proof.
  intros c lim mass e d0 d1 d2 Hc Hm Hl Hl3 He H0 H1 H2 Hb. pose proof (qm_nonneg c mass Hc Hm e He) as Hx.
  destruct (thermal_sq c lim mass Hc Hm e He) as [_ S]. unfold thermal_velocity. rewrite len2_scaled.
  destruct norm_sq as [[_ N] N0]. set (n := norm_sqrt2) in *. set (x := quantum_momentum c mass e) in *.
  replace (thermal_cmp c lim mass e * n * (thermal_cmp c lim mass e * n)) with (thermal_cmp c lim mass e * thermal_cmp c lim mass e * (n * n)) by ring.
  rewrite S. pose proof (draws_3 d0 d1 d2 H0 H1 H2) as Q. set (q := d0 * d0 + d1 * d1 + d2 * d2) in *.
  assert (C2 : 0 < c * c) by nra. assert (X2 : 0 <= x * x) by apply Rle_0_sqr. assert (N2 : 0 < n * n) by nra.
  unfold comp_sq, rlt. destruct (Rlt_dec lim x) as [L|L].
  - assert (Sx : 0 < c * c + x * x) by lra. apply Rmult_lt_reg_r with (c * c + x * x); auto.
    replace (q * (x * x * (c * c) / (c * c + x * x) * (n * n)) * (c * c + x * x)) with (q * (n * n) * (x * x) * (c * c)) by (field; lra).
    assert (K : q * (n * n) * (x * x) < c * c + x * x); [|nra].
    assert (q * (n * n) < 3 / 2) by nra. assert (XP : 0 < x * x) by nra. assert (q * (n * n) * (x * x) < 3 / 2 * (x * x)) by (apply Rmult_lt_compat_r; auto). lra.
  - assert (x <= lim) by lra. assert (q * (n * n) <= 3 / 2) by nra. assert (0 <= 2 * x * c) by nra.
    assert (q * (2 * x * c * (n * n)) <= 3 / 2 * (2 * x * c)) by (replace (q * (2 * x * c * (n * n))) with (q * (n * n) * (2 * x * c)) by ring; apply Rmult_le_compat_r; auto).
    assert (3 / 2 * (2 * x * c) < c * c) by nra. lra.
Qed.
(** beyond: a quantum of twice the rest energy (1 MeV for electrons) and the largest draws *)
Theorem C91_thermal_refuted : forall c lim mass e, 0 < c -> 0 < mass -> 0 < lim -> 3 * lim < c -> 2 * c <= quantum_momentum c mass e ->
  c * c < len2 (thermal_velocity c lim mass e 1 1 1).
Proof.
  intros c lim mass e Hc Hm Hl Hl3 Hb. assert (He : 0 <= e).
  { destruct (Rle_dec 0 e); auto. exfalso. unfold quantum_momentum in Hb. pose proof EL_pos.
    assert (0 < / (mass * c)) by (apply Rinv_0_lt_compat; nra). assert (e * EL_CHARGE < 0) by nra. unfold Rdiv in Hb. nra. }
  destruct (thermal_sq c lim mass Hc Hm e He) as [_ S]. unfold thermal_velocity. rewrite len2_scaled.
  destruct norm_sq as [[N _] N0]. set (n := norm_sqrt2) in *. set (x := quantum_momentum c mass e) in *.
  replace (thermal_cmp c lim mass e * n * (thermal_cmp c lim mass e * n)) with (thermal_cmp c lim mass e * thermal_cmp c lim mass e * (n * n)) by ring.
  rewrite S. unfold comp_sq, rlt. destruct (Rlt_dec lim x) as [L|L]; [|lra].
  assert (C2 : 0 < c * c) by nra. assert (X2 : 4 * (c * c) <= x * x) by nra. assert (Sx : 0 < c * c + x * x) by lra.
  apply Rmult_lt_reg_r with (c * c + x * x); auto.
  replace ((1 * 1 + 1 * 1 + 1 * 1) * (x * x * (c * c) / (c * c + x * x) * (n * n)) * (c * c + x * x)) with (3 * (n * n) * (x * x) * (c * c)) by (field; lra).
  assert (K : c * c + x * x < 3 * (n * n) * (x * x)); [|nra].
  assert (149 / 100 * (x * x) <= 3 * (n * n) * (x * x)) by (apply Rmult_le_compat_r; lra). lra.
Qed.
(** the constants of the project *)
Definition EL_MASS : R := 91 / 10 ^ 32.
Lemma ten20 : EL_CHARGE = 16 / 100000000000000000000.
Proof. unfold EL_CHARGE. replace (10 ^ 20) with 100000000000000000000 by ring. lra. Qed.
Lemma ten32 : EL_MASS = 91 / 100000000000000000000000000000000.
Proof. unfold EL_MASS. replace (10 ^ 32) with 100000000000000000000000000000000 by ring. lra. Qed.
Example C91_ex : 3 * REL_LIMIT < LIGHT_VEL /\
  quantum_momentum LIGHT_VEL EL_MASS 100000 < LIGHT_VEL /\ 2 * LIGHT_VEL <= quantum_momentum LIGHT_VEL EL_MASS 1100000.
Proof. unfold quantum_momentum, REL_LIMIT, LIGHT_VEL. rewrite ten20, ten32. lra. Qed.
(** electrons of 250 keV of the eigen distribution all fly faster than light *)
Example C91_eigen_ex : LIGHT_VEL * LIGHT_VEL <= len2 (eigen_velocity LIGHT_VEL REL_LIMIT EL_MASS 250000).
Proof.
  assert (M : 0 < EL_MASS) by (rewrite ten32; lra).
  assert (X : 146000000 < quantum_momentum LIGHT_VEL EL_MASS 250000 ) by (unfold quantum_momentum, LIGHT_VEL; rewrite ten20, ten32; lra).
  apply Rnot_lt_le. intros H.
  apply (proj1 (C91_eigen_partial LIGHT_VEL REL_LIMIT EL_MASS 250000 ltac:(unfold LIGHT_VEL; lra) M ltac:(unfold REL_LIMIT; lra)
    ltac:(unfold LIGHT_VEL, REL_LIMIT; lra) ltac:(lra))) in H; [|unfold REL_LIMIT; lra].
  set (x := quantum_momentum LIGHT_VEL EL_MASS 250000) in *. unfold LIGHT_VEL in H. nra.
Qed.

(** * C92: the energy of the sampled quantum *)
(** kinetic energy of a particle, with the Lorentz factor of its velocity *)
Definition kinetic (c mass v : R) : R := mass * (c * c) * (/ sqrt (1 - v * v / (c * c)) - 1).
(** below the limit the velocity carries the energy by the classical formula *)
Theorem C92_classical_partial : forall c lim mass e, 0 < c -> 0 < mass -> 0 <= e -> quantum_momentum c mass e <= lim ->
  mass * (thermal_cmp c lim mass e * thermal_cmp c lim mass e) / 2 = e * EL_CHARGE.
Proof.
  intros c lim mass e Hc Hm He Hl. destruct (thermal_sq c lim mass Hc Hm e He) as [_ S]. rewrite S.
  unfold rlt. destruct (Rlt_dec lim (quantum_momentum c mass e)); [lra|]. unfold quantum_momentum. field. lra.
Qed.
(** above it the momentum is set to E / c, as if the particle had no mass: its kinetic energy is below E *)
Theorem C92_relativistic_refuted : forall c lim mass e, 0 < c -> 0 < mass -> 0 < lim -> lim < quantum_momentum c mass e ->
  kinetic c mass (thermal_cmp c lim mass e) < e * EL_CHARGE /\
  thermal_cmp c lim mass e / sqrt (1 - thermal_cmp c lim mass e * thermal_cmp c lim mass e / (c * c)) * mass * c = e * EL_CHARGE.
Proof.
  intros c lim mass e Hc Hm Hl Hx. pose proof EL_pos as EP.
  assert (He : 0 <= e).
  { destruct (Rle_dec 0 e); auto. exfalso. unfold quantum_momentum in Hx.
    assert (0 < / (mass * c)) by (apply Rinv_0_lt_compat; nra). assert (e * EL_CHARGE < 0) by nra. unfold Rdiv in Hx. nra. }
  destruct (thermal_sq c lim mass Hc Hm e He) as [V S]. set (v := thermal_cmp c lim mass e) in *.
  assert (EQ : e * EL_CHARGE = mass * c * quantum_momentum c mass e) by (unfold quantum_momentum; field; lra). rewrite EQ.
  set (x := quantum_momentum c mass e) in *. unfold comp_sq, rlt in S. destruct (Rlt_dec lim x) as [L|L]; [|lra].
  assert (C2 : 0 < c * c) by nra. assert (X2 : 0 < x * x) by nra.
  assert (W : 1 - v * v / (c * c) = c / sqrt (c * c + x * x) * (c / sqrt (c * c + x * x))).
  { rewrite S. assert (0 < sqrt (c * c + x * x)) by (apply sqrt_lt_R0; lra).
    replace (c / sqrt (c * c + x * x) * (c / sqrt (c * c + x * x))) with (c * c / (sqrt (c * c + x * x) * sqrt (c * c + x * x))) by (field; lra).
    rewrite sqrt_sqrt by lra. field. split; lra. }
  assert (G : 0 < sqrt (c * c + x * x)) by (apply sqrt_lt_R0; lra). set (s := sqrt (c * c + x * x)) in *.
  assert (SS : s * s = c * c + x * x) by (apply sqrt_sqrt; lra).
  assert (Q : sqrt (1 - v * v / (c * c)) = c / s).
  { rewrite W. apply sqrt_square. apply Rmult_le_pos; [lra|left; now apply Rinv_0_lt_compat]. }
  assert (VX : v = x * c / s).
  { apply Rsqr_inj; auto.
    - apply Rmult_le_pos; [nra|left; now apply Rinv_0_lt_compat].
    - unfold Rsqr. rewrite S. replace (x * c / s * (x * c / s)) with (x * x * (c * c) / (s * s)) by (field; lra). now rewrite SS. }
  split.
  - unfold kinetic. rewrite Q. replace (mass * (c * c) * (/ (c / s) - 1)) with (mass * c * (s - c)) by (field; lra).
    apply Rmult_lt_compat_l; [nra|]. assert (s < c + x); [|lra]. apply Rsqr_incrst_0; try lra. unfold Rsqr. rewrite SS. nra.
  - rewrite Q, VX. field. lra.
Qed.
(** the velocity drops at the limit: a hotter particle may be slower *)
Theorem C92_monotone_refuted : forall c lim mass, 0 < c -> 0 < mass -> 0 < lim -> 3 * lim < c -> exists e1 e2,
  0 < e1 < e2 /\ thermal_cmp c lim mass e2 < thermal_cmp c lim mass e1 / 2 * sqrt 2.
Proof.
  intros c lim mass Hc Hm Hl Hl3. pose proof EL_pos as EP.
  set (e1 := lim * (mass * c) / EL_CHARGE). set (e2 := 101 / 100 * e1).
  assert (MC : 0 < mass * c) by nra.
  assert (P1 : 0 < e1) by (unfold e1; apply Rmult_lt_0_compat; [apply Rmult_lt_0_compat; lra|now apply Rinv_0_lt_compat]).
  assert (Q1 : quantum_momentum c mass e1 = lim) by (unfold quantum_momentum, e1; field; repeat split; lra).
  assert (Q2 : quantum_momentum c mass e2 = 101 / 100 * lim) by (unfold quantum_momentum, e2, e1; field; repeat split; lra).
  exists e1, e2. split; [unfold e2; lra|].
  destruct (thermal_sq c lim mass Hc Hm e1 ltac:(lra)) as [V1 S1]. destruct (thermal_sq c lim mass Hc Hm e2 ltac:(unfold e2; lra)) as [V2 S2].
  rewrite Q1 in S1. rewrite Q2 in S2. unfold comp_sq, rlt in S1, S2.
  destruct (Rlt_dec lim lim) as [L|L]; [lra|]. destruct (Rlt_dec lim (101 / 100 * lim)) as [L2|L2]; [|lra].
  assert (S0 : 0 < sqrt 2) by (apply sqrt_lt_R0; lra). assert (SQ : sqrt 2 * sqrt 2 = 2) by (apply sqrt_sqrt; lra).
  set (a := thermal_cmp c lim mass e1) in *. set (b := thermal_cmp c lim mass e2) in *.
  apply Rsqr_incrst_0; auto.
  - unfold Rsqr. rewrite S2. replace (a / 2 * sqrt 2 * (a / 2 * sqrt 2)) with (a * a * (sqrt 2 * sqrt 2) / 4) by field. rewrite S1, SQ.
    set (x := 101 / 100 * lim) in *. assert (C2 : 0 < c * c) by nra. assert (X2 : 0 < x * x) by nra.
    apply Rle_lt_trans with (x * x).
    + apply Rmult_le_reg_r with (c * c + x * x); [lra|]. replace (x * x * (c * c) / (c * c + x * x) * (c * c + x * x)) with (x * x * (c * c)) by (field; lra). nra.
    + unfold x. assert (lim * lim * 3 < lim * c) by nra. nra.
  - apply Rmult_le_pos; [lra|lra].
Qed.
Example C92_ex : quantum_momentum LIGHT_VEL EL_MASS 1000 <= REL_LIMIT /\ REL_LIMIT < quantum_momentum LIGHT_VEL EL_MASS 100000.
Proof. unfold quantum_momentum, REL_LIMIT, LIGHT_VEL. rewrite ten20, ten32. lra. Qed.

Print Assumptions C88_even.
Print Assumptions C88_none_refuted.
Print Assumptions C88_narrow_refuted.
Print Assumptions C89_serial.
Print Assumptions C89_cuts.
Print Assumptions C89_mpi_refuted.
Print Assumptions C89_mpi_negative_refuted.
Print Assumptions C90_shares.
Print Assumptions C91_eigen_partial.
Print Assumptions C91_rectangular_partial.
Print Assumptions C91_thermal_partial.
Print Assumptions C91_thermal_refuted.
Print Assumptions C92_classical_partial.
Print Assumptions C92_relativistic_refuted.
Print Assumptions C92_monotone_refuted.
