(** Theorems about the configuration check: properties C98 to C100. *)
From Coq Require Import Reals Lra Psatz ZifyBool String.
From Verif Require Import Base ListUtil RndUtil DecompModel PushModel CheckModel.
Open Scope R_scope.
Import ListNotations.

Lemma rlt_cases a b : (rlt a b = true /\ a < b) \/ (rlt a b = false /\ b <= a).
Proof. unfold rlt. destruct (Rlt_dec a b); [left|right]; split; auto. lra. Qed.
Lemma rlt_false' a b : rlt a b = false -> b <= a.
Proof. destruct (rlt_cases a b) as [[A B]|[A B]]; intros; congruence. Qed.
Lemma rlt_false_i a b : b <= a -> rlt a b = false.
Proof. destruct (rlt_cases a b) as [[A B]|[A B]]; intros; auto. lra. Qed.
Lemma rlt_true_i a b : a < b -> rlt a b = true.
Proof. destruct (rlt_cases a b) as [[A B]|[A B]]; intros; auto. lra. Qed.
Lemma req_false_i a b : a <> b -> req a b = false.
Proof. intros. unfold req. destruct (Req_EM_T a b); [contradiction|reflexivity]. Qed.
Lemma req_true_i a : req a a = true.
Proof. unfold req. destruct (Req_EM_T a a); [reflexivity|contradiction]. Qed.
Lemma req_false' a b : req a b = false -> a <> b.
Proof. unfold req. destruct (Req_EM_T a b); [discriminate|auto]. Qed.

(** * C98: limits of the method *)
Lemma accepted_iff n : accepted_domains n = true <-> (n = 1 \/ Z.Even n)%Z.
Proof.
  unfold accepted_domains. rewrite Zmod_even, <- Z.even_spec. destruct (Z.even n); cbn [orb Z.eqb].
  - split; auto.
  - split; intros H; [left; lia|]. destruct H; [lia|discriminate].
Qed.
(** the numbers of domains that pass: one, or even (also zero) *)
Theorem C98_domains : forall c g r, method_check c g = Ok r ->
  (c_dom_r g = 1 \/ Z.Even (c_dom_r g))%Z /\ (c_dom_z g = 1 \/ Z.Even (c_dom_z g))%Z.
Proof.
  intros c g r H. unfold method_check in H.
  destruct (accepted_domains (c_dom_r g)) eqn:A; [|discriminate]. destruct (accepted_domains (c_dom_z g)) eqn:B; [|discriminate].
  split; now apply accepted_iff.
Qed.
Theorem C98_domains_complete : forall c g r, method_check c g = Ok r -> forall a b, (a = 1 \/ Z.Even a)%Z -> (b = 1 \/ Z.Even b)%Z ->
  method_check c {| c_dom_r := a; c_dom_z := b; c_nr := c_nr g; c_dr := c_dr g; c_dz := c_dz g; c_size_r := c_size_r g; c_size_z := c_size_z g;
    c_step := c_step g; c_species := c_species g |} = Ok r.
Proof.
  intros c g r H a b Ha Hb. unfold method_check in *. cbn [c_dom_r c_dom_z c_nr c_dr c_dz c_size_r c_size_z c_step c_species].
  rewrite (proj2 (accepted_iff a) Ha), (proj2 (accepted_iff b) Hb).
  destruct (negb _ || negb _); [discriminate|]. exact H.
Qed.
(** zero, and negative even numbers (as a huge unsigned one), are accepted *)
Theorem C98_no_domains_refuted : exists g r, method_check 3 g = Ok r /\ c_dom_r g = 0%Z /\ c_dom_z g = (2 ^ 64 - 2)%Z /\
  read_domains 0 = Ok (c_dom_r g) /\ read_domains (-2) = Ok (c_dom_z g).
Proof.
  set (e := {| sp_name := "electrons"; sp_mass := 1; sp_charge := (-1); sp_macro := 100; sp_left := 1; sp_right := 1; sp_temp := 1 |}).
  set (n := {| sp_name := "ions"; sp_mass := 1836; sp_charge := 1; sp_macro := 100; sp_left := 1; sp_right := 1; sp_temp := 1 |}).
  set (g := {| c_dom_r := 0; c_dom_z := 2 ^ 64 - 2; c_nr := 2; c_dr := 1; c_dz := 1; c_size_r := 2; c_size_z := 2; c_step := 1; c_species := [e; n] |}).
  assert (E : exists r, method_check 3 g = Ok r).
  { unfold method_check. change (negb (accepted_domains (c_dom_r g)) || negb (accepted_domains (c_dom_z g))) with false. cbv match.
    assert (S : search (c_species g) = {| f_macro := 0 + 100 + 100; n_el := (1 + 1) / 2; t_el := 1; n_ion := (1 + 1) / 2; t_ion := 1 |}) by reflexivity.
    rewrite S. cbn [n_el n_ion t_el t_ion f_macro]. rewrite req_false_i by lra. unfold debye_length. rewrite rlt_true_i by lra. cbn [bind]. eexists. reflexivity. }
  destruct E as [r E]. exists g, r. split; [exact E|]. repeat split.
  - unfold read_domains, to_s32. rewrite (truncR_IZR 0). reflexivity.
  - unfold read_domains, to_s32. rewrite (truncR_IZR (-2)). reflexivity.
Qed.
(** without an error message: no particle crosses more than a cell per step, and the step resolves the plasma oscillation *)
Theorem C98_clean : forall c g r, 0 < c -> 0 < c_dr g -> 0 < c_dz g -> method_check c g = Ok r -> ~ In StepTooLarge r ->
  let n := n_el (search (c_species g)) in
  0 < n /\ 0 < n_ion (search (c_species g)) /\
  (forall v, 0 <= v <= c -> v * c_step g <= c_dr g /\ v * c_step g <= c_dz g) /\ plasma_frequency n * c_step g <= 2 / 100.
Proof.
  intros c g r Hc Hr Hz H Hn n. unfold method_check in H. destruct (negb _ || negb _); [discriminate|]. cbv zeta in H. fold n in H.
  destruct (req n 0) eqn:E0; [discriminate|]. unfold debye_length in H.
  destruct (rlt_cases 0 n) as [[A N]|[A N]]; rewrite A in H; [|discriminate].
  destruct (rlt_cases 0 (n_ion (search (c_species g)))) as [[B NI]|[B NI]]; rewrite B in H; [|discriminate]. cbn [bind] in H.
  split; [auto|]. split; [auto|].
  destruct (rlt_cases (max_time c g n) (c_step g)) as [[S1 S2]|[S1 S2]]; rewrite S1 in H.
  { exfalso. apply Hn. injection H as <-. now left. }
  assert (P : 0 < plasma_frequency n) by (unfold plasma_frequency; apply Rmult_lt_0_compat; [lra|now apply sqrt_lt_R0]).
  unfold max_time in S2. pose proof (Rmin_l (Rmin (c_dr g / c) (c_dz g / c)) (2 / plasma_frequency n / 100)).
  pose proof (Rmin_r (Rmin (c_dr g / c) (c_dz g / c)) (2 / plasma_frequency n / 100)).
  pose proof (Rmin_l (c_dr g / c) (c_dz g / c)). pose proof (Rmin_r (c_dr g / c) (c_dz g / c)). split.
  - intros v Hv. assert (G : forall d, 0 < d -> c_step g <= d / c -> v * c_step g <= d).
    { intros d Hd Hs. apply Rle_trans with (v * (d / c)); [apply Rmult_le_compat_l; lra|].
      replace d with (c * (d / c)) at 2 by (field; lra). apply Rmult_le_compat_r; [|lra]. apply Rmult_le_pos; [lra|]. left. now apply Rinv_0_lt_compat. }
    split; apply G; lra.
  - apply Rle_trans with (plasma_frequency n * (2 / plasma_frequency n / 100)); [apply Rmult_le_compat_l; lra|]. right. field. lra.
Qed.
(** the errors are only printed: no step size stops the program *)
Theorem C98_not_stopped_refuted : forall c g r, method_check c g = Ok r -> forall step, exists r',
  method_check c {| c_dom_r := c_dom_r g; c_dom_z := c_dom_z g; c_nr := c_nr g; c_dr := c_dr g; c_dz := c_dz g; c_size_r := c_size_r g; c_size_z := c_size_z g;
    c_step := step; c_species := c_species g |} = Ok r' /\
  (max_time c g (n_el (search (c_species g))) < step -> In StepTooLarge r').
Proof.
  intros c g r H step. unfold method_check in *. cbn [c_dom_r c_dom_z c_nr c_dr c_dz c_size_r c_size_z c_step c_species].
  destruct (negb _ || negb _); [discriminate|]. cbv zeta in *. destruct (req _ 0); [discriminate|].
  destruct (debye_length _ _ _ _) as [l| |]; [|discriminate|discriminate]. cbn [bind] in *. eexists. split; [reflexivity|].
  intros L. unfold max_time in *. cbn [c_dr c_dz] in *. rewrite rlt_true_i by exact L. now left.
Qed.
(** stability limit of the Yee scheme: c dt <= 1 / sqrt (1 / dr^2 + 1 / dz^2) *)
Definition courant (c dt dr dz : R) : Prop := (c * dt) ^ 2 * (/ dr ^ 2 + / dz ^ 2) <= 1.
(** the check is weaker than the limit by a factor: exactly up to sqrt 2 for square cells *)
Theorem C98_courant_partial : forall c g r, 0 < c -> 0 < c_dr g -> 0 < c_dz g -> 0 <= c_step g -> method_check c g = Ok r -> ~ In StepTooLarge r ->
  (c * c_step g) ^ 2 * (/ c_dr g ^ 2 + / c_dz g ^ 2) <= 2.
Proof.
  intros c g r Hc Hr Hz Hs H Hn. destruct (C98_clean c g r Hc Hr Hz H Hn) as (_ & _ & A & _). destruct (A c ltac:(lra)) as [A1 A2].
  assert (P0 : 0 <= c * c_step g) by (apply Rmult_le_pos; lra).
  assert (G : forall d, 0 < d -> c * c_step g <= d -> (c * c_step g) ^ 2 * / d ^ 2 <= 1).
  { intros d Hd L. assert (D : 0 < d ^ 2) by (apply pow_lt; lra). apply Rmult_le_reg_r with (d ^ 2); [auto|].
    rewrite Rmult_assoc, Rinv_l, Rmult_1_r, Rmult_1_l by lra. apply pow_incr. lra. }
  pose proof (G _ Hr A1). pose proof (G _ Hz A2). lra.
Qed.
Lemma square_cells_accepted : forall c, 0 < c -> exists g, method_check c g = Ok [] /\ 0 < c_dr g /\ c_dz g = c_dr g /\ c_step g = c_dr g / c /\
  c_dom_r g = 1%Z /\ c_dom_z g = 1%Z /\ c_nr g = 10%Z /\ c_size_r g = 10 * c_dr g /\ c_size_z g = 10 * c_dz g.
Proof.
  intros c Hc.
  set (h := c / 10000). assert (Hh : 0 < h) by (unfold h; lra).
  set (a := h / 50 / (7433944 / 1000)). assert (Ha : 0 < a) by (unfold a, Rdiv; repeat apply Rmult_lt_0_compat; lra).
  set (T := 2 * (a * a)). assert (HT : 0 < T) by (unfold T; nra).
  set (e := {| sp_name := "electrons"; sp_mass := 1; sp_charge := (-1); sp_macro := 1000; sp_left := 1; sp_right := 1; sp_temp := T |}).
  set (n := {| sp_name := "ions"; sp_mass := 1836; sp_charge := 1; sp_macro := 1000; sp_left := 1; sp_right := 1; sp_temp := T |}).
  set (g := {| c_dom_r := 1; c_dom_z := 1; c_nr := 10; c_dr := h; c_dz := h; c_size_r := 10 * h; c_size_z := 10 * h; c_step := h / c; c_species := [e; n] |}).
  exists g. split; [|split; [exact Hh|repeat split; reflexivity]].
  - unfold method_check. change (negb (accepted_domains (c_dom_r g)) || negb (accepted_domains (c_dom_z g))) with false. cbv match.
    assert (S : search (c_species g) = {| f_macro := 0 + 1000 + 1000; n_el := (1 + 1) / 2; t_el := T; n_ion := (1 + 1) / 2; t_ion := T |}) by reflexivity.
    rewrite S. cbn [n_el n_ion t_el t_ion f_macro]. replace ((1 + 1) / 2) with 1 by field. replace (0 + 1000 + 1000) with 2000 by ring.
    rewrite req_false_i by lra. unfold debye_length. rewrite (rlt_true_i 0 1) by lra.
    rewrite (req_false_i T 0) by lra. cbn [orb bind].
    replace (7433944 / 1000 / sqrt (1 / T + 1 / T)) with (h / 50).
    2: { replace (1 / T + 1 / T) with (/ a * / a) by (unfold T; field; lra). rewrite sqrt_square by (left; now apply Rinv_0_lt_compat).
         unfold a. field. repeat split; lra. }
    rewrite (rlt_false_i _ (c_step g)).
    2: { unfold max_time, plasma_frequency. rewrite sqrt_1. cbn [g c_dr c_dz c_step]. unfold h. repeat apply Rmin_glb; unfold Rdiv; try lra.
         replace (c * / 10000 * / c) with (/ 10000) by (field; lra). lra. }
    cbn [g c_dr c_dz c_size_r c_size_z c_nr]. rewrite !rlt_false_i by lra. change (u64 (u64 (10 * 10) * 10)) with 1000%Z. rewrite rlt_false_i by lra. reflexivity.
Qed.
Theorem C98_courant_refuted : forall c, 0 < c -> exists g, method_check c g = Ok [] /\ 0 < c_dr g /\ 0 < c_dz g /\
  ~ courant c (c_step g) (c_dr g) (c_dz g).
Proof.
  intros c Hc. destruct (square_cells_accepted c Hc) as (g & E & P & Q & S & _). exists g. rewrite Q. repeat split; auto.
  unfold courant. rewrite S. replace ((c * (c_dr g / c)) ^ 2 * (/ c_dr g ^ 2 + / c_dr g ^ 2)) with 2 by (field; split; lra). lra.
Qed.

(** * C99: Debye length, electrons and ions *)
(** the Debye length of a plasma *)
Definition debye (n_e t_e n_i t_i : R) : R := 7433944 / 1000 / sqrt (n_e / t_e + n_i / t_i).
(** the length that the check of a configuration compares with *)
Definition checked_length (g : config) : outcome R :=
  let f := search (c_species g) in debye_length (n_el f) (n_ion f) (t_ion f) (t_el f).
Definition el n t := {| sp_name := "electrons"; sp_mass := 1; sp_charge := (-1); sp_macro := 1000; sp_left := n; sp_right := n; sp_temp := t |}.
Definition io n t := {| sp_name := "ions"; sp_mass := 1836; sp_charge := 1; sp_macro := 1000; sp_left := n; sp_right := n; sp_temp := t |}.
Lemma search_two ne te ni ti : search [el ne te; io ni ti] = {| f_macro := 0 + 1000 + 1000; n_el := (ne + ne) / 2; t_el := te; n_ion := (ni + ni) / 2; t_ion := ti |}.
Proof. reflexivity. Qed.
(** equal densities or equal temperatures *)
Theorem C99_quasineutral_partial : forall g ne te ni ti, c_species g = [el ne te; io ni ti] -> 0 < ne -> 0 < ni -> 0 < te -> 0 < ti -> ne = ni \/ te = ti ->
  checked_length g = Ok (debye ne te ni ti).
Proof.
  intros g ne te ni ti Hs N1 N2 T1 T2 HE. unfold checked_length. rewrite Hs, search_two. cbn [n_el n_ion t_el t_ion].
  replace ((ne + ne) / 2) with ne by field. replace ((ni + ni) / 2) with ni by field. unfold debye_length.
  rewrite !rlt_true_i, !req_false_i by lra. cbn [orb]. unfold debye. destruct HE as [->| ->]; [|reflexivity]. do 3 f_equal. ring.
Qed.
(** otherwise the temperatures are exchanged, and the length is wrong *)
Theorem C99_swapped_refuted : forall g ne te ni ti, c_species g = [el ne te; io ni ti] -> 0 < ne -> 0 < ni -> 0 < te -> 0 < ti -> ne <> ni -> te <> ti ->
  exists l, checked_length g = Ok l /\ l = debye ne ti ni te /\ l <> debye ne te ni ti.
Proof.
  intros g ne te ni ti Hs N1 N2 T1 T2 Hn Ht. unfold checked_length. rewrite Hs, search_two. cbn [n_el n_ion t_el t_ion].
  replace ((ne + ne) / 2) with ne by field. replace ((ni + ni) / 2) with ni by field. unfold debye_length.
  rewrite !rlt_true_i, !req_false_i by lra. cbn [orb]. eexists. split; [reflexivity|]. split; [reflexivity|]. unfold debye. intros E.
  assert (I1 : 0 < / te) by now apply Rinv_0_lt_compat. assert (I2 : 0 < / ti) by now apply Rinv_0_lt_compat.
  set (A := ne / ti + ni / te) in *. set (B := ne / te + ni / ti) in *.
  assert (PA : 0 < A) by (unfold A, Rdiv; assert (0 < ne * / ti) by (apply Rmult_lt_0_compat; auto); assert (0 < ni * / te) by (apply Rmult_lt_0_compat; auto); lra).
  assert (PB : 0 < B) by (unfold B, Rdiv; assert (0 < ne * / te) by (apply Rmult_lt_0_compat; auto); assert (0 < ni * / ti) by (apply Rmult_lt_0_compat; auto); lra).
  pose proof (sqrt_lt_R0 A PA) as SA. pose proof (sqrt_lt_R0 B PB) as SB.
  assert (ES : sqrt A = sqrt B).
  { assert (I : / sqrt A = / sqrt B) by (unfold Rdiv in E; apply Rmult_eq_reg_l with (7433944 * / 1000); [exact E|lra]).
    rewrite <- (Rinv_inv (sqrt A)), <- (Rinv_inv (sqrt B)). now rewrite I. }
  apply sqrt_inj in ES; [|lra|lra]. assert (Z : (ne - ni) * (/ ti - / te) = 0) by (unfold A, B, Rdiv in ES; lra).
  apply Rmult_integral in Z as [Z|Z]; [lra|]. apply Ht. rewrite <- (Rinv_inv te), <- (Rinv_inv ti). f_equal. lra.
Qed.
(** the other messages: exactly when the sizes are beyond a hundred lengths, or the macro-particles are too few for the cells in r *)
Theorem C99_messages : forall c g r l, checked_length g = Ok l -> method_check c g = Ok r -> t_el (search (c_species g)) <> 0 ->
  (0 <= c_nr g)%Z -> (c_nr g * c_nr g * 10 < 2 ^ 64)%Z ->
  let macro := f_macro (search (c_species g)) in
  (In GridTooLarge r <-> 100 * l < c_dr g \/ 100 * l < c_dz g) /\ (In SystemTooSmall r <-> c_size_r g < 100 * l \/ c_size_z g < 100 * l) /\
  (In SystemTooLarge r <-> 100 * l * macro < c_size_r g \/ 100 * l * macro < c_size_z g) /\
  (In FewParticles r <-> macro < 10 * IZR (c_nr g) ^ 2).
Proof.
  intros c g r l Hl H Ht Hn0 Hn macro. unfold method_check in H. destruct (negb _ || negb _); [discriminate|]. cbv zeta in H. destruct (req (n_el _) 0); [discriminate|].
  unfold checked_length in Hl. cbv zeta in Hl. rewrite Hl in H. cbn [bind] in H. rewrite (req_false_i _ 0 Ht) in H. injection H as <-.
  rewrite (u64_small (c_nr g * c_nr g)), u64_small by nia. rewrite !mult_IZR. fold macro.
  assert (R1 : forall a b, rlt a b = true <-> a < b) by (intros a b; destruct (rlt_cases a b) as [[A B]|[A B]]; rewrite A; split; intros; try discriminate; auto; lra).
  assert (W : forall b m x, In x (when b m) <-> x = m /\ b = true).
  { intros b m x. unfold when. destruct b; cbn [In]; intuition congruence. }
  repeat split; rewrite ?in_app_iff, ?W, ?orb_true_iff, ?R1; intuition (try discriminate; try lra).
Qed.
Lemma search_no_ion l : (forall s, In s l -> is_ion s = false) -> n_ion (search l) = 0.
Proof.
  intros H. unfold search. assert (G : forall f, n_ion f = 0 -> n_ion (fold_left look l f) = 0); [|now apply G].
  induction l as [|s l IH]; intros f Hf; [exact Hf|]. cbn [fold_left]. apply IH; [intros; apply H; now right|].
  unfold look. rewrite (H s (or_introl eq_refl)). now destruct (is_electron s).
Qed.
(** the names that count *)
Definition ion_names : list string := ["Ions"; "ions"; "Ion"; "ion"]%string.
Definition electron_names : list string := ["Electrons"; "electrons"; "Electron"; "electron"]%string.
Lemma is_ion_names s : is_ion s = true <-> In (sp_name s) ion_names.
Proof.
  unfold is_ion, ion_names. rewrite !orb_true_iff, !String.eqb_eq. cbn [In]. intuition congruence.
Qed.
Lemma is_electron_names s : is_electron s = true <-> In (sp_name s) electron_names \/ sp_mass s = 1%Z.
Proof.
  unfold is_electron, electron_names. rewrite !orb_true_iff, !String.eqb_eq, Z.eqb_eq. cbn [In]. intuition congruence.
Qed.
(** The last species with the name of ions gives the density and temperature of the ions; the last one with the name of electrons
    or mass 1 those of the electrons. *)
Theorem C99_found : forall l1 s l2,
  (In (sp_name s) ion_names -> (forall x, In x l2 -> ~ In (sp_name x) ion_names) ->
     n_ion (search (l1 ++ s :: l2)) = (sp_left s + sp_right s) / 2 /\ t_ion (search (l1 ++ s :: l2)) = sp_temp s) /\
  (In (sp_name s) electron_names \/ sp_mass s = 1%Z -> (forall x, In x l2 -> ~ In (sp_name x) electron_names /\ sp_mass x <> 1%Z) ->
     n_el (search (l1 ++ s :: l2)) = (sp_left s + sp_right s) / 2 /\ t_el (search (l1 ++ s :: l2)) = sp_temp s).
Proof.
  intros l1 s l2. unfold search. rewrite fold_left_app. cbn [fold_left]. set (f0 := fold_left look l1 _). split; intros Hs H.
  - apply is_ion_names in Hs. assert (G : forall f, n_ion f = (sp_left s + sp_right s) / 2 /\ t_ion f = sp_temp s ->
      n_ion (fold_left look l2 f) = (sp_left s + sp_right s) / 2 /\ t_ion (fold_left look l2 f) = sp_temp s).
    { induction l2 as [|x l2 IH]; intros f Hf; [exact Hf|]. cbn [fold_left]. apply IH; [intros; apply H; now right|].
      unfold look. destruct (is_ion x) eqn:E; [apply is_ion_names in E; destruct (H x (or_introl eq_refl) E)|]. now destruct (is_electron x). }
    apply G. unfold look. rewrite Hs. now destruct (is_electron s).
  - apply is_electron_names in Hs. assert (G : forall f, n_el f = (sp_left s + sp_right s) / 2 /\ t_el f = sp_temp s ->
      n_el (fold_left look l2 f) = (sp_left s + sp_right s) / 2 /\ t_el (fold_left look l2 f) = sp_temp s).
    { induction l2 as [|x l2 IH]; intros f Hf; [exact Hf|]. cbn [fold_left]. apply IH; [intros; apply H; now right|].
      unfold look. destruct (is_electron x) eqn:E; [|now destruct (is_ion x)].
      apply is_electron_names in E. destruct (H x (or_introl eq_refl)) as (A & B). destruct E; contradiction. }
    apply G. unfold look. rewrite Hs. now destruct (is_ion s).
Qed.
(** species named otherwise do not count: a plasma without such a name is refused, whatever its species are *)
Theorem C99_ion_name_refuted : forall c g, (forall s, In s (c_species g) -> ~ In (sp_name s) ion_names) -> method_check c g = Fatal.
Proof.
  intros c g H0. assert (H : forall s, In s (c_species g) -> is_ion s = false).
  { intros s Hs. destruct (is_ion s) eqn:E; [|reflexivity]. apply is_ion_names in E. destruct (H0 s Hs E). }
  unfold method_check. destruct (negb _ || negb _); [reflexivity|]. cbv zeta. destruct (req _ 0); [reflexivity|].
  rewrite (search_no_ion _ H). unfold debye_length. rewrite (rlt_false_i 0 0) by lra. now destruct (rlt 0 _).
Qed.
(** ... e.g. hydrogen *)
Example C99_hydrogen : ~ In "H+"%string ion_names /\ In "ion"%string ion_names.
Proof. split; [|cbn; auto]. cbn. intuition discriminate. Qed.
(** of several species of mass 1 only the last one counts, and positrons count as electrons *)
Theorem C99_last_electron_refuted : forall ne te np tp nn ti,
  n_el (search [el ne te; {| sp_name := "positrons"; sp_mass := 1; sp_charge := 1; sp_macro := 1000; sp_left := np; sp_right := np; sp_temp := tp |}; io nn ti]) = np /\
  t_el (search [el ne te; {| sp_name := "positrons"; sp_mass := 1; sp_charge := 1; sp_macro := 1000; sp_left := np; sp_right := np; sp_temp := tp |}; io nn ti]) = tp.
Proof. intros. unfold search. cbn. split; [field|reflexivity]. Qed.

(** * C100: masses and charges *)
(** whole numbers are taken as they are *)
Theorem C100_whole_partial : forall name m q n t el_mass el_charge, (0 <= m < 2 ^ 31)%Z -> (- 2 ^ 31 <= q < 2 ^ 31)%Z ->
  exists s, read_specie name (IZR m) (IZR q) n t = Ok s /\ si_mass el_mass s = IZR m * el_mass /\ si_charge el_charge s = IZR q * el_charge /\
    sp_name s = name /\ sp_left s = n /\ sp_right s = n /\ sp_temp s = t.
Proof.
  intros name m q n t em ec Hm Hq. unfold read_specie, to_s32. rewrite !truncR_IZR.
  replace ((- 2 ^ 31 <=? m) && (m <? 2 ^ 31))%Z with true by (symmetry; lia). replace ((- 2 ^ 31 <=? q) && (q <? 2 ^ 31))%Z with true by (symmetry; lia).
  cbn [bind]. eexists. split; [reflexivity|]. unfold si_mass, si_charge. cbn [sp_mass sp_charge]. rewrite u32_small by lia. repeat split; reflexivity.
Qed.
(** everything else is cut: the error is below one electron mass / charge ... *)
Theorem C100_error : forall name m q n t s, 0 <= m -> read_specie name m q n t = Ok s ->
  IZR (sp_mass s) <= m < IZR (sp_mass s) + 1 /\ Rabs (IZR (sp_charge s)) <= Rabs q < Rabs (IZR (sp_charge s)) + 1.
Proof.
  intros name m q n t s Hm H. unfold read_specie, to_s32 in H.
  destruct ((- 2 ^ 31 <=? truncR m) && (truncR m <? 2 ^ 31))%Z eqn:E; [|discriminate].
  destruct ((- 2 ^ 31 <=? truncR q) && (truncR q <? 2 ^ 31))%Z eqn:F; [|discriminate]. cbn [bind] in H. injection H as <-. cbn [sp_mass sp_charge].
  rewrite truncR_pos in * by auto. pose proof (Int_part_nonneg m Hm). rewrite u32_small by lia. split; [apply Int_part_bounds|].
  unfold truncR. destruct (Rle_dec 0 q) as [Q|Q].
  - pose proof (IZR_le 0 _ (Int_part_nonneg q Q)). rewrite !Rabs_right by lra. apply Int_part_bounds.
  - pose proof (IZR_le 0 _ (Int_part_nonneg (- q) ltac:(lra))). rewrite opp_IZR, Rabs_Ropp. rewrite Rabs_right by lra. rewrite Rabs_left by lra. apply Int_part_bounds.
Qed.
(** ... so light particles lose their mass, and fractions of a charge vanish *)
Theorem C100_fraction_refuted : forall name m q n t, 0 <= m < 1 -> -1 < q < 1 ->
  exists s, read_specie name m q n t = Ok s /\ sp_mass s = 0%Z /\ sp_charge s = 0%Z.
Proof.
  intros name m q n t Hm Hq. unfold read_specie, to_s32. assert (M : truncR m = 0%Z) by (rewrite truncR_pos by lra; apply Int_part_unique; lra).
  assert (Q : truncR q = 0%Z).
  { unfold truncR. destruct (Rle_dec 0 q); [apply Int_part_unique; lra|]. rewrite (Int_part_unique _ 0) by lra. reflexivity. }
  rewrite M, Q. cbn [bind]. eexists. split; [reflexivity|]. auto.
Qed.
Example C100_ex : exists s, read_specie "muons" (2067 / 10) (-1) 1 1 = Ok s /\ sp_mass s = 206%Z /\ sp_charge s = (-1)%Z.
Proof.
  unfold read_specie, to_s32. rewrite truncR_pos by lra. rewrite (Int_part_unique _ 206) by lra. rewrite (truncR_IZR (-1)).
  eexists. repeat split; reflexivity.
Qed.
Print Assumptions C98_domains.
Print Assumptions C98_domains_complete.
Print Assumptions C98_no_domains_refuted.
Print Assumptions C98_clean.
Print Assumptions C98_not_stopped_refuted.
Print Assumptions C98_courant_partial.
Print Assumptions C98_courant_refuted.
Print Assumptions C99_quasineutral_partial.
Print Assumptions C99_swapped_refuted.
Print Assumptions C99_found.
Print Assumptions C99_ion_name_refuted.
Print Assumptions C99_last_electron_refuted.
Print Assumptions C100_whole_partial.
Print Assumptions C100_error.
Print Assumptions C100_fraction_refuted.
Print Assumptions C99_messages.
