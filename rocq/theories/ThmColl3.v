(** Theorems about the relativistic collision operators SK98 and P12: C54 - C56 and C80 - C83. *)
From Coq Require Import Reals Lra Psatz List.
From Verif Require Import Base PushModel ThmPush CollOpModel CollOpProofs ThmColl2.
Import ListNotations.
Open Scope R_scope.

(** * Specification *)
(** total momentum and total energy (divided by c) of two particles are the same before and after *)
Definition conserved (c ma mb : R) (va vb va' vb' : v3) : Prop :=
  vadd (lab_momentum c ma va') (lab_momentum c mb vb') = vadd (lab_momentum c ma va) (lab_momentum c mb vb) /\
  lab_energy c ma va' + lab_energy c mb vb' = lab_energy c ma va + lab_energy c mb vb.
(** opposite momenta *)
Definition head_on (c ma mb : R) (va vb : v3) : Prop := vadd (lab_momentum c ma va) (lab_momentum c mb vb) = zero3.
Definition along_z (p : v3) : Prop := vx p = 0 /\ vy p = 0.

Lemma conserved_sym c ma mb va vb va' vb' : conserved c ma mb va vb va' vb' -> conserved c mb ma vb va vb' va'.
Proof.
  intros [A B]. split; [|lra].
  assert (S : forall a b, vadd a b = vadd b a) by (intros; unfold vadd; f_equal; ring). rewrite (S (lab_momentum c mb vb')), A. apply S.
Qed.
Lemma head_on_sym c ma mb va vb : head_on c ma mb va vb -> head_on c mb ma vb va.
Proof. unfold head_on. intros H. rewrite <- H. unfold vadd. f_equal; ring. Qed.

Section Operators.
Variables (c eps0 hbar mnzl lim step : R).
Hypothesis Hc : 0 < c.

Lemma head_on_beta ma mb va vb : 0 < ma -> 0 < mb -> subluminal c va -> subluminal c vb ->
  (len2 (cm_velocity c ma mb va vb) = 0 <-> head_on c ma mb va vb).
Proof.
  intros Ha Hb Sa Sb. assert (Pa := lab_energy_pos c Hc ma va Ha Sa). assert (Pb := lab_energy_pos c Hc mb vb Hb Sb).
  unfold head_on. split; intros H.
  - rewrite (cm_total c Hc ma mb va vb Ha Hb Sa Sb), (len2_zero _ H). apply scale_zero.
  - unfold cm_velocity. rewrite H, scale_zero. unfold len2, zero3. cbn. ring.
Qed.
Lemma prel_f ma mb va vb : 0 < ma -> 0 < mb -> subluminal c va -> subluminal c vb -> len2 (cm_velocity c ma mb va vb) <> 0 ->
  0 < cm_vrel_val c ma mb va vb -> req (cm_prel (cm_val c ma mb va vb)) 0 = false.
Proof.
  intros Ha Hb Sa Sb N P. assert (G := gam_pos c Hc _ (vrel_slow c Hc ma mb va vb Ha Hb Sa Sb N)). apply req_f.
  unfold cm_val. cbn [cm_prel]. apply Rgt_not_eq. apply Rmult_lt_0_compat; [apply Rmult_lt_0_compat|]; assumption.
Qed.
Lemma off_z p : ~ along_z p -> 0 < vx p * vx p + vy p * vy p.
Proof.
  intros H. unfold along_z in H. destruct (Req_dec (vx p) 0) as [E|N].
  - assert (vy p <> 0) by tauto. rewrite E. assert (Q := sq_pos (vy p) H0). lra.
  - assert (Q := sq_pos (vx p) N). assert (0 <= vy p * vy p) by nra. lra.
Qed.
Lemma on_z p : along_z p -> req (vx p * vx p + vy p * vy p) 0 = true.
Proof. intros [-> ->]. apply req_t. ring. Qed.
Lemma neg_sub p d : vsub (vneg p) d = vneg (vadd p d).
Proof. unfold vsub, vneg, vadd. cbn. f_equal; ring. Qed.
Lemma not_died_veqb va vb : veqb va vb = true -> va = vb.
Proof. unfold veqb. intros E. apply andb_prop in E as [E E3]. apply andb_prop in E as [E1 E2]. apply v3_eq; now apply req_true. Qed.

(** no momentum is left in the center-of-mass frame of particles with equal velocities *)
Lemma same_velocity ma mb va : 0 < ma -> 0 < mb -> subluminal c va -> len2 (cm_velocity c ma mb va va) <> 0 -> cm_momentum c ma mb va va = zero3.
Proof.
  intros Ha Hb Sa N. apply len2_zero. unfold cm_momentum.
  set (gv := gam c va). assert (G := gam_pos c Hc va Sa).
  assert (B : cm_velocity c ma mb va va = vscale (/ c) va).
  { unfold cm_velocity, lab_momentum, lab_energy, mom, vscale, vadd. cbn [vx vy vz]. fold gv. fold gv in G.
    replace (ma * c * gv + mb * c * gv) with ((ma + mb) * c * gv) by ring. f_equal; field; repeat split; lra. }
  rewrite (boost_len _ _ N (cm_factor_sq c Hc ma mb va va Ha Hb Sa Sa)).
  assert (M := mass_shell c Hc ma va Sa).
  assert (F := cm_factor_sq c Hc ma mb va va Ha Hb Sa Sa). rewrite B in F |- *. unfold cm_factor in *. rewrite B in *.
  set (g := / sqrt (1 - len2 (vscale (/ c) va))) in *.
  replace (lab_energy c ma va - vdot (vscale (/ c) va) (lab_momentum c ma va)) with (lab_energy c ma va * (1 - len2 (vscale (/ c) va))).
  2: { unfold lab_energy, lab_momentum, mom, vdot, len2, vscale. cbn [vx vy vz]. field. lra. }
  replace (g * (lab_energy c ma va * (1 - len2 (vscale (/ c) va))) * (g * (lab_energy c ma va * (1 - len2 (vscale (/ c) va)))))
    with ((g * g * (1 - len2 (vscale (/ c) va))) * (lab_energy c ma va * lab_energy c ma va) * (1 - len2 (vscale (/ c) va))) by ring.
  rewrite F. rewrite len2_scale.
  assert (GS := gam_sq c Hc va Sa). assert (C := cc c Hc).
  replace (/ c * / c * len2 va) with (len2 va / (c * c)) by (field; lra).
  replace (len2 (lab_momentum c ma va)) with (lab_energy c ma va * lab_energy c ma va - ma * ma * (c * c)) by lra.
  replace (1 * (lab_energy c ma va * lab_energy c ma va) * (1 - len2 va / (c * c)))
    with (ma * ma * (c * c) * (gam c va * gam c va * (1 - len2 va / (c * c)))) by (unfold lab_energy; ring).
  rewrite GS. ring.
Qed.
Lemma off_z_nonzero p : ~ along_z p -> p <> zero3.
Proof. intros H ->. apply H. split; reflexivity. Qed.

(** * SK98 *)
Section SK98.
Variables (qa qb na nb debye phi : R) (normal : R -> R).
Let sorted := sk98_sorted c eps0 hbar mnzl step.
Let angle_undefined := exists s, normal s = 0.
Lemma sk98_angle_none s cs g v w : sk98_angle s cs g v w = None -> s = 0.
Proof.
  unfold sk98_angle. destruct (req (g * (cs - v / w)) 0); [|discriminate]. destruct (req s 0) eqn:E; [|discriminate].
  intros _. now apply req_true.
Qed.
Lemma sin_theta_zero d : sin_theta d = 0 -> d = 0.
Proof.
  unfold sin_theta. intros H. assert (0 < 1 + d * d) by nra. unfold Rdiv in H. apply Rmult_integral in H as [H|H]; [lra|].
  exfalso. revert H. apply Rinv_neq_0_compat. lra.
Qed.
Lemma sk98_cases ma mb va vb : 0 < ma -> 0 < mb -> subluminal c va -> subluminal c vb ->
  let r := sorted ma mb qa qb va vb na nb debye normal phi in
  r = Pair Keep Keep \/
  (exists va' vb', r = Pair (Set_to va') (Set_to vb') /\ conserved c ma mb va vb va' vb' /\ subluminal c va' /\ subluminal c vb') \/
  (r = Pair SetNaN SetNaN /\ (head_on c ma mb va vb \/ along_z (cm_momentum c ma mb va vb) \/ exists s, normal s = 0)).
Proof.
  intros Ha Hb Sa Sb. cbv zeta. unfold sorted, sk98_sorted. destruct (veqb va vb); [now left|].
  destruct (Req_dec (len2 (cm_velocity c ma mb va vb)) 0) as [E|N].
  { rewrite to_cm_none by assumption. right. right. split; [reflexivity|]. left. now rewrite <- head_on_beta. }
  rewrite to_cm_eq by assumption. destruct (req (cm_prel (cm_val c ma mb va vb)) 0); [now left|].
  destruct (rlt (cm_vrel (cm_val c ma mb va vb)) mnzl); [now left|]. cbv zeta.
  destruct (negb _); [now left|].
  match goal with |- context [sk98_angle (sin_theta ?d) _ _ _ _] => set (delta := d) end.
  destruct (sk98_angle _ _ _ _ _) as [th|] eqn:A.
  2: { right. right. split; [reflexivity|]. right. right. apply sk98_angle_none in A. apply sin_theta_zero in A. eexists. exact A. }
  unfold cm_val. cbn [cm_pa cm_gamma cm_beta cm_p0a cm_p0b].
  set (p := cm_momentum c ma mb va vb).
  destruct (req (vx p * vx p + vy p * vy p) 0) eqn:Z.
  { right. right. split; [reflexivity|]. right. left. apply req_true in Z. unfold along_z. split; nra. }
  right. left. eexists. eexists. split; [reflexivity|]. rewrite neg_sub.
  assert (P : 0 < vx p * vx p + vy p * vy p) by (apply req_false in Z; assert (0 <= vx p * vx p) by nra; assert (0 <= vy p * vy p) by nra; lra).
  assert (T : sin th * sin th + cos th * cos th = 1) by (assert (Q := sin2_cos2 th); exact Q).
  assert (L := sk98_rotation p (sin th) (cos th) phi P T).
  destruct (scattered_conserves c Hc ma mb va vb Ha Hb Sa Sb N _ L) as (C1 & C2 & C3 & C4).
  split; [split; assumption|split; assumption].
Qed.
(** what happens to a pair whose first particle is not the lighter one *)
Lemma sk98_heavy_first ma mb va vb : 0 <= mnzl -> 0 < mb -> mb <= ma -> subluminal c va -> subluminal c vb ->
  let r := sorted ma mb qa qb va vb na nb debye normal phi in r = Pair Keep Keep \/ (r = Pair SetNaN SetNaN /\ head_on c ma mb va vb).
Proof.
  intros Hm Hb Hab Sa Sb. assert (Ha : 0 < ma) by lra. cbv zeta. unfold sorted, sk98_sorted. destruct (veqb va vb); [now left|].
  destruct (Req_dec (len2 (cm_velocity c ma mb va vb)) 0) as [E|N].
  { rewrite to_cm_none by assumption. right. split; [reflexivity|]. now rewrite <- head_on_beta. }
  rewrite to_cm_eq by assumption. left. destruct (req (cm_prel (cm_val c ma mb va vb)) 0) eqn:E; [reflexivity|].
  assert (V := vrel_nonpos c Hc ma mb va vb Ha Hb Sa Sb N Hab). rewrite rlt_t; [reflexivity|].
  unfold cm_val. cbn [cm_vrel]. apply req_false in E. unfold cm_val in E. cbn [cm_prel] in E.
  destruct (Req_dec (cm_vrel_val c ma mb va vb) 0) as [Z|Z]; [|lra]. exfalso. apply E. rewrite Z. ring.
Qed.
(** ... and is *)
Lemma sk98_light_first ma mb va vb : 0 < ma -> ma < mb -> subluminal c va -> subluminal c vb ->
  ~ head_on c ma mb va vb -> mnzl <= cm_vrel_val c ma mb va vb ->
  (forall s, normal s <> 0) -> ~ along_z (cm_momentum c ma mb va vb) ->
  exists va' vb', sorted ma mb qa qb va vb na nb debye normal phi = Pair (Set_to va') (Set_to vb').
Proof.
  intros Ha Hab Sa Sb HO V Hn Z. assert (Hb : 0 < mb) by lra.
  assert (N : len2 (cm_velocity c ma mb va vb) <> 0) by (now rewrite head_on_beta).
  unfold sorted, sk98_sorted. destruct (veqb va vb) eqn:Q.
  { exfalso. apply not_died_veqb in Q. subst vb. apply Z. rewrite same_velocity by assumption. split; reflexivity. }
  rewrite to_cm_eq by assumption. rewrite prel_f by (try assumption; apply vrel_pos; try assumption; now apply off_z_nonzero).
  rewrite rlt_f by (unfold cm_val; cbn [cm_vrel]; lra). cbv zeta.
  rewrite rlt_t. 2: { unfold coulomb_logarithm. eapply Rlt_le_trans; [|apply Rmax_l]. lra. }
  cbn [negb].
  destruct (sk98_angle _ _ _ _ _) as [th|] eqn:A. 2: { apply sk98_angle_none, sin_theta_zero in A. exfalso. exact (Hn _ A). }
  unfold cm_val. cbn [cm_pa cm_gamma cm_beta cm_p0a cm_p0b]. rewrite req_f; [eexists; eexists; reflexivity|].
  assert (P := off_z _ Z). lra.
Qed.
End SK98.

(** * P12 *)
Section P12.
Variables (qa qb na nb debye u phi : R).
Let core := p12_core c eps0 hbar mnzl lim step.
Lemma p12_cases ma mb va vb : 0 < ma -> 0 < mb -> subluminal c va -> subluminal c vb ->
  let r := core ma mb qa qb va vb na nb debye u phi in
  r = P12_return \/
  (exists va' vb', r = P12_scatter (Some va') (Some vb') /\ conserved c ma mb va vb va' vb' /\ subluminal c va' /\ subluminal c vb') \/
  (r = P12_scatter None None /\
   (head_on c ma mb va vb \/ along_z (cm_momentum c ma mb va vb) \/ exists s, p12_cos s u = None \/ exists cs, p12_cos s u = Some cs /\ 1 < cs * cs)).
Proof.
  intros Ha Hb Sa Sb. cbv zeta. unfold core, p12_core. destruct (veqb va vb); [now left|].
  rewrite !lorenz_eq, momentum_eq by assumption.
  destruct (Req_dec (len2 (cm_velocity c ma mb va vb)) 0) as [E|N].
  { rewrite to_cm_none by assumption. destruct (_ || _)%bool; [now left|]. right. right. split; [reflexivity|]. left. now rewrite <- head_on_beta. }
  rewrite to_cm_eq by assumption. destruct (req (cm_prel (cm_val c ma mb va vb)) 0); [now left|].
  destruct (rlt (cm_vrel (cm_val c ma mb va vb)) mnzl); [now left|]. cbv zeta.
  destruct (_ || _)%bool; [now left|].
  match goal with |- context [p12_cos ?x u] => set (s := x) end.
  destruct (p12_cos s u) as [cs|] eqn:A.
  2: { right. right. split; [reflexivity|]. right. right. exists s. now left. }
  destruct (rlt (1 - cs * cs) 0) eqn:E.
  { right. right. split; [reflexivity|]. right. right. exists s. right. exists cs. apply rlt_true in E. split; [exact A|lra]. }
  unfold cm_val. cbn [cm_pa cm_gamma cm_beta cm_p0a cm_p0b].
  set (p := cm_momentum c ma mb va vb).
  destruct (req (vx p * vx p + vy p * vy p) 0) eqn:Z.
  { right. right. split; [reflexivity|]. right. left. apply req_true in Z. unfold along_z. split; nra. }
  right. left. eexists. eexists. split; [reflexivity|]. rewrite p12_rotation_eq.
  assert (P : 0 < vx p * vx p + vy p * vy p) by (apply req_false in Z; assert (0 <= vx p * vx p) by nra; assert (0 <= vy p * vy p) by nra; lra).
  assert (T : sqrt (1 - cs * cs) * sqrt (1 - cs * cs) + cs * cs = 1) by (apply rlt_false in E; rewrite sqrt_sqrt by exact E; ring).
  assert (L := sk98_rotation p (sqrt (1 - cs * cs)) cs phi P T).
  destruct (scattered_conserves c Hc ma mb va vb Ha Hb Sa Sb N _ L) as (C1 & C2 & C3 & C4).
  split; [split; assumption|split; assumption].
Qed.
Lemma p12_heavy_first ma mb va vb : 0 <= mnzl -> 0 < mb -> mb <= ma -> subluminal c va -> subluminal c vb ->
  let r := core ma mb qa qb va vb na nb debye u phi in r = P12_return \/ (r = P12_scatter None None /\ head_on c ma mb va vb).
Proof.
  intros Hm Hb Hab Sa Sb. assert (Ha : 0 < ma) by lra. cbv zeta. unfold core, p12_core. destruct (veqb va vb); [now left|].
  rewrite !lorenz_eq, momentum_eq by assumption.
  destruct (Req_dec (len2 (cm_velocity c ma mb va vb)) 0) as [E|N].
  { rewrite to_cm_none by assumption. destruct (_ || _)%bool; [now left|]. right. split; [reflexivity|]. now rewrite <- head_on_beta. }
  rewrite to_cm_eq by assumption. left. destruct (req (cm_prel (cm_val c ma mb va vb)) 0) eqn:E; [reflexivity|].
  assert (V := vrel_nonpos c Hc ma mb va vb Ha Hb Sa Sb N Hab). rewrite rlt_t; [reflexivity|].
  unfold cm_val. cbn [cm_vrel]. apply req_false in E. unfold cm_val in E. cbn [cm_prel] in E.
  destruct (Req_dec (cm_vrel_val c ma mb va vb) 0) as [Z|Z]; [|lra]. exfalso. apply E. rewrite Z. ring.
Qed.
Lemma p12_light_first ma mb va vb : 0 < ma -> ma < mb -> subluminal c va -> subluminal c vb -> na <> 0 -> nb <> 0 ->
  ~ head_on c ma mb va vb -> mnzl <= cm_vrel_val c ma mb va vb -> ~ along_z (cm_momentum c ma mb va vb) ->
  exists a b, core ma mb qa qb va vb na nb debye u phi = P12_scatter a b.
Proof.
  intros Ha Hab Sa Sb Na Nb HO V Z. assert (Hb : 0 < mb) by lra.
  assert (N : len2 (cm_velocity c ma mb va vb) <> 0) by (now rewrite head_on_beta).
  unfold core, p12_core. destruct (veqb va vb) eqn:Q.
  { exfalso. apply not_died_veqb in Q. subst vb. apply Z. rewrite same_velocity by assumption. split; reflexivity. }
  rewrite !lorenz_eq, momentum_eq, to_cm_eq by assumption. rewrite prel_f by (try assumption; apply vrel_pos; try assumption; now apply off_z_nonzero).
  rewrite rlt_f by (unfold cm_val; cbn [cm_vrel]; lra). rewrite !req_f by assumption. cbn [orb]. cbv zeta.
  destruct (p12_cos _ u) as [cs|]; [|eexists; eexists; reflexivity].
  destruct (rlt (1 - cs * cs) 0); [eexists; eexists; reflexivity|].
  destruct (req _ 0); eexists; eexists; reflexivity.
Qed.
End P12.
End Operators.

(** * The example pair: c = 1, masses 1 and 2, the lighter one with 3/5 of the speed of light along x, the other at rest *)
Definition fast : v3 := V3 (3 / 5) 0 0.
Lemma fast_slow : subluminal 1 fast.
Proof. unfold subluminal, len2, fast. cbn. lra. Qed.
Lemma rest_slow : subluminal 1 zero3.
Proof. unfold subluminal, len2, zero3. cbn. lra. Qed.
Lemma gam_fast : gam 1 fast = 5 / 4.
Proof.
  unfold gam, len2, fast. cbn [vx vy vz]. replace (1 - (3 / 5 * (3 / 5) + 0 * 0 + 0 * 0) / (1 * 1)) with (4 / 5 * (4 / 5)) by field.
  rewrite sqrt_square by lra. field.
Qed.
Lemma gam_rest : gam 1 zero3 = 1.
Proof.
  unfold gam, len2, zero3. cbn [vx vy vz]. replace (1 - (0 * 0 + 0 * 0 + 0 * 0) / (1 * 1)) with 1 by field. rewrite sqrt_1. field.
Qed.
Lemma ex_momentum_a : lab_momentum 1 1 fast = V3 (3 / 4) 0 0.
Proof. unfold lab_momentum, mom. rewrite gam_fast. unfold vscale, fast. cbn. f_equal; field. Qed.
Lemma ex_momentum_b : lab_momentum 1 2 zero3 = zero3.
Proof. unfold lab_momentum, mom. now rewrite !scale_zero. Qed.
Lemma ex_energy_a : lab_energy 1 1 fast = 5 / 4.
Proof. unfold lab_energy. rewrite gam_fast. field. Qed.
Lemma ex_energy_b : lab_energy 1 2 zero3 = 2.
Proof. unfold lab_energy. rewrite gam_rest. field. Qed.
Lemma ex_beta : cm_velocity 1 1 2 fast zero3 = V3 (3 / 13) 0 0.
Proof. unfold cm_velocity. rewrite ex_momentum_a, ex_momentum_b, ex_energy_a, ex_energy_b. unfold vscale, vadd, zero3. cbn. f_equal; field. Qed.
Lemma ex_not_head_on : ~ head_on 1 1 2 fast zero3.
Proof.
  unfold head_on. rewrite ex_momentum_a, ex_momentum_b. intros E. apply (f_equal vx) in E. unfold vadd, zero3 in E. cbn in E. lra.
Qed.
Lemma ex_beta_nz : len2 (cm_velocity 1 1 2 fast zero3) <> 0.
Proof. rewrite ex_beta. unfold len2. cbn. lra. Qed.
Lemma ex_factor : 0 < cm_factor 1 1 2 fast zero3.
Proof. apply cm_factor_pos; try lra; [apply fast_slow|apply rest_slow]. Qed.
Lemma ex_cm_momentum : cm_momentum 1 1 2 fast zero3 = V3 (cm_factor 1 1 2 fast zero3 * (6 / 13)) 0 0.
Proof.
  unfold cm_momentum. rewrite ex_momentum_a, ex_energy_a, ex_beta. set (g := cm_factor 1 1 2 fast zero3).
  unfold boost, vsub, vadd, vscale, vdot, len2. cbn [vx vy vz]. f_equal; field.
Qed.
Lemma ex_off_z : ~ along_z (cm_momentum 1 1 2 fast zero3).
Proof. rewrite ex_cm_momentum. intros [E _]. cbn in E. assert (G := ex_factor). lra. Qed.
Lemma ex_vrel : cm_vrel_val 1 1 2 fast zero3 = 9 / 50.
Proof.
  assert (H1 : 0 < 1) by lra. assert (H2 : 0 < 2) by lra.
  rewrite (cm_vrel_len 1 H1 1 2 fast zero3 H1 H2 fast_slow rest_slow).
  rewrite (cm_dot 1 H1 1 2 fast zero3 H1 H2 fast_slow rest_slow).
  rewrite (va_cm_len 1 H1 1 2 fast zero3 H1 H2 fast_slow rest_slow).
  rewrite (vb_cm_len 1 H1 1 2 fast zero3 H1 H2 fast_slow rest_slow).
  rewrite ex_cm_momentum, ex_momentum_a, ex_momentum_b, ex_energy_a, ex_energy_b, ex_beta. assert (G := ex_factor). set (g := cm_factor 1 1 2 fast zero3) in *.
  clearbody g. unfold vlen, len2, vdot, zero3. cbn [vx vy vz].
  replace (g * (6 / 13) * (g * (6 / 13)) + 0 * 0 + 0 * 0) with (g * (6 / 13) * (g * (6 / 13))) by ring. rewrite sqrt_square by lra.
  field. repeat split; try lra. all: nra.
Qed.

(** * C54: SK98 conserves momentum and energy of a pair *)
(** Missing for the full property: pairs that get velocities that are not numbers, see below.  [Keep]: nothing changes, so
    momentum and energy are conserved *)
Theorem C54_partial : forall c eps0 hbar mnzl step ma mb qa qb pa pb na nb debye normal phi,
  0 < c -> 0 < ma -> 0 < mb -> subluminal c (velocity pa) -> subluminal c (velocity pb) -> 
  let r := sk98_single c eps0 hbar mnzl step ma mb qa qb pa pb na nb debye normal phi in
  r = Pair Keep Keep \/
  (exists va' vb', r = Pair (Set_to va') (Set_to vb') /\ conserved c ma mb (velocity pa) (velocity pb) va' vb' /\
                   subluminal c va' /\ subluminal c vb') \/
  (r = Pair SetNaN SetNaN /\
   (head_on c ma mb (velocity pa) (velocity pb) \/ along_z (cm_momentum c ma mb (velocity pa) (velocity pb)) \/
    along_z (cm_momentum c mb ma (velocity pb) (velocity pa)) \/ exists s, normal s = 0)).
Proof.
  intros c eps0 hbar mnzl step ma mb qa qb pa pb na nb debye normal phi Hc Ha Hb Sa Sb. cbv zeta. unfold sk98_single. cbv zeta.
  destruct (rlt 1 (weight pa / weight pb)).
  - destruct (sk98_cases c eps0 hbar mnzl step Hc qb qa nb na debye phi normal mb ma _ _ Hb Ha Sb Sa) as [E|[(vb' & va' & E & C & S1 & S2)|(E & N)]]; rewrite E; cbn [swap_coll].
    + now left.
    + right. left. exists va', vb'. split; [reflexivity|]. split; [now apply conserved_sym|]. now split.
    + right. right. split; [reflexivity|]. destruct N as [N|[N|N]]; [left; now apply head_on_sym|tauto|tauto].
  - destruct (sk98_cases c eps0 hbar mnzl step Hc qa qb na nb debye phi normal ma mb _ _ Ha Hb Sa Sb) as [E|[E|(E & N)]]; rewrite ?E.
    + now left.
    + right. left. exact E.
    + right. right. split; [reflexivity|]. tauto.
Qed.
(** opposite momenta: the velocities are not numbers afterwards, whatever is drawn *)
Lemma nan_head_on c eps0 hbar mnzl step ma mb qa qb va vb na nb debye normal phi :
  0 < c -> 0 < ma -> 0 < mb -> subluminal c va -> subluminal c vb -> head_on c ma mb va vb -> va <> vb ->
  sk98_sorted c eps0 hbar mnzl step ma mb qa qb va vb na nb debye normal phi = Pair SetNaN SetNaN.
Proof.
  intros Hc Ha Hb Sa Sb H D. unfold sk98_sorted. rewrite veqb_f by exact D. rewrite to_cm_none; try assumption; [reflexivity|].
  now apply head_on_beta.
Qed.
Theorem C54_head_on_refuted : forall c eps0 hbar mnzl step ma mb qa qb pa pb na nb debye normal phi,
  0 < c -> 0 < ma -> 0 < mb -> subluminal c (velocity pa) -> subluminal c (velocity pb) ->
  head_on c ma mb (velocity pa) (velocity pb) -> velocity pa <> velocity pb ->
  sk98_single c eps0 hbar mnzl step ma mb qa qb pa pb na nb debye normal phi = Pair SetNaN SetNaN.
Proof.
  intros. unfold sk98_single. cbv zeta. destruct (rlt 1 (weight pa / weight pb)).
  - rewrite nan_head_on; try assumption; [reflexivity|now apply head_on_sym|congruence].
  - now apply nan_head_on.
Qed.
(** relative motion along z, the direction of the beams: never scattered into numbers *)
Theorem C54_along_z_refuted : forall c eps0 hbar mnzl step ma mb qa qb pa pb na nb debye normal phi,
  0 < c -> 0 < ma -> ma < mb -> weight pa <= weight pb -> 0 < weight pa ->
  subluminal c (velocity pa) -> subluminal c (velocity pb) ->
  ~ head_on c ma mb (velocity pa) (velocity pb) ->
  along_z (cm_momentum c ma mb (velocity pa) (velocity pb)) -> cm_momentum c ma mb (velocity pa) (velocity pb) <> zero3 ->
  mnzl <= cm_vrel_val c ma mb (velocity pa) (velocity pb) ->
  sk98_single c eps0 hbar mnzl step ma mb qa qb pa pb na nb debye normal phi = Pair SetNaN SetNaN.
Proof.
  intros c eps0 hbar mnzl step ma mb qa qb pa pb na nb debye normal phi Hc Ha Hab W W0 Sa Sb HO Z NZ V. assert (Hb : 0 < mb) by lra.
  unfold sk98_single. cbv zeta. rewrite rlt_f. 2: { apply Rmult_le_reg_r with (weight pb); [lra|]. unfold Rdiv. rewrite Rmult_assoc, Rinv_l by lra. lra. }
  assert (N : len2 (cm_velocity c ma mb (velocity pa) (velocity pb)) <> 0) by (now rewrite head_on_beta).
  unfold sk98_sorted. destruct (veqb (velocity pa) (velocity pb)) eqn:Q.
  { exfalso. apply not_died_veqb in Q. rewrite <- Q in *. apply NZ. now apply same_velocity. }
  rewrite to_cm_eq by assumption. rewrite prel_f by (try assumption; now apply vrel_pos).
  rewrite rlt_f by (unfold cm_val; cbn [cm_vrel]; lra). cbv zeta.
  rewrite rlt_t. 2: { unfold coulomb_logarithm. eapply Rlt_le_trans; [|apply Rmax_l]. lra. }
  cbn [negb]. destruct (sk98_angle _ _ _ _ _); [|reflexivity].
  unfold cm_val. cbn [cm_pa cm_gamma cm_beta cm_p0a cm_p0b]. now rewrite on_z.
Qed.
(** the example pair is scattered, and conserves; two equal particles that meet head-on become not-a-number *)
Example C54_ex : exists va' vb',
  sk98_single 1 1 1 (1 / 10 ^ 15) 1 1 2 (-1) 1 (Part 1 fast) (Part 1 zero3) 1 1 1 (fun _ => 1) 0 = Pair (Set_to va') (Set_to vb') /\
  conserved 1 1 2 fast zero3 va' vb' /\ subluminal 1 va' /\ subluminal 1 vb'.
Proof.
  assert (H1 : 0 < 1) by lra. assert (H2 : 0 < 2) by lra.
  destruct (sk98_light_first 1 1 1 (1 / 10 ^ 15) 1 H1 (-1) 1 1 1 1 0 (fun _ => 1) 1 2 fast zero3) as (va' & vb' & E);
    try assumption; try lra; try apply fast_slow; try apply rest_slow; try apply ex_not_head_on; try apply ex_off_z.
  { rewrite ex_vrel. lra. } { intros _. lra. }
  assert (S : sk98_single 1 1 1 (1 / 10 ^ 15) 1 1 2 (-1) 1 (Part 1 fast) (Part 1 zero3) 1 1 1 (fun _ => 1) 0 = Pair (Set_to va') (Set_to vb')).
  { unfold sk98_single. cbn [weight velocity]. cbv zeta. rewrite rlt_f by lra. exact E. }
  destruct (C54_partial 1 1 1 (1 / 10 ^ 15) 1 1 2 (-1) 1 (Part 1 fast) (Part 1 zero3) 1 1 1 (fun _ => 1) 0 H1 H1 H2 fast_slow rest_slow) as [F|[(a & b & F & R)|(F & _)]];
    rewrite S in F; try discriminate.
  injection F as <- <-. exists va', vb'. split; [exact S|]. exact R.
Qed.
Example C54_head_on_ex : head_on 1 1 1 fast (vneg fast) /\ fast <> vneg fast /\ subluminal 1 (vneg fast).
Proof.
  split; [|split].
  - unfold head_on, lab_momentum, mom. assert (G : gam 1 (vneg fast) = gam 1 fast) by (unfold gam; now rewrite len2_neg). rewrite G.
    unfold vadd, vscale, vneg, fast, zero3. cbn. f_equal; ring.
  - intros E. apply (f_equal vx) in E. cbn in E. lra.
  - unfold subluminal. rewrite len2_neg. apply fast_slow.
Qed.
(** the electron moves along z *)
Example C54_along_z_ex : forall normal phi,
  sk98_single 1 1 1 0 1 1 2 (-1) 1 (Part 1 (V3 0 0 (3 / 5))) (Part 1 zero3) 1 1 1 normal phi = Pair SetNaN SetNaN.
Proof.
  intros normal phi. assert (H1 : 0 < 1) by lra. assert (H2 : 0 < 2) by lra.
  assert (S : subluminal 1 (V3 0 0 (3 / 5))) by (unfold subluminal, len2; cbn; lra).
  assert (G : gam 1 (V3 0 0 (3 / 5)) = 5 / 4).
  { rewrite <- gam_fast. unfold gam, len2, fast. cbn [vx vy vz]. do 2 f_equal. field. }
  assert (P : lab_momentum 1 1 (V3 0 0 (3 / 5)) = V3 0 0 (3 / 4)).
  { unfold lab_momentum, mom. rewrite G. unfold vscale. cbn. f_equal; field. }
  assert (E : lab_energy 1 1 (V3 0 0 (3 / 5)) = 5 / 4) by (unfold lab_energy; rewrite G; field).
  assert (B : cm_velocity 1 1 2 (V3 0 0 (3 / 5)) zero3 = V3 0 0 (3 / 13)).
  { unfold cm_velocity. rewrite P, ex_momentum_b, E, ex_energy_b. unfold vscale, vadd, zero3. cbn. f_equal; field. }
  assert (HO : ~ head_on 1 1 2 (V3 0 0 (3 / 5)) zero3).
  { unfold head_on. rewrite P, ex_momentum_b. intros F. apply (f_equal vz) in F. unfold vadd, zero3 in F. cbn in F. lra. }
  assert (N : len2 (cm_velocity 1 1 2 (V3 0 0 (3 / 5)) zero3) <> 0) by (rewrite B; unfold len2; cbn; lra).
  assert (F := cm_factor_pos 1 H1 1 2 (V3 0 0 (3 / 5)) zero3 H1 H2 S rest_slow).
  assert (M : cm_momentum 1 1 2 (V3 0 0 (3 / 5)) zero3 = V3 0 0 (cm_factor 1 1 2 (V3 0 0 (3 / 5)) zero3 * (6 / 13))).
  { unfold cm_momentum. rewrite P, E, B. set (g := cm_factor _ _ _ _ _). unfold boost, vsub, vadd, vscale, vdot, len2. cbn [vx vy vz]. f_equal; field. }
  assert (NZ : cm_momentum 1 1 2 (V3 0 0 (3 / 5)) zero3 <> zero3).
  { rewrite M. intros X. apply (f_equal vz) in X. cbn in X. lra. }
  apply C54_along_z_refuted; cbn [weight velocity]; try lra; try assumption; try apply rest_slow.
  - rewrite M. split; reflexivity.
  - left. apply vrel_pos; try assumption; try lra. apply rest_slow.
Qed.

(** * C55: like particles scatter *)
(** In fact no pair of equal masses is ever scattered: the velocity either is kept or is not a number afterwards *)
Theorem C55_sk98_refuted : forall c eps0 hbar mnzl step m qa qb pa pb na nb debye normal phi,
  0 < c -> 0 <= mnzl -> 0 < m -> subluminal c (velocity pa) -> subluminal c (velocity pb) ->
  let r := sk98_single c eps0 hbar mnzl step m m qa qb pa pb na nb debye normal phi in
  r = Pair Keep Keep \/ (r = Pair SetNaN SetNaN /\ head_on c m m (velocity pa) (velocity pb)).
Proof.
  intros c eps0 hbar mnzl step m qa qb pa pb na nb debye normal phi Hc Hm H Sa Sb. cbv zeta. unfold sk98_single. cbv zeta.
  destruct (rlt 1 (weight pa / weight pb)).
  - destruct (sk98_heavy_first c eps0 hbar mnzl step Hc qb qa nb na debye phi normal m m _ _ Hm H (Rle_refl m) Sb Sa) as [E|[E O]]; rewrite E; cbn [swap_coll]; [now left|].
    right. split; [reflexivity|]. now apply head_on_sym.
  - destruct (sk98_heavy_first c eps0 hbar mnzl step Hc qa qb na nb debye phi normal m m _ _ Hm H (Rle_refl m) Sa Sb) as [E|[E O]]; rewrite E; [now left|now right].
Qed.
Theorem C55_p12_refuted : forall c eps0 hbar mnzl lim step m qa qb pa pb na nb debye u phi U,
  0 < c -> 0 <= mnzl -> 0 < m -> subluminal c (velocity pa) -> subluminal c (velocity pb) ->
  ~ head_on c m m (velocity pa) (velocity pb) ->
  p12_single c eps0 hbar mnzl lim step m m qa qb pa pb na nb debye u phi U = Pair Keep Keep.
Proof.
  intros c eps0 hbar mnzl lim step m qa qb pa pb na nb debye u phi U Hc Hm H Sa Sb HO. unfold p12_single. cbv zeta.
  destruct (rlt 1 (weight pa / weight pb)).
  - destruct (p12_heavy_first c eps0 hbar mnzl lim step Hc qb qa nb na debye u phi m m _ _ Hm H (Rle_refl m) Sb Sa) as [E|[E O]]; [now rewrite E|].
    exfalso. apply HO. now apply head_on_sym.
  - destruct (p12_heavy_first c eps0 hbar mnzl lim step Hc qa qb na nb debye u phi m m _ _ Hm H (Rle_refl m) Sa Sb) as [E|[E O]]; [now rewrite E|contradiction].
Qed.
(** an instance: two electrons, one at rest *)
Example C55_ex : forall qa qb na nb debye normal phi step,
  sk98_single 1 1 1 (1 / 10 ^ 15) step 1 1 qa qb (Part 1 fast) (Part 1 zero3) na nb debye normal phi = Pair Keep Keep.
Proof.
  intros. assert (H1 : 0 < 1) by lra.
  destruct (C55_sk98_refuted 1 1 1 (1 / 10 ^ 15) step 1 qa qb (Part 1 fast) (Part 1 zero3) na nb debye normal phi H1) as [E|[_ O]];
    [lra|lra|apply fast_slow|apply rest_slow|exact E|].
  exfalso. unfold head_on in O. cbn [velocity] in O. rewrite ex_momentum_a in O. unfold lab_momentum, mom in O. rewrite !scale_zero, add_zero in O.
  apply (f_equal vx) in O. cbn in O. lra.
Qed.

(** * C80: an electron and an ion scatter whichever macro-particle is heavier *)
(** first particle: lighter species.  Missing: the case of C80_refuted *)
Theorem C80_partial : forall c eps0 hbar mnzl lim step ma mb qa qb pa pb na nb debye normal u phi,
  0 < c -> 0 < ma -> ma < mb -> 0 < weight pa -> weight pa <= weight pb ->
  subluminal c (velocity pa) -> subluminal c (velocity pb) -> na <> 0 -> nb <> 0 ->
  ~ head_on c ma mb (velocity pa) (velocity pb) -> ~ along_z (cm_momentum c ma mb (velocity pa) (velocity pb)) ->
  mnzl <= cm_vrel_val c ma mb (velocity pa) (velocity pb) -> (forall s, normal s <> 0) ->
  (exists va' vb', sk98_single c eps0 hbar mnzl step ma mb qa qb pa pb na nb debye normal phi = Pair (Set_to va') (Set_to vb')) /\
  (exists a b, p12_core c eps0 hbar mnzl lim step ma mb qa qb (velocity pa) (velocity pb) na nb debye u phi = P12_scatter a b).
Proof.
  intros c eps0 hbar mnzl lim step ma mb qa qb pa pb na nb debye normal u phi Hc Ha Hab W0 W Sa Sb Na Nb HO Z V Hn. split.
  - unfold sk98_single. cbv zeta. rewrite rlt_f. 2: { apply Rmult_le_reg_r with (weight pb); [lra|]. unfold Rdiv. rewrite Rmult_assoc, Rinv_l by lra. lra. }
    now apply sk98_light_first.
  - now apply p12_light_first.
Qed.
(** the electron has the larger weight: nothing happens, or the velocities are not numbers *)
Theorem C80_refuted : forall c eps0 hbar mnzl lim step ma mb qa qb pa pb na nb debye normal u phi U,
  0 < c -> 0 <= mnzl -> 0 < ma -> ma <= mb -> 0 < weight pb -> weight pb < weight pa ->
  subluminal c (velocity pa) -> subluminal c (velocity pb) -> ~ head_on c ma mb (velocity pa) (velocity pb) ->
  sk98_single c eps0 hbar mnzl step ma mb qa qb pa pb na nb debye normal phi = Pair Keep Keep /\
  p12_single c eps0 hbar mnzl lim step ma mb qa qb pa pb na nb debye u phi U = Pair Keep Keep.
Proof.
  intros c eps0 hbar mnzl lim step ma mb qa qb pa pb na nb debye normal u phi U Hc Hm Ha Hab W0 W Sa Sb HO.
  assert (Q : rlt 1 (weight pa / weight pb) = true).
  { apply rlt_t. apply Rmult_lt_reg_r with (weight pb); [lra|]. unfold Rdiv. rewrite Rmult_assoc, Rinv_l by lra. lra. }
  split.
  - unfold sk98_single. cbv zeta. rewrite Q.
    destruct (sk98_heavy_first c eps0 hbar mnzl step Hc qb qa nb na debye phi normal mb ma _ _ Hm Ha Hab Sb Sa) as [E|[E O]]; [now rewrite E|].
    exfalso. apply HO. now apply head_on_sym.
  - unfold p12_single. cbv zeta. rewrite Q.
    destruct (p12_heavy_first c eps0 hbar mnzl lim step Hc qb qa nb na debye u phi mb ma _ _ Hm Ha Hab Sb Sa) as [E|[E O]]; [now rewrite E|].
    exfalso. apply HO. now apply head_on_sym.
Qed.
(** the example pair: weight 1 for both, it scatters; weight 2 for the electron, it does not *)
Example C80_ex : forall normal phi, (forall s, normal s <> 0) ->
  (exists va' vb', sk98_single 1 1 1 (1 / 10 ^ 15) 1 1 2 (-1) 1 (Part 1 fast) (Part 1 zero3) 1 1 1 normal phi = Pair (Set_to va') (Set_to vb')) /\
  sk98_single 1 1 1 (1 / 10 ^ 15) 1 1 2 (-1) 1 (Part 2 fast) (Part 1 zero3) 1 1 1 normal phi = Pair Keep Keep.
Proof.
  intros normal phi Hn. assert (H1 : 0 < 1) by lra. split.
  - destruct (C80_partial 1 1 1 (1 / 10 ^ 15) 1 1 1 2 (-1) 1 (Part 1 fast) (Part 1 zero3) 1 1 1 normal 1 phi) as [E _]; cbn [weight velocity];
      try lra; try apply fast_slow; try apply rest_slow; try apply ex_not_head_on; try apply ex_off_z; [rewrite ex_vrel; lra|exact Hn|exact E].
  - destruct (C80_refuted 1 1 1 (1 / 10 ^ 15) 1 1 1 2 (-1) 1 (Part 2 fast) (Part 1 zero3) 1 1 1 normal 1 phi 1) as [E _]; cbn [weight velocity];
      try lra; try apply fast_slow; try apply rest_slow; try apply ex_not_head_on. exact E.
Qed.

(** * C56: P12 sets a scattered velocity or none *)
(** ** Specification *)
(** the velocity is kept or becomes the scattered one *)
Definition kept_or (v : option v3) (u : update) : Prop := u = Keep \/ u = match v with Some v => Set_to v | None => SetNaN end.
(** Missing: the draw between the weights with the heavier macro-particle first *)
Theorem C56_partial : forall c eps0 hbar mnzl lim step ma mb qa qb pa pb na nb debye u phi U a b,
  0 < weight pa -> 0 < weight pb ->
  (weight pa <= weight pb ->
   p12_core c eps0 hbar mnzl lim step ma mb qa qb (velocity pa) (velocity pb) na nb debye u phi = P12_scatter a b) ->
  (weight pb < weight pa ->
   p12_core c eps0 hbar mnzl lim step mb ma qb qa (velocity pb) (velocity pa) nb na debye u phi = P12_scatter b a) ->
  weight pa <= weight pb \/ U < weight pb \/ weight pa <= U ->
  exists ua ub, p12_single c eps0 hbar mnzl lim step ma mb qa qb pa pb na nb debye u phi U = Pair ua ub /\ kept_or a ua /\ kept_or b ub.
Proof.
  intros c eps0 hbar mnzl lim step ma mb qa qb pa pb na nb debye u phi U a b Wa Wb H1 H2 H. unfold p12_single. cbv zeta.
  assert (Q : weight pa / weight pb * weight pb = weight pa) by (field; lra).
  destruct (rlt 1 (weight pa / weight pb)) eqn:R.
  - apply rlt_true in R. assert (weight pb < weight pa) by nra. rewrite H2 by assumption. eexists. eexists. split; [reflexivity|].
    unfold kept_or, p12_prime. destruct (rlt U (weight pb)) eqn:E1; [apply rlt_true in E1|apply rlt_false in E1].
    + rewrite rlt_t by lra. split; right; reflexivity.
    + rewrite rlt_f by lra. split; now left.
  - apply rlt_false in R. assert (weight pa <= weight pb) by nra. rewrite H1 by assumption. eexists. eexists. split; [reflexivity|].
    unfold kept_or, p12_prime. split.
    + destruct (rlt U (weight pa)); [now right|now left].
    + destruct (rlt U (weight pb)); [now right|now left].
Qed.
(** otherwise the particle of lower weight is stopped and the other one keeps its velocity *)
Theorem C56_refuted : forall c eps0 hbar mnzl lim step ma mb qa qb pa pb na nb debye u phi U a b,
  0 < weight pb -> weight pb <= U -> U < weight pa ->
  p12_core c eps0 hbar mnzl lim step mb ma qb qa (velocity pb) (velocity pa) nb na debye u phi = P12_scatter b a ->
  p12_single c eps0 hbar mnzl lim step ma mb qa qb pa pb na nb debye u phi U = Pair Keep (Set_to zero3).
Proof.
  intros c eps0 hbar mnzl lim step ma mb qa qb pa pb na nb debye u phi U a b Wb U1 U2 H. unfold p12_single. cbv zeta.
  rewrite rlt_t. 2: { apply Rmult_lt_reg_r with (weight pb); [lra|]. unfold Rdiv. rewrite Rmult_assoc, Rinv_l by lra. lra. }
  rewrite H. unfold p12_prime. rewrite (rlt_f U (weight pb)) by lra. rewrite rlt_t by lra. reflexivity.
Qed.
(** ion of weight 1, electron of weight 1/4, draw 1/2: the electron is stopped *)
Example C56_ex : forall lim phi u, 
  p12_single 1 1 1 (1 / 10 ^ 15) lim 1 2 1 1 (-1) (Part 1 zero3) (Part (1 / 4) fast) 1 1 1 u phi (1 / 2) = Pair Keep (Set_to zero3).
Proof.
  intros. assert (H1 : 0 < 1) by lra.
  destruct (p12_light_first 1 1 1 (1 / 10 ^ 15) lim 1 H1 (-1) 1 1 1 1 u phi 1 2 fast zero3) as (a & b & E);
    try lra; try apply fast_slow; try apply rest_slow; try apply ex_not_head_on; try apply ex_off_z; [rewrite ex_vrel; lra|].
  eapply C56_refuted with (a := b) (b := a); cbn [weight velocity]; try lra. exact E.
Qed.

(** * C81: P12 conserves momentum and energy of a pair that is deflected *)
Theorem C81_conserved : forall c eps0 hbar mnzl lim step ma mb qa qb va vb na nb debye u phi va' vb',
  0 < c -> 0 < ma -> 0 < mb -> subluminal c va -> subluminal c vb ->
  p12_core c eps0 hbar mnzl lim step ma mb qa qb va vb na nb debye u phi = P12_scatter (Some va') (Some vb') ->
  conserved c ma mb va vb va' vb' /\ subluminal c va' /\ subluminal c vb'.
Proof.
  intros c eps0 hbar mnzl lim step ma mb qa qb va vb na nb debye u phi va' vb' Hc Ha Hb Sa Sb E.
  destruct (p12_cases c eps0 hbar mnzl lim step Hc qa qb na nb debye u phi ma mb va vb Ha Hb Sa Sb) as [F|[(x & y & F & R)|(F & _)]];
    rewrite E in F; try discriminate. injection F as <- <-. exact R.
Qed.
(** macro-particles of weight 1 and more: both are always deflected, so all of collide_single conserves pairwise or gives
    velocities that are not numbers.  Missing: those *)
Theorem C81_partial : forall c eps0 hbar mnzl lim step ma mb qa qb pa pb na nb debye u phi U,
  0 < c -> 0 < ma -> 0 < mb -> subluminal c (velocity pa) -> subluminal c (velocity pb) ->
  1 <= weight pa -> 1 <= weight pb -> U < 1 ->
  let r := p12_single c eps0 hbar mnzl lim step ma mb qa qb pa pb na nb debye u phi U in
  r = Pair Keep Keep \/
  (exists va' vb', r = Pair (Set_to va') (Set_to vb') /\ conserved c ma mb (velocity pa) (velocity pb) va' vb' /\
                   subluminal c va' /\ subluminal c vb') \/
  (r = Pair SetNaN SetNaN /\
   (head_on c ma mb (velocity pa) (velocity pb) \/ along_z (cm_momentum c ma mb (velocity pa) (velocity pb)) \/
    along_z (cm_momentum c mb ma (velocity pb) (velocity pa)) \/
    exists s, p12_cos s u = None \/ exists cs, p12_cos s u = Some cs /\ 1 < cs * cs)).
Proof.
  intros c eps0 hbar mnzl lim step ma mb qa qb pa pb na nb debye u phi U Hc Ha Hb Sa Sb Wa Wb HU. cbv zeta. unfold p12_single. cbv zeta.
  destruct (rlt 1 (weight pa / weight pb)).
  - destruct (p12_cases c eps0 hbar mnzl lim step Hc qb qa nb na debye u phi mb ma _ _ Hb Ha Sb Sa) as [E|[(vb' & va' & E & C & S1 & S2)|(E & N)]]; rewrite E.
    + now left.
    + right. left. exists va', vb'. unfold p12_prime. rewrite !rlt_t by lra. split; [reflexivity|]. split; [now apply conserved_sym|]. now split.
    + right. right. unfold p12_prime. rewrite !rlt_t by lra. split; [reflexivity|]. destruct N as [N|[N|N]]; [left; now apply head_on_sym|tauto|tauto].
  - destruct (p12_cases c eps0 hbar mnzl lim step Hc qa qb na nb debye u phi ma mb _ _ Ha Hb Sa Sb) as [E|[(va' & vb' & E & C & S1 & S2)|(E & N)]]; rewrite E.
    + now left.
    + right. left. exists va', vb'. unfold p12_prime. rewrite !rlt_t by lra. split; [reflexivity|]. split; [exact C|]. now split.
    + right. right. unfold p12_prime. rewrite !rlt_t by lra. split; [reflexivity|]. tauto.
Qed.
Theorem C81_head_on_refuted : forall c eps0 hbar mnzl lim step ma mb qa qb va vb na nb debye u phi,
  0 < c -> 0 < ma -> 0 < mb -> subluminal c va -> subluminal c vb -> na <> 0 -> nb <> 0 ->
  head_on c ma mb va vb -> va <> vb ->
  p12_core c eps0 hbar mnzl lim step ma mb qa qb va vb na nb debye u phi = P12_scatter None None.
Proof.
  intros c eps0 hbar mnzl lim step ma mb qa qb va vb na nb debye u phi Hc Ha Hb Sa Sb Na Nb H D. unfold p12_core.
  rewrite veqb_f by exact D. rewrite to_cm_none; try assumption; [|now apply head_on_beta]. rewrite !req_f by assumption. reflexivity.
Qed.

(** * C82: the cosine of the scattering angle is one *)
Lemma ainv_pos s : 0 <= s -> 0 < p12_ainv s.
Proof.
  intros H. unfold p12_ainv.
  assert (A : 0 <= s * (9560202 / 10000000 - 508139 / 1000000 * s + 1 / 10 * s ^ 2)).
  { apply Rmult_le_pos; [exact H|]. assert (X := Rle_0_sqr (s - 254 / 100)). unfold Rsqr in X. nra. }
  assert (B : 0 <= s ^ 3 * (37913906 / 100000000 - 12788975 / 100000000 * s + 2389567 / 100000000 * s ^ 2)).
  { apply Rmult_le_pos; [apply pow_le; exact H|]. assert (X := Rle_0_sqr (s - 267 / 100)). unfold Rsqr in X. nra. }
  nra.
Qed.
Lemma log_range a u : 0 < a -> 0 <= u <= 1 -> -1 <= / a * ln (exp (- a) + 2 * u * sinh a) <= 1.
Proof.
  intros Ha Hu. unfold sinh. assert (P := exp_pos a). assert (Q := exp_pos (- a)).
  assert (O : exp (- a) < exp a) by (apply exp_increasing; lra).
  set (y := exp (- a) + 2 * u * ((exp a - exp (- a)) / 2)).
  assert (Y : exp (- a) <= y <= exp a) by (unfold y; split; nra).
  assert (L1 : - a <= ln y). { rewrite <- (ln_exp (- a)). destruct (Req_dec (exp (- a)) y) as [->|D]; [apply Rle_refl|]. left. apply ln_increasing; lra. }
  assert (L2 : ln y <= a). { rewrite <- (ln_exp a). destruct (Req_dec y (exp a)) as [->|D]; [apply Rle_refl|]. left. apply ln_increasing; lra. }
  assert (I := Rinv_0_lt_compat a Ha). assert (E : / a * a = 1) by (field; lra). clearbody y. split; nra.
Qed.
(** Missing: small s with a draw below exp(-2/s) *)
Theorem C82_partial : forall s u, 0 <= s -> 0 < u <= 1 -> 1 / 10 <= s \/ exp (- (2 / s)) <= u ->
  exists cs, p12_cos s u = Some cs /\ -1 <= cs <= 1.
Proof.
  intros s u Hs Hu H. unfold p12_cos. destruct (rlt s (1 / 10)) eqn:E1.
  - apply rlt_true in E1. rewrite req_f by lra. eexists. split; [reflexivity|].
    assert (L : ln u <= 0). { rewrite <- ln_1. destruct (Req_dec u 1) as [->|D]; [apply Rle_refl|]. left. apply ln_increasing; lra. }
    split; [|nra]. destruct H as [H|H]; [lra|]. destruct (Req_dec s 0) as [->|D]; [lra|].
    assert (L2 : - (2 / s) <= ln u). { rewrite <- (ln_exp (- (2 / s))). destruct (Req_dec (exp (- (2 / s))) u) as [->|D2]; [apply Rle_refl|]. left. apply ln_increasing; [apply exp_pos|lra]. }
    assert (F : s * (2 / s) = 2) by (field; lra). nra.
  - apply rlt_false in E1. destruct (rlt s 3) eqn:E2.
    + cbv zeta. eexists. split; [reflexivity|]. assert (A := ainv_pos s Hs). replace (1 / p12_ainv s) with (/ p12_ainv s) by (field; lra).
      assert (I := Rinv_0_lt_compat _ A). assert (X := log_range (/ p12_ainv s) u I). rewrite Rinv_inv in X. apply X. lra.
    + destruct (rlt s 6).
      * cbv zeta. eexists. split; [reflexivity|]. assert (A := exp_pos (- s)). replace (1 / (3 * exp (- s))) with (/ (3 * exp (- s))) by (field; lra).
        apply log_range; lra.
      * eexists. split; [reflexivity|]. lra.
Qed.
(** then the sine is the root of a negative number: the velocities are not numbers *)
Theorem C82_refuted : forall s u, 0 < s < 1 / 10 -> 0 < u < exp (- (2 / s)) -> exists cs, p12_cos s u = Some cs /\ cs < -1.
Proof.
  intros s u Hs Hu. unfold p12_cos. rewrite rlt_t by lra. rewrite req_f by lra. eexists. split; [reflexivity|].
  assert (L : ln u < - (2 / s)) by (rewrite <- (ln_exp (- (2 / s))); apply ln_increasing; lra).
  assert (F : s * (2 / s) = 2) by (field; lra). nra.
Qed.
Theorem C82_zero_refuted : forall s, 0 <= s < 1 / 10 -> p12_cos s 0 = None.
Proof. intros s H. unfold p12_cos. rewrite rlt_t by lra. now rewrite req_t. Qed.
Example C82_ex : exists s u, (0 < s < 1 / 10) /\ 0 < u < exp (- (2 / s)).
Proof. exists (1 / 20), (exp (- (2 / (1 / 20))) / 2). assert (P := exp_pos (- (2 / (1 / 20)))). lra. Qed.

(** * C83: collisions of macro-particles conserve momentum *)
(** momentum of two macro-particles *)
Definition macro_momentum (c ma mb wa wb : R) (va vb : v3) : v3 := vadd (vscale wa (lab_momentum c ma va)) (vscale wb (lab_momentum c mb vb)).
(** the pairwise conservation of C54 and C81 changes it, if the weights differ *)
Theorem C83_change : forall c ma mb wa wb va vb va' vb', conserved c ma mb va vb va' vb' ->
  vsub (macro_momentum c ma mb wa wb va' vb') (macro_momentum c ma mb wa wb va vb) =
  vscale (wa - wb) (vsub (lab_momentum c ma va') (lab_momentum c ma va)).
Proof.
  intros c ma mb wa wb va vb va' vb' [C _]. unfold macro_momentum.
  assert (B : lab_momentum c mb vb' = vsub (vadd (lab_momentum c ma va) (lab_momentum c mb vb)) (lab_momentum c ma va')).
  { rewrite <- C. unfold vsub, vadd. destruct (lab_momentum c mb vb'). cbn. f_equal; ring. }
  rewrite B. unfold vsub, vadd, vscale. cbn. f_equal; ring.
Qed.
Theorem C83_equal_partial : forall c ma mb w va vb va' vb', conserved c ma mb va vb va' vb' ->
  macro_momentum c ma mb w w va' vb' = macro_momentum c ma mb w w va vb.
Proof.
  intros c ma mb w va vb va' vb' [C _]. unfold macro_momentum. assert (S : forall k a b, vadd (vscale k a) (vscale k b) = vscale k (vadd a b)) by (intros; unfold vadd, vscale; cbn; f_equal; ring).
  now rewrite !S, C.
Qed.
Lemma sin_atan_nz x : x <> 0 -> sin (atan x) <> 0.
Proof.
  intros H E. assert (T := tan_atan x). unfold tan in T. rewrite E in T. unfold Rdiv in T. rewrite Rmult_0_l in T. congruence.
Qed.
(** electron of weight 1, ion of weight 2 *)
Theorem C83_refuted : exists va' vb',
  sk98_single 1 1 1 (1 / 10 ^ 15) 1 1 2 (-1) 1 (Part 1 fast) (Part 2 zero3) 1 1 1 (fun _ => 1) (PI / 2) = Pair (Set_to va') (Set_to vb') /\
  macro_momentum 1 1 2 1 2 va' vb' <> macro_momentum 1 1 2 1 2 fast zero3.
Proof.
  assert (H1 : 0 < 1) by lra. assert (H2 : 0 < 2) by lra. assert (G := ex_factor).
  assert (S : exists p, sk98_single 1 1 1 (1 / 10 ^ 15) 1 1 2 (-1) 1 (Part 1 fast) (Part 2 zero3) 1 1 1 (fun _ => 1) (PI / 2) =
     Pair (Set_to (to_velocity 1 1 p)) (Set_to (to_velocity 1 2 (vsub (V3 (3 / 4) 0 0) p))) /\ vy p <> 0).
  2: { destruct S as (p & S & Np).
    exists (to_velocity 1 1 p), (to_velocity 1 2 (vsub (V3 (3 / 4) 0 0) p)). split; [exact S|]. unfold macro_momentum.
    rewrite !to_velocity_momentum by lra. rewrite ex_momentum_a, ex_momentum_b. intros F. apply (f_equal vy) in F.
    unfold vadd, vscale, vsub, zero3 in F. cbn in F. apply Np. lra. }
  unfold sk98_single. cbn [weight velocity]. cbv zeta. rewrite rlt_f by lra. unfold sk98_sorted.
  rewrite veqb_f. 2: { intros E. apply (f_equal vx) in E. cbn in E. lra. }
  rewrite to_cm_eq by (try lra; try apply fast_slow; try apply rest_slow; apply ex_beta_nz).
  rewrite prel_f by (try lra; try apply fast_slow; try apply rest_slow; try apply ex_beta_nz; rewrite ex_vrel; lra).
  rewrite rlt_f by (unfold cm_val; cbn [cm_vrel]; rewrite ex_vrel; lra). cbv zeta.
  rewrite (rlt_t 0). 2: { unfold coulomb_logarithm. eapply Rlt_le_trans; [|apply Rmax_l]. lra. }
  cbn [negb]. unfold sk98_angle. cbv zeta.
  replace (sin_theta 1) with 1 by (unfold sin_theta; field). replace (cos_theta 1) with 0 by (unfold cos_theta; field).
  unfold cm_val. cbn [cm_pa cm_gamma cm_beta cm_p0a cm_p0b cm_vrel].
  rewrite ex_vrel, ex_beta, ex_momentum_a, ex_momentum_b, ex_energy_a, ex_energy_b, ex_cm_momentum.
  assert (FS := cm_factor_sq 1 H1 1 2 fast zero3 H1 H2 fast_slow rest_slow). rewrite ex_beta in FS. unfold len2 in FS. cbn [vx vy vz] in FS.
  set (g := cm_factor 1 1 2 fast zero3) in *. clearbody g.
  assert (L : sqrt (len2 (V3 (3 / 13) 0 0) * (1 * 1)) = 3 / 13).
  { unfold len2. cbn [vx vy vz]. replace ((3 / 13 * (3 / 13) + 0 * 0 + 0 * 0) * (1 * 1)) with (3 / 13 * (3 / 13)) by ring. apply sqrt_square. lra. }
  rewrite L. rewrite req_f by nra.
  set (th := atan (1 / (g * (0 - 3 / 13 / (9 / 50))))).
  assert (T : sin th <> 0). { apply sin_atan_nz. unfold Rdiv. rewrite Rmult_1_l. apply Rinv_neq_0_compat. nra. }
  cbn [vx vy]. rewrite req_f by nra.
  set (d := sk98_delta _ _ _ _). set (p' := vadd (V3 (g * (6 / 13)) 0 0) d).
  exists (unboost g (V3 (3 / 13) 0 0) p' (g * (5 / 4 - vdot (V3 (3 / 13) 0 0) (V3 (3 / 4) 0 0)))). split.
  - f_equal. f_equal. f_equal. rewrite neg_sub. fold p'.
    unfold unboost, vsub, vneg, vadd, vscale, vdot, len2, zero3. cbn [vx vy vz].
    assert (GG : g * g = 169 / 160) by lra.
    f_equal; try field. 
    transitivity (39 / 52 * (160 / 169 * (g * g)) - vx p' - (g - 1) * vx p' - (g * g) * (56 / 52 * (3 / 13)) ); [|rewrite GG; field_simplify_eq; nra].
    nra.
  - unfold unboost, vadd, vscale, vdot. cbn [vx vy vz]. unfold p', vadd. cbn [vx vy vz].
    unfold d, sk98_delta. cbv zeta. cbn [vx vy vz]. rewrite sin_PI2, cos_PI2. unfold vlen, len2. cbn [vx vy vz].
    replace (g * (6 / 13) * (g * (6 / 13)) + 0 * 0 + 0 * 0) with (g * (6 / 13) * (g * (6 / 13))) by ring.
    replace (g * (6 / 13) * (g * (6 / 13)) + 0 * 0) with (g * (6 / 13) * (g * (6 / 13))) by ring. rewrite sqrt_square by lra.
    intros F. apply T.
    assert (X : g * (6 / 13) * sin th = 0). { rewrite <- F. field. lra. }
    apply Rmult_integral in X as [X|X]; [lra|exact X].
Qed.

Print Assumptions C54_partial. Print Assumptions C54_head_on_refuted. Print Assumptions C54_along_z_refuted.
Print Assumptions C55_sk98_refuted. Print Assumptions C55_p12_refuted. Print Assumptions C80_partial. Print Assumptions C80_refuted.
Print Assumptions C56_partial. Print Assumptions C56_refuted. Print Assumptions C81_conserved. Print Assumptions C81_partial.
Print Assumptions C81_head_on_refuted. Print Assumptions C82_partial. Print Assumptions C82_refuted. Print Assumptions C83_change. Print Assumptions C83_refuted.
