(** C117, C118: energy of the fields in a closed cavity and the stability of the field solver. *)
From Coq Require Import ZifyBool Reals Lra Psatz.
From Verif Require Import SumUtil CavityProofs.
From Verif Require Import Base GridModel GridProofs OverlayModel YeeModel YeeProofs ThmYee.
From Verif Require CheckModel ThmCheck.
Open Scope Z_scope.

(** a domain that is the whole area: axis, three walls *)
Definition closed (g : geo) : Prop :=
  g_w0 g = true /\ g_w1 g = true /\ g_w2 g = true /\ g_w3 g = true /\ g_d0 g = 0 /\
  2 <= g_nr g < 2 ^ 32 /\ 2 <= g_nz g < 2 ^ 32 /\ (0 < g_dr g)%R /\ (0 < g_dz g)%R.
(** the values of a grid as functions of the cell numbers *)
Definition fof (f : grid3 R) : field := mkF (lv (c_r f)) (lv (c_phi f)) (lv (c_z f)).
(** no electric field in the cells of the walls, in the azimuthal component on the axis, behind the walls, in the ghost
    cells; E_z of the first cell on the axis is never updated either (maxwellSolverYee.cpp:172 starts at z_begin = 1) *)
Definition sealed (g : geo) (e : grid3 R) : Prop := forall i k, -2 <= i <= g_nr g + 1 -> -2 <= k <= g_nz g + 1 ->
  let inside := (i <? g_nr g - 1) && (k <? g_nz g - 1) in
  (inside && (0 <=? i) && (1 <=? k) = false -> lv (c_r e) i k = 0%R) /\
  (inside && (1 <=? i) && (1 <=? k) = false -> lv (c_phi e) i k = 0%R) /\
  (inside && (0 <=? i) && (0 <=? k) && negb ((i =? 0) && (k =? 0)) = false -> lv (c_z e) i k = 0%R).
(** the magnetic fields are those that calc_field_h makes of the electric field - so after every step, and initially *)
Definition centred (mu : R) (g : geo) (y : yee) : Prop :=
  exists h0 t0, fits3 (g_nr g) (g_nz g) h0 /\ fits3 (g_nr g) (g_nz g) t0 /\ calc_field_h mu g (y_e y) h0 t0 = Ok (y_h y, y_t y).

(** ** the energy; volumes of rings *)
Section Energy.
Variables (mu : R) (g : geo) (eps : grid R).
Definition ring (a b : R) : R := (PI * (b * b - a * a) * g_dz g)%R.
(** around the nodes, around the centres of the cells *)
Definition vol_n (i : Z) : R := if i =? 0 then ring 0 (g_dr g / 2) else ring ((IZR i - / 2) * g_dr g) ((IZR i + / 2) * g_dr g).
Definition vol_c (i : Z) : R := ring (IZR i * g_dr g) ((IZR i + 1) * g_dr g).
(** the same for components that do not exist on the axis *)
Definition vol_p (i : Z) : R := if i =? 0 then 0%R else vol_n i.
Definition vdot_e (a b : grid3 R) (i k : Z) : R :=
  (vol_c i * (lv (c_r a) i k * lv (c_r b) i k) + vol_p i * (lv (c_phi a) i k * lv (c_phi b) i k) + vol_n i * (lv (c_z a) i k * lv (c_z b) i k))%R.
Definition vdot_h (a b : comp -> Z -> Z -> R) (i k : Z) : R :=
  (vol_p i * (a Cr i k * b Cr i k) + vol_c i * (a Cphi i k * b Cphi i k) + vol_c i * (a Cz i k * b Cz i k))%R.
Definition electric (e : grid3 R) : R := sum2 (g_nr g) (g_nz g) (fun i k => / 2 * lv eps i k * vdot_e e e i k)%R.
(** field_h belongs to the time of E, field_h_at_et to half a step later, so 2*field_h - field_h_at_et to half a step before *)
Definition later (y : yee) (c : comp) (i k : Z) : R := lv (getc c (y_t y)) i k.
Definition earlier (y : yee) (c : comp) (i k : Z) : R := (2 * lv (getc c (y_h y)) i k - lv (getc c (y_t y)) i k)%R.
Definition field_energy (y : yee) : R :=
  (electric (y_e y) + sum2 (g_nr g) (g_nz g) (fun i k => mu / 2 * vdot_h (earlier y) (later y) i k))%R.
(** the magnetic energy at the time of E *)
Definition magnetic (y : yee) : R :=
  sum2 (g_nr g) (g_nz g) (fun i k => mu / 2 * vdot_h (fun c => lv (getc c (y_h y))) (fun c => lv (getc c (y_h y))) i k)%R.
(** what the current takes from the field in a step, and what the absorbing layers take *)
Definition mid (e e' : grid3 R) (c : comp) (i k : Z) : R := ((lv (getc c e) i k + lv (getc c e') i k) / 2)%R.
Definition work (j e e' : grid3 R) : R := sum2 (g_nr g) (g_nz g) (fun i k =>
  vol_c i * (lv (c_r j) i k * mid e e' Cr i k) + vol_p i * (lv (c_phi j) i k * mid e e' Cphi i k) + vol_n i * (lv (c_z j) i k * mid e e' Cz i k))%R.
Definition losses (sg : grid R) (e e' : grid3 R) : R := sum2 (g_nr g) (g_nz g) (fun i k =>
  lv sg i k * (vol_c i * (mid e e' Cr i k * mid e e' Cr i k) + vol_p i * (mid e e' Cphi i k * mid e e' Cphi i k) + vol_n i * (mid e e' Cz i k * mid e e' Cz i k)))%R.
(** in the units of [CavityProofs] *)
Definition unit : R := (2 * PI * g_dr g * g_dr g * g_dz g)%R.
Lemma vol_n_eq i : vol_n i = (unit * wn i)%R.
Proof. unfold vol_n, wn, ring, unit. destruct (i =? 0); field. Qed.
Lemma vol_c_eq i : vol_c i = (unit * wc i)%R.
Proof. unfold vol_c, wc, ring, unit. field. Qed.
Lemma vol_p_eq i : vol_p i = (unit * wp i)%R.
Proof. unfold vol_p, wp. destruct (i =? 0) eqn:E; [apply Z.eqb_eq in E; subst; ring|]. rewrite vol_n_eq. unfold wn. now rewrite E. Qed.
Definition fun_of (a : comp -> Z -> Z -> R) : field := mkF (a Cr) (a Cphi) (a Cz).
Lemma energy_eq y : field_energy y = (unit * energy (g_nr g) (g_nz g) mu (lv eps) (fof (y_e y)) (fun_of (earlier y)) (fun_of (later y)))%R.
Proof.
  unfold field_energy, electric, energy, ipw, iph. rewrite Rmult_plus_distr_l, <- !Rmult_assoc, <- !sum2_scal. f_equal; apply sum2_ext; intros i k Hi Hk.
  - unfold vdot_e. rewrite vol_c_eq, vol_p_eq, vol_n_eq. cbn [fof fr fp fz]. ring.
  - unfold vdot_h. rewrite vol_c_eq, vol_p_eq. cbn [fun_of fr fp fz]. field.
Qed.
End Energy.

(** ** the laws of the step *)
Lemma sealed_enclosed g e : closed g -> sealed g e <-> enclosed (g_nr g) (g_nz g) (fof e).
Proof.
  intros (_ & _ & _ & _ & _ & N & M & _). split; intros H i k Hi Hk; destruct (H i k Hi Hk) as (H1 & H2 & H3); cbn [fof fr fp fz] in *; cbv zeta; split; [|split| |split]; intros B.
  - apply H1. unfold dof_r in B. lia.
  - apply H2. unfold dof_p in B. lia.
  - apply H3. unfold dof_z in B. lia.
  - apply H1. unfold dof_r. lia.
  - apply H2. unfold dof_p. lia.
  - apply H3. unfold dof_z. lia.
Qed.
Lemma curl_law mu g e h0 t0 h t : closed g -> (0 < mu)%R -> fits3 (g_nr g) (g_nz g) e -> fits3 (g_nr g) (g_nz g) h0 -> fits3 (g_nr g) (g_nz g) t0 ->
  sealed g e -> calc_field_h mu g e h0 t0 = Ok (h, t) ->
  fits3 (g_nr g) (g_nz g) h /\ fits3 (g_nr g) (g_nz g) t /\
  h_law (g_nr g) (g_nz g) (g_dr g) (g_dz g) (g_dt g) mu (fof t0) (fof t) (fof e) /\
  forall c i k, 0 <= i < g_nr g -> 0 <= k < g_nz g -> (2 * lv (getc c h) i k - lv (getc c t) i k = lv (getc c t0) i k)%R.
Proof.
  intros (W0 & W1 & W2 & W3 & D0 & N & M & Pr & Pz) Pm Fe Fh Ft S E.
  destruct (calc_field_h_spec mu g e Fe h0 t0 Fh Ft ltac:(lia)) as (h' & t' & E' & F1 & F2 & V & _).
  rewrite E in E'. injection E' as <- <-. split; [exact F1|]. split; [exact F2|].
  assert (A : forall i k, 0 <= i < g_nr g -> 0 <= k < g_nz g ->
     alpha_r mu g e i k = (g_dt g / mu * cr (g_dz g) (fof e) i k)%R /\ alpha_phi mu g e i k = (g_dt g / mu * cp (g_dr g) (g_dz g) (fof e) i k)%R /\
     alpha_z mu g e i k = (- (g_dt g / mu * cz (g_dr g) (fof e) i k))%R /\ (wall_times g i * alpha_r mu g e i k = alpha_r mu g e i k)%R).
  { intros i k Hi Hk. assert (Wp : (0 < IZR i + / 2)%R) by (assert (0 <= IZR i)%R by (apply IZR_le; lia); lra).
    repeat split.
    - unfold alpha_r, cr. cbn [fof fp]. field. lra.
    - unfold alpha_phi, cp. cbn [fof fr fz]. field. lra.
    - unfold alpha_z, cz, wc. cbn [fof fp]. rewrite D0, plus_IZR. field. lra.
    - unfold wall_times. destruct (g_w2 g && (i =? g_nr g - 1)) eqn:B; [|ring].
      assert (Z1 : lv (c_phi e) i (k + 1) = 0%R) by (apply (S i (k + 1)); lia). assert (Z0 : lv (c_phi e) i k = 0%R) by (apply (S i k); lia).
      unfold alpha_r. rewrite Z0, Z1. unfold Rdiv. ring. }
  split.
  - intros i k Hi Hk. destruct (V i k Hi Hk) as (V1 & V2 & V3 & _). destruct (A i k Hi Hk) as (A1 & A2 & A3 & A4). cbn [fof fr fp fz].
    rewrite V1, V2, V3, A4, A1, A2, A3. repeat split; ring.
  - intros c i k Hi Hk. destruct (V i k Hi Hk) as (V1 & V2 & V3 & V4 & V5 & V6). destruct (A i k Hi Hk) as (A1 & A2 & A3 & A4).
    destruct c; cbn [getc].
    + rewrite V1, V4. lra.
    + rewrite V2, V5. lra.
    + rewrite V3, V6. lra.
Qed.
Lemma electric_law g t j eps sg e e' : closed g -> fits3 (g_nr g) (g_nz g) t -> fits3 (g_nr g) (g_nz g) j ->
  fits2 (g_nr g) (g_nz g) eps -> fits2 (g_nr g) (g_nz g) sg -> fits3 (g_nr g) (g_nz g) e ->
  (forall i k, 0 <= i < g_nr g -> 0 <= k < g_nz g -> (2 * lv eps i k + lv sg i k * g_dt g <> 0)%R) ->
  calc_field_e g t j eps sg e = Ok e' ->
  fits3 (g_nr g) (g_nz g) e' /\ (sealed g e -> sealed g e') /\
  e_law (g_nr g) (g_nz g) (g_dr g) (g_dz g) (g_dt g) (lv eps) (lv sg) (fof t) (fof j) (fof e) (fof e').
Proof.
  intros (W0 & W1 & W2 & W3 & D0 & N & M & Pr & Pz) Ft Fj F1 F2 Fe Q E.
  destruct (calc_field_e_spec g t j eps sg Ft Fj F1 F2 e Fe ltac:(lia) ltac:(lia)) as (e1 & E1 & Fe1 & V & Out).
  rewrite E in E1. injection E1 as <-. split; [exact Fe1|].
  assert (V' : forall c i k, 0 <= i < g_nr g -> 0 <= k < g_nz g -> lv (getc c e') i k =
     if (1 <=? i) && (i <? g_nr g - 1) && (1 <=? k) && (k <? g_nz g - 1) then new_reg g t j eps sg i k (fun y => lv (getc y e) i k) c
     else if (k =? 0) && (1 <=? i) && (i <? g_nr g - 1) then new_left g t j eps sg i k (fun y => lv (getc y e) i k) c
     else if (i =? 0) && (1 <=? k) && (k <? g_nz g - 1) then new_axis g t j eps sg i k (fun y => lv (getc y e) i k) c else lv (getc c e) i k).
  { intros c i k Hi Hk. rewrite (V c i k Hi Hk). unfold e_cell, lo_r, lo_z, hi_r, hi_z. rewrite W0, W1, W2, W3. reflexivity. }
  split.
  - intros S. apply sealed_enclosed; [repeat split; assumption || lia|]. intros i k Hi Hk. cbn [fof fr fp fz].
    destruct (S i k Hi Hk) as (S1 & S2 & S3).
    assert (B : (0 <= i < g_nr g /\ 0 <= k < g_nz g) \/ ~ (0 <= i < g_nr g /\ 0 <= k < g_nz g)) by lia.
    destruct B as [(Bi & Bk)|B].
    + rewrite (V' Cr i k Bi Bk : lv (c_r e') i k = _), (V' Cphi i k Bi Bk : lv (c_phi e') i k = _), (V' Cz i k Bi Bk : lv (c_z e') i k = _).
      unfold dof_r, dof_p, dof_z.
      repeat split; intros Hd; repeat match goal with |- context [if ?b then _ else _] => destruct b eqn:? end; cbn [new_reg new_left new_axis getc]; try lia;
        first [apply S1; lia | apply S2; lia | apply S3; lia].
    + assert (Iw : inw (g_nr g) (g_nz g) i k) by (unfold inw; lia).
      repeat split; intros _; [apply (Out Cr)|apply (Out Cphi)|apply (Out Cz)]; assumption.
  - intros i k Hi Hk law. specialize (Q i k Hi Hk). cbn [fof fr fp fz].
    assert (K : forall old jc rot, (lv eps i k * (e_upd g eps sg i k old jc rot - old) + lv sg i k * g_dt g / 2 * (e_upd g eps sg i k old jc rot + old) = g_dt g * (- rot - jc))%R).
    { intros. unfold e_upd, ke, kh. field. exact Q. }
    unfold law. repeat split; intros D.
    + rewrite (V' Cr i k Hi Hk : lv (c_r e') i k = _). unfold dof_r in D.
      assert (P : (if (1 <=? i) && (i <? g_nr g - 1) && (1 <=? k) && (k <? g_nz g - 1) then new_reg g t j eps sg i k (fun y => lv (getc y e) i k) Cr
         else if (k =? 0) && (1 <=? i) && (i <? g_nr g - 1) then new_left g t j eps sg i k (fun y => lv (getc y e) i k) Cr
         else if (i =? 0) && (1 <=? k) && (k <? g_nz g - 1) then new_axis g t j eps sg i k (fun y => lv (getc y e) i k) Cr else lv (getc Cr e) i k)
         = e_upd g eps sg i k (lv (c_r e) i k) (lv (c_r j) i k) (rot_r g t i k)).
      { destruct ((1 <=? i) && _ && _ && _) eqn:B1; [reflexivity|]. replace ((k =? 0) && _ && _) with false by lia. replace ((i =? 0) && _ && _) with true by lia. reflexivity. }
      rewrite P, K. unfold rot_r, kr. cbn [fof fp]. unfold Rdiv. ring.
    + rewrite (V' Cphi i k Hi Hk : lv (c_phi e') i k = _). unfold dof_p in D.
      replace ((1 <=? i) && (i <? g_nr g - 1) && (1 <=? k) && (k <? g_nz g - 1)) with true by lia. cbn [new_reg getc]. rewrite K.
      unfold rot_phi, kp. cbn [fof fr fz]. unfold Rdiv. ring.
    + rewrite (V' Cz i k Hi Hk : lv (c_z e') i k = _). unfold dof_z in D. unfold kz. cbn [fof fp].
      destruct (i =? 0) eqn:I0.
      * replace ((1 <=? i) && _ && _ && _) with false by lia. replace ((k =? 0) && _ && _) with false by lia. replace (true && _ && _) with true by lia.
        cbn [new_axis getc]. rewrite K. unfold rot_z_axis. apply Z.eqb_eq in I0. subst i. unfold Rdiv. ring.
      * assert (P1 : (1 <= IZR i)%R) by (apply IZR_le; lia).
        destruct ((1 <=? i) && (i <? g_nr g - 1) && (1 <=? k) && (k <? g_nz g - 1)) eqn:B1; [|replace ((k =? 0) && _ && _) with true by lia];
          cbn [new_reg new_left getc]; rewrite K; unfold rot_z, wc; rewrite D0, Z.add_0_r, minus_IZR; field; lra.
Qed.

(** * C117: energy balance *)
(** Every step is possible, leads to a state of the same kind, and changes the energy by the work of the current and the losses. *)
Theorem C117_balance : forall mu g eps sg j y, closed g -> (0 < mu)%R -> fits2 (g_nr g) (g_nz g) eps -> fits2 (g_nr g) (g_nz g) sg ->
  (forall i k, 0 <= i < g_nr g -> 0 <= k < g_nz g -> (2 * lv eps i k + lv sg i k * g_dt g <> 0)%R) ->
  fits3 (g_nr g) (g_nz g) j -> yee_fits g y -> sealed g (y_e y) -> centred mu g y ->
  exists y', yee_step mu g eps sg j y = Ok y' /\ yee_fits g y' /\ sealed g (y_e y') /\ centred mu g y' /\
    (field_energy mu g eps y' - field_energy mu g eps y = - g_dt g * (work g j (y_e y) (y_e y') + losses g sg (y_e y) (y_e y')))%R.
Proof.
  intros mu g eps sg j y Cl Pm F1 F2 Q Fj (Fe & Fh & Ft) S (h0 & t0 & Fh0 & Ft0 & Ec).
  pose proof Cl as (_ & _ & _ & _ & _ & N & M & Pr & Pz).
  destruct (yee_step_ok mu g eps sg j y ltac:(split; lia) F1 F2 Fj (conj Fe (conj Fh Ft))) as (y' & Ey & Fy'). exists y'. split; [exact Ey|]. split; [exact Fy'|].
  unfold yee_step in Ey. destruct (calc_field_e g (y_t y) j eps sg (y_e y)) as [e'| |] eqn:Ee; cbn [bind] in Ey; try discriminate.
  destruct (calc_field_h mu g e' (y_h y) (y_t y)) as [[h' t']| |] eqn:Eh; cbn [bind] in Ey; try discriminate. injection Ey as <-. cbn [y_e y_h y_t] in *.
  destruct (electric_law g (y_t y) j eps sg (y_e y) e' Cl Ft Fj F1 F2 Fe Q Ee) as (Fe' & S' & Le). specialize (S' S).
  destruct (curl_law mu g (y_e y) h0 t0 _ _ Cl Pm Fe Fh0 Ft0 S Ec) as (_ & _ & L0 & M0).
  destruct (curl_law mu g e' (y_h y) (y_t y) _ _ Cl Pm Fe' Fh Ft S' Eh) as (_ & _ & L1 & M1).
  split; [exact S'|]. split; [exists (y_h y), (y_t y); auto|].
  rewrite !energy_eq.
  assert (B := balance (g_nr g) (g_nz g) ltac:(lia) ltac:(lia) (g_dr g) (g_dz g) Pr Pz (g_dt g) mu (lv eps) (lv sg) Pm (fof t0) (fof (y_t y)) (fof t')
    (fof (y_e y)) (fof e') (fof j) (proj1 (sealed_enclosed g _ Cl) S) (proj1 (sealed_enclosed g _ Cl) S') Le L0 L1).
  assert (X0 : energy (g_nr g) (g_nz g) mu (lv eps) (fof (y_e y)) (fun_of (earlier y)) (fun_of (later y)) =
               energy (g_nr g) (g_nz g) mu (lv eps) (fof (y_e y)) (fof t0) (fof (y_t y))).
  { unfold energy. f_equal. f_equal. unfold iph. apply sum2_ext. intros i k Hi Hk. cbn [fun_of fof fr fp fz]. unfold earlier, later.
    rewrite (M0 Cr i k Hi Hk), (M0 Cphi i k Hi Hk), (M0 Cz i k Hi Hk). reflexivity. }
  assert (X1 : energy (g_nr g) (g_nz g) mu (lv eps) (fof e') (fun_of (earlier (mkYee e' h' t'))) (fun_of (later (mkYee e' h' t'))) =
               energy (g_nr g) (g_nz g) mu (lv eps) (fof e') (fof (y_t y)) (fof t')).
  { unfold energy. f_equal. f_equal. unfold iph. apply sum2_ext. intros i k Hi Hk. cbn [fun_of fof fr fp fz]. unfold earlier, later. cbn [y_h y_t].
    rewrite (M1 Cr i k Hi Hk), (M1 Cphi i k Hi Hk), (M1 Cz i k Hi Hk). reflexivity. }
  cbn [y_e]. rewrite X0, X1, <- Rmult_minus_distr_l, B. clear.
  assert (A : work g j (y_e y) e' = (unit g * (/ 2 * ipe (g_nr g) (g_nz g) (fof j) (fadd (fof (y_e y)) (fof e'))))%R).
  { unfold work, ipe. rewrite <- !sum2_scal. apply sum2_ext. intros i k Hi Hk. rewrite vol_c_eq, vol_p_eq, vol_n_eq. unfold mid. cbn [fadd fof fr fp fz getc]. field. }
  assert (L : losses g sg (y_e y) e' = (unit g * (/ 4 * ipw (g_nr g) (g_nz g) (lv sg) (fadd (fof (y_e y)) (fof e')) (fadd (fof (y_e y)) (fof e'))))%R).
  { unfold losses, ipw. rewrite <- !sum2_scal. apply sum2_ext. intros i k Hi Hk. rewrite vol_c_eq, vol_p_eq, vol_n_eq. unfold mid. cbn [fadd fof fr fp fz getc]. field. }
  rewrite A, L. field.
Qed.
(** Whatever the fields were: after a step they are those of a centred state. *)
Theorem C117_centred : forall mu g eps sg j y y', geo_ok g -> fits2 (g_nr g) (g_nz g) eps -> fits2 (g_nr g) (g_nz g) sg ->
  fits3 (g_nr g) (g_nz g) j -> yee_fits g y -> yee_step mu g eps sg j y = Ok y' -> centred mu g y'.
Proof.
  intros mu g eps sg j y y' G F1 F2 Fj (Fe & Fh & Ft) E. unfold yee_step in E.
  destruct (calc_field_e g (y_t y) j eps sg (y_e y)) as [e'| |] eqn:Ee; cbn [bind] in E; try discriminate.
  destruct (calc_field_h mu g e' (y_h y) (y_t y)) as [[h' t']| |] eqn:Eh; cbn [bind] in E; try discriminate. injection E as <-.
  exists (y_h y), (y_t y). auto.
Qed.

(** any number of steps without currents *)
Lemma unit_pos g : closed g -> (0 < unit g)%R.
Proof.
  intros (_ & _ & _ & _ & _ & N & M & Pr & Pz). unfold unit. pose proof PI_RGT_0.
  apply Rmult_lt_0_compat; [apply Rmult_lt_0_compat; [apply Rmult_lt_0_compat; lra|lra]|lra].
Qed.
Lemma volumes_nonneg g i : closed g -> 0 <= i -> (0 <= vol_c g i)%R /\ (0 <= vol_p g i)%R /\ (0 <= vol_n g i)%R.
Proof.
  intros Cl Hi. pose proof (unit_pos g Cl).
  rewrite vol_c_eq, vol_p_eq, vol_n_eq. pose proof (wc_pos i Hi). pose proof (wp_nonneg i Hi). pose proof (wn_pos i Hi).
  repeat split; apply Rmult_le_pos; lra.
Qed.
Lemma work_zero g j e e' : zero3 (g_nr g) (g_nz g) j -> work g j e e' = 0%R.
Proof.
  intros Z0. unfold work. apply sum2_zero. intros i k Hi Hk.
  assert (W : inw (g_nr g) (g_nz g) i k) by (unfold inw; lia).
  rewrite (Z0 Cr i k W : lv (c_r j) i k = 0%R), (Z0 Cphi i k W : lv (c_phi j) i k = 0%R), (Z0 Cz i k W : lv (c_z j) i k = 0%R). ring.
Qed.
Lemma losses_nonneg g sg e e' : closed g -> (forall i k, 0 <= i < g_nr g -> 0 <= k < g_nz g -> (0 <= lv sg i k)%R) -> (0 <= losses g sg e e')%R.
Proof.
  intros Cl S. unfold losses. apply sum2_nonneg. intros i k Hi Hk. destruct (volumes_nonneg g i Cl ltac:(lia)) as (V1 & V2 & V3).
  apply Rmult_le_pos; [now apply S|]. repeat apply Rplus_le_le_0_compat; (apply Rmult_le_pos; [assumption|apply Rle_0_sqr]).
Qed.
(** Without currents and losses the energy stays the same for ever; with losses it never grows. *)
Theorem C117_free : forall mu g eps sg js y, closed g -> (0 < mu)%R -> (0 < g_dt g)%R -> fits2 (g_nr g) (g_nz g) eps -> fits2 (g_nr g) (g_nz g) sg ->
  (forall i k, 0 <= i < g_nr g -> 0 <= k < g_nz g -> (0 < lv eps i k)%R /\ (0 <= lv sg i k)%R) ->
  Forall (fits3 (g_nr g) (g_nz g)) js -> Forall (zero3 (g_nr g) (g_nz g)) js -> yee_fits g y -> sealed g (y_e y) -> centred mu g y ->
  exists y', yee_run mu g eps sg js y = Ok y' /\ yee_fits g y' /\ sealed g (y_e y') /\ centred mu g y' /\
    (field_energy mu g eps y' <= field_energy mu g eps y)%R /\
    ((forall i k, 0 <= i < g_nr g -> 0 <= k < g_nz g -> lv sg i k = 0%R) -> field_energy mu g eps y' = field_energy mu g eps y).
Proof.
  intros mu g eps sg js y Cl Pm Pt F1 F2 Q. revert y. induction js as [|j js IH]; intros y Fj Zj Fy S Ce; cbn [yee_run].
  - exists y. split; [reflexivity|]. split; [exact Fy|]. split; [exact S|]. split; [exact Ce|]. split; [lra|reflexivity].
  - inversion Fj as [|? ? Fj1 Fj2]; inversion Zj as [|? ? Zj1 Zj2]; subst.
    destruct (C117_balance mu g eps sg j y Cl Pm F1 F2) as (y1 & E1 & Fy1 & S1 & C1 & B); auto.
    { intros i k Hi Hk. destruct (Q i k Hi Hk). assert (0 <= lv sg i k * g_dt g)%R by (apply Rmult_le_pos; lra). lra. }
    rewrite (work_zero g j _ _ Zj1), Rplus_0_l in B.
    destruct (IH y1 Fj2 Zj2 Fy1 S1 C1) as (y2 & E2 & Fy2 & S2 & C2 & L2 & K2). exists y2. rewrite E1. cbn [bind]. split; [exact E2|].
    split; [exact Fy2|]. split; [exact S2|]. split; [exact C2|]. split.
    + assert (P := losses_nonneg g sg (y_e y) (y_e y1) Cl (fun i k Hi Hk => proj2 (Q i k Hi Hk))).
      assert (0 <= g_dt g * losses g sg (y_e y) (y_e y1))%R by (apply Rmult_le_pos; lra). lra.
    + intros S0. rewrite (K2 S0). assert (X : losses g sg (y_e y) (y_e y1) = 0%R); [|rewrite X in B; lra].
      unfold losses. apply sum2_zero. intros i k Hi Hk. rewrite (S0 i k Hi Hk). ring.
Qed.

(** * C118: stability *)
(** Limit of the time step: a sufficient condition. *)
Definition small_step (mu eps0 : R) (g : geo) : R := (g_dt g * g_dt g * (5 / (g_dr g * g_dr g) + 4 / (g_dz g * g_dz g)) / (4 * eps0 * mu))%R.
Lemma energy_above mu g eps eps0 y : closed g -> (0 < mu)%R -> (0 < eps0)%R ->
  (forall i k, 0 <= i < g_nr g -> 0 <= k < g_nz g -> (eps0 <= lv eps i k)%R) -> yee_fits g y -> sealed g (y_e y) -> centred mu g y ->
  ((1 - small_step mu eps0 g) * electric g eps (y_e y) + magnetic mu g y <= field_energy mu g eps y)%R.
Proof.
  intros Cl Pm P0 He (Fe & Fh & Ft) S (h0 & t0 & Fh0 & Ft0 & Ec). pose proof Cl as (_ & _ & _ & _ & _ & N & M & Pr & Pz).
  destruct (curl_law mu g (y_e y) h0 t0 _ _ Cl Pm Fe Fh0 Ft0 S Ec) as (_ & _ & L0 & M0).
  assert (L : h_law (g_nr g) (g_nz g) (g_dr g) (g_dz g) (g_dt g) mu (fun_of (earlier y)) (fun_of (later y)) (fof (y_e y))).
  { intros i k Hi Hk. destruct (L0 i k Hi Hk) as (A & B & C). cbn [fun_of fof fr fp fz] in *. unfold earlier, later.
    rewrite (M0 Cr i k Hi Hk), (M0 Cphi i k Hi Hk), (M0 Cz i k Hi Hk). cbn [getc]. auto. }
  assert (B := energy_bound (g_nr g) (g_nz g) ltac:(lia) ltac:(lia) (g_dr g) (g_dz g) Pr Pz (g_dt g) mu (lv eps) Pm eps0 (fof (y_e y)) _ _ P0 He
     (proj1 (sealed_enclosed g _ Cl) S) L).
  rewrite energy_eq. apply (Rmult_le_compat_l (unit g)) in B; [|left; now apply unit_pos].
  eapply Rle_trans; [|exact B]. right. rewrite Rmult_plus_distr_l. unfold small_step, courant, curl_limit. f_equal.
  - rewrite <- !Rmult_assoc, (Rmult_comm (unit g)), !Rmult_assoc. f_equal. unfold electric, ipw. rewrite <- !sum2_scal. apply sum2_ext. intros i k Hi Hk.
    unfold vdot_e. rewrite vol_c_eq, vol_p_eq, vol_n_eq. cbn [fof fr fp fz]. ring.
  - unfold magnetic, iph. rewrite <- !sum2_scal. apply sum2_ext. intros i k Hi Hk. unfold vdot_h. rewrite vol_c_eq, vol_p_eq.
    cbn [fun_of favg fr fp fz getc]. unfold earlier, later. cbn [getc]. field.
Qed.
Theorem C118_stable : forall mu g eps sg eps0 js y y', closed g -> (0 < mu)%R -> (0 < g_dt g)%R -> (0 < eps0)%R ->
  fits2 (g_nr g) (g_nz g) eps -> fits2 (g_nr g) (g_nz g) sg ->
  (forall i k, 0 <= i < g_nr g -> 0 <= k < g_nz g -> (eps0 <= lv eps i k)%R /\ (0 <= lv sg i k)%R) ->
  (g_dt g * g_dt g * (5 / (g_dr g * g_dr g) + 4 / (g_dz g * g_dz g)) <= 4 * eps0 * mu)%R ->
  Forall (fits3 (g_nr g) (g_nz g)) js -> Forall (zero3 (g_nr g) (g_nz g)) js -> yee_fits g y -> sealed g (y_e y) -> centred mu g y ->
  yee_run mu g eps sg js y = Ok y' ->
  (0 <= 1 - small_step mu eps0 g)%R /\
  ((1 - small_step mu eps0 g) * electric g eps (y_e y') + magnetic mu g y' <= field_energy mu g eps y)%R.
Proof.
  intros mu g eps sg eps0 js y y' Cl Pm Pt P0 F1 F2 Q Lim Fj Zj Fy S Ce E.
  destruct (C117_free mu g eps sg js y Cl Pm Pt F1 F2) as (y1 & E1 & Fy1 & S1 & C1 & L & _); auto.
  { intros i k Hi Hk. destruct (Q i k Hi Hk). lra. }
  rewrite E in E1. injection E1 as <-. split.
  - unfold small_step. assert (K : (0 < 4 * eps0 * mu)%R) by nra.
    enough (g_dt g * g_dt g * (5 / (g_dr g * g_dr g) + 4 / (g_dz g * g_dz g)) / (4 * eps0 * mu) <= 1)%R by lra.
    apply Rmult_le_reg_r with (4 * eps0 * mu)%R; [exact K|]. unfold Rdiv at 1. rewrite Rmult_assoc, Rinv_l, Rmult_1_r, Rmult_1_l by lra. exact Lim.
  - eapply Rle_trans; [|exact L]. apply energy_above; auto. intros i k Hi Hk. apply Q; auto.
Qed.
(** so the electric field never exceeds a bound *)
Theorem C118_bounded : forall mu g eps sg eps0 y, closed g -> (0 < mu)%R -> (0 < g_dt g)%R -> (0 < eps0)%R ->
  fits2 (g_nr g) (g_nz g) eps -> fits2 (g_nr g) (g_nz g) sg ->
  (forall i k, 0 <= i < g_nr g -> 0 <= k < g_nz g -> (eps0 <= lv eps i k)%R /\ (0 <= lv sg i k)%R) ->
  (g_dt g * g_dt g * (5 / (g_dr g * g_dr g) + 4 / (g_dz g * g_dz g)) < 4 * eps0 * mu)%R ->
  yee_fits g y -> sealed g (y_e y) -> centred mu g y ->
  exists B, forall js y', Forall (fits3 (g_nr g) (g_nz g)) js -> Forall (zero3 (g_nr g) (g_nz g)) js -> yee_run mu g eps sg js y = Ok y' ->
    forall c i k, inw (g_nr g) (g_nz g) i k -> (Rabs (lv (getc c (y_e y')) i k) <= B)%R.
Proof.
  intros mu g eps sg eps0 y Cl Pm Pt P0 F1 F2 Q Lim Fy S Ce.
  set (q := (1 - small_step mu eps0 g)%R).
  assert (Pq : (0 < q)%R).
  { unfold q, small_step. assert (K : (0 < 4 * eps0 * mu)%R) by nra.
    assert (g_dt g * g_dt g * (5 / (g_dr g * g_dr g) + 4 / (g_dz g * g_dz g)) / (4 * eps0 * mu) < 1)%R; [|lra].
    apply Rmult_lt_reg_r with (4 * eps0 * mu)%R; [exact K|]. unfold Rdiv at 1. rewrite Rmult_assoc, Rinv_l, Rmult_1_r, Rmult_1_l by lra. exact Lim. }
  assert (Pu := unit_pos g Cl).
  exists (1 + field_energy mu g eps y * / (q * (unit g * eps0 / 16)))%R.
  intros js y' Fj Zj E c i k Hw.
  destruct (C118_stable mu g eps sg eps0 js y y') as (_ & L); auto; [lra|]. fold q in L.
  destruct (C117_free mu g eps sg js y Cl Pm Pt F1 F2) as (y1 & E1 & Fy1 & S1 & C1 & _); auto.
  { intros a b Ha Hb. destruct (Q a b Ha Hb). lra. }
  rewrite E in E1. injection E1 as <-.
  assert (Pm0 : (0 <= magnetic mu g y')%R).
  { unfold magnetic. apply sum2_nonneg. intros a b Ha Hb. destruct (volumes_nonneg g a Cl ltac:(lia)) as (V1 & V2 & V3). unfold vdot_h.
    apply Rmult_le_pos; [lra|]. repeat apply Rplus_le_le_0_compat; (apply Rmult_le_pos; [assumption|apply Rle_0_sqr]). }
  assert (Pe : forall a b, 0 <= a < g_nr g -> 0 <= b < g_nz g -> (0 <= / 2 * lv eps a b * vdot_e g (y_e y') (y_e y') a b)%R).
  { intros a b Ha Hb. destruct (volumes_nonneg g a Cl ltac:(lia)) as (V1 & V2 & V3). unfold vdot_e. destruct (Q a b Ha Hb).
    apply Rmult_le_pos; [nra|]. repeat apply Rplus_le_le_0_compat; (apply Rmult_le_pos; [assumption|apply Rle_0_sqr]). }
  assert (Ee0 : (0 <= field_energy mu g eps y)%R).
  { eapply Rle_trans; [|exact L]. apply Rplus_le_le_0_compat; [apply Rmult_le_pos; [lra|]|exact Pm0]. unfold electric. apply sum2_nonneg. exact Pe. }
  assert (Pd : (0 < q * (unit g * eps0 / 16))%R) by (apply Rmult_lt_0_compat; [lra|]; unfold Rdiv; apply Rmult_lt_0_compat; [apply Rmult_lt_0_compat; lra|lra]).
  assert (Key : (lv (getc c (y_e y')) i k * lv (getc c (y_e y')) i k * (unit g * eps0 / 16) <= electric g eps (y_e y'))%R).
  { assert (Zero : lv (getc c (y_e y')) i k = 0%R -> (lv (getc c (y_e y')) i k * lv (getc c (y_e y')) i k * (unit g * eps0 / 16) <= electric g eps (y_e y'))%R).
    { intros ->. unfold electric. rewrite Rmult_0_l, Rmult_0_l. apply sum2_nonneg. exact Pe. }
    destruct Hw as (Wi & Wk). pose proof Cl as (_ & _ & _ & _ & _ & N & M & _).
    destruct (S1 i k ltac:(lia) ltac:(lia)) as (S2 & S3 & S4).
    assert (D : (0 <= i < g_nr g /\ 0 <= k < g_nz g) \/ ~ (0 <= i < g_nr g /\ 0 <= k < g_nz g)) by lia.
    destruct D as [(Di & Dk)|D].
    2: { apply Zero. destruct c; cbn [getc]; [apply S2|apply S3|apply S4]; lia. }
    assert (G : forall v x, (/ 8 <= v)%R -> (v * (x * x) * unit g <= vdot_e g (y_e y') (y_e y') i k)%R -> (x * x * (unit g * eps0 / 16) <= electric g eps (y_e y'))%R).
    { intros v x Hv Hx. eapply Rle_trans; [|apply (sum2_member (g_nr g) (g_nz g) (fun a b => / 2 * lv eps a b * vdot_e g (y_e y') (y_e y') a b)%R i k Di Dk Pe)].
      cbv beta. destruct (Q i k Di Dk) as (Q1 & _). assert (0 <= x * x)%R by apply Rle_0_sqr.
      assert (0 <= x * x * unit g)%R by (apply Rmult_le_pos; lra).
      assert (/ 8 * (x * x * unit g) <= vdot_e g (y_e y') (y_e y') i k)%R by nra.
      apply Rle_trans with (/ 2 * eps0 * vdot_e g (y_e y') (y_e y') i k)%R; [nra|].
      apply Rmult_le_compat_r; [nra|lra]. }
    assert (Wc : (/ 2 <= wc i)%R) by (unfold wc; assert (0 <= IZR i)%R by (apply IZR_le; lia); lra).
    assert (Wn : (/ 8 <= wn i)%R). { unfold wn. destruct (i =? 0) eqn:I0; [lra|]. assert (1 <= IZR i)%R by (apply IZR_le; lia). lra. }
    assert (Wp : (0 <= wp i)%R) by (apply wp_nonneg; lia).
    assert (X : vdot_e g (y_e y') (y_e y') i k = (wc i * (lv (c_r (y_e y')) i k * lv (c_r (y_e y')) i k) * unit g + wp i * (lv (c_phi (y_e y')) i k * lv (c_phi (y_e y')) i k) * unit g
       + wn i * (lv (c_z (y_e y')) i k * lv (c_z (y_e y')) i k) * unit g)%R).
    { unfold vdot_e. rewrite vol_c_eq, vol_p_eq, vol_n_eq. ring. }
    assert (Y : forall v x, (0 <= v)%R -> (0 <= v * (x * x) * unit g)%R).
    { intros v x Hv. apply Rmult_le_pos; [|lra]. apply Rmult_le_pos; [exact Hv|apply Rle_0_sqr]. }
    assert (Y1 := Y (wc i) (lv (c_r (y_e y')) i k) ltac:(lra)). assert (Y2 := Y (wp i) (lv (c_phi (y_e y')) i k) Wp). assert (Y3 := Y (wn i) (lv (c_z (y_e y')) i k) ltac:(lra)).
    destruct c; cbn [getc].
    - apply (G (wc i)); [lra|]. rewrite X. lra.
    - destruct (i =? 0) eqn:I0; [apply Zero; cbn [getc]; apply S3; lia|].
      apply (G (wp i)); [unfold wp; assert (1 <= IZR i)%R by (apply IZR_le; lia); lra|]. rewrite X. lra.
    - apply (G (wn i)); [lra|]. rewrite X. lra. }
  set (x := lv (getc c (y_e y')) i k) in *.
  assert (Hx : (x * x <= field_energy mu g eps y * / (q * (unit g * eps0 / 16)))%R).
  { apply Rmult_le_reg_r with (q * (unit g * eps0 / 16))%R; [exact Pd|].
    rewrite (Rmult_assoc (field_energy mu g eps y)), Rinv_l, Rmult_1_r by lra.
    apply (Rmult_le_compat_l q) in Key; [|lra]. lra. }
  assert (A : (Rabs x <= 1 + x * x)%R). { unfold Rabs. destruct (Rcase_abs x); nra. }
  lra.
Qed.

(** ** an unstable field *)
Definition mk_grid (nr nz : Z) (f : Z -> Z -> R) : grid R := new_grid nr nz 2 (fun x y => f (x - 2) (y - 2)).
Lemma mk_grid_fits nr nz f : 0 <= nr < 2 ^ 32 - 4 -> 0 <= nz < 2 ^ 32 - 4 -> fits2 nr nz (mk_grid nr nz f).
Proof.
  intros Hr Hz. unfold fits2, mk_grid. split; [apply new_grid_wf; lia|]. auto.
Qed.
Lemma mk_grid_lv nr nz f i k : lv (mk_grid nr nz f) i k = f i k.
Proof. unfold lv, mk_grid, new_grid. cbn [cell os]. f_equal; lia. Qed.
Definition mk_grid3 (nr nz : Z) (a b c : Z -> Z -> R) : grid3 R := mkGrid3 (mk_grid nr nz a) (mk_grid nr nz b) (mk_grid nr nz c).
Lemma mk_grid3_fits nr nz a b c : 0 <= nr < 2 ^ 32 - 4 -> 0 <= nz < 2 ^ 32 - 4 -> fits3 nr nz (mk_grid3 nr nz a b c).
Proof. intros Hr Hz []; now apply mk_grid_fits. Qed.
Lemma mk_grid3_lv nr nz a b c x i k : lv (getc x (mk_grid3 nr nz a b c)) i k = match x with Cr => a i k | Cphi => b i k | Cz => c i k end.
Proof. destruct x; apply mk_grid_lv. Qed.
Definition uniform (nr nz : Z) (v : R) : grid R := mk_grid nr nz (fun _ _ => v).
Definition uniform3 (nr nz : Z) (v : R) : grid3 R := mk_grid3 nr nz (fun _ _ => v) (fun _ _ => v) (fun _ _ => v).

Lemma yee_run_app mu g eps sg a b y : yee_run mu g eps sg (a ++ b) y = bind (yee_run mu g eps sg a y) (yee_run mu g eps sg b).
Proof.
  revert y. induction a as [|j a IH]; intros y; cbn [yee_run app bind]; [reflexivity|].
  destruct (yee_step mu g eps sg j y) as [y1| |]; cbn [bind]; auto.
Qed.

(** Above a second limit the fields grow without bound, however small they were: uniform dielectric, no currents, no losses. *)
Definition unstable (mu ev : R) (g : geo) : Prop :=
  forall delta, (0 < delta)%R -> exists y, yee_fits g y /\ sealed g (y_e y) /\ centred mu g y /\
    (forall c i k, inw (g_nr g) (g_nz g) i k -> (Rabs (lv (getc c (y_e y)) i k) <= delta)%R /\ lv (getc c (y_h y)) i k = 0%R) /\
    forall B, exists q y', yee_run mu g (uniform (g_nr g) (g_nz g) ev) (uniform (g_nr g) (g_nz g) 0) (repeat (uniform3 (g_nr g) (g_nz g) 0) q) y = Ok y' /\
      exists i k, 0 <= i < g_nr g /\ 0 <= k < g_nz g /\ (B < Rabs (lv (c_phi (y_e y')) i k))%R.
Theorem C118_unstable_refuted : forall mu ev g, closed g -> 3 <= g_nr g < 2 ^ 32 - 4 -> 3 <= g_nz g < 2 ^ 32 - 4 -> (0 < mu)%R -> (0 < ev)%R -> (0 < g_dt g)%R ->
  (4 * ev * mu < g_dt g * g_dt g * (8 / (3 * (g_dr g * g_dr g)) + 2 / (g_dz g * g_dz g)))%R -> unstable mu ev g.
Proof.
  intros mu ev g Cl N3 M3 Pm Pe Pt Lim delta Pd. pose proof Cl as (_ & _ & _ & _ & _ & N & M & Pr & Pz).
  set (nr := g_nr g) in *. set (nz := g_nz g) in *. set (dr := g_dr g) in *. set (dz := g_dz g) in *. set (dt := g_dt g) in *.
  set (gam := (dt * dt / (ev * mu))%R).
  assert (Lim' : (4 < gam * spot_limit dr dz)%R).
  { unfold gam, spot_limit. apply Rmult_lt_reg_r with (ev * mu)%R; [nra|].
    replace (dt * dt / (ev * mu) * (8 / (3 * (dr * dr)) + 2 / (dz * dz)) * (ev * mu))%R with (dt * dt * (8 / (3 * (dr * dr)) + 2 / (dz * dz)))%R by (field; repeat split; lra). lra. }
  assert (Rt := spot_rate nr nz ltac:(lia) ltac:(lia) dr dz Pr Pz gam ltac:(lia) ltac:(lia) Lim').
  set (eps := uniform nr nz ev). set (sg := uniform nr nz 0). set (j := uniform3 nr nz 0).
  assert (F1 : fits2 nr nz eps) by (apply mk_grid_fits; lia). assert (F2 : fits2 nr nz sg) by (apply mk_grid_fits; lia).
  assert (Fj : fits3 nr nz j) by (apply mk_grid3_fits; lia).
  assert (Zj : zero3 nr nz j) by (intros c x y _; unfold j, uniform3; rewrite mk_grid3_lv; now destruct c).
  assert (Qe : forall i k, 0 <= i < nr -> 0 <= k < nz -> (0 < lv eps i k)%R /\ (0 <= lv sg i k)%R).
  { intros i k _ _. unfold eps, sg, uniform. rewrite !mk_grid_lv. lra. }
  (* the start *)
  set (sp := fun i k => (delta * spot i k)%R).
  set (e0 := mk_grid3 nr nz (fun _ _ => 0%R) sp (fun _ _ => 0%R)).
  set (tm := fun c i k => (- (dt / (2 * mu)) * match c with Cr => cr dz (only_p sp) i k | Cphi => 0 | Cz => cz dr (only_p sp) i k end)%R).
  set (t0 := mk_grid3 nr nz (tm Cr) (tm Cphi) (tm Cz)).
  set (h0 := uniform3 nr nz 0).
  assert (Fe0 : fits3 nr nz e0) by (apply mk_grid3_fits; lia). assert (Ft0 : fits3 nr nz t0) by (apply mk_grid3_fits; lia).
  assert (Fh0 : fits3 nr nz h0) by (apply mk_grid3_fits; lia).
  assert (S0 : sealed g e0).
  { apply (sealed_enclosed g e0 Cl). assert (G := spot_enclosed nr nz ltac:(lia) ltac:(lia)). intros i k Hi Hk. destruct (G i k Hi Hk) as (_ & G2 & _).
    unfold e0, fof, mk_grid3. cbn [fr fp fz c_r c_phi c_z]. rewrite !mk_grid_lv. cbn [only_p fp] in G2. repeat split; auto. intros D. unfold sp. rewrite (G2 D). ring. }
  destruct (calc_field_h_spec mu g e0 Fe0 h0 t0 Fh0 Ft0 ltac:(lia)) as (h1 & t1 & Ec & Fh1 & Ft1 & _ & Out).
  destruct (curl_law mu g e0 h0 t0 h1 t1 Cl Pm Fe0 Fh0 Ft0 S0 Ec) as (_ & _ & L0 & M0).
  fold nr nz dr dz dt in L0, M0.
  set (y0 := mkYee e0 h1 t1).
  assert (C0 : centred mu g y0) by (exists h0, t0; auto).
  assert (Fy0 : yee_fits g y0) by (split; [exact Fe0|split; [exact Fh1|exact Ft1]]).
  assert (Cv : forall i k, cr dz (fof e0) i k = cr dz (only_p sp) i k /\ cp dr dz (fof e0) i k = 0%R /\ cz dr (fof e0) i k = cz dr (only_p sp) i k).
  { intros i k. unfold e0, fof, mk_grid3, cr, cp, cz. cbn [fr fp fz c_r c_phi c_z only_p]. rewrite !mk_grid_lv. repeat split; unfold Rdiv; ring. }
  assert (T1 : forall i k, 0 <= i < nr -> 0 <= k < nz -> lv (c_r t1) i k = (dt / (2 * mu) * cr dz (only_p sp) i k)%R /\ lv (c_phi t1) i k = 0%R /\
     lv (c_z t1) i k = (dt / (2 * mu) * cz dr (only_p sp) i k)%R).
  { intros i k Hi Hk. destruct (L0 i k Hi Hk) as (A & B & C). destruct (Cv i k) as (V1 & V2 & V3). rewrite V1, V2, V3 in *.
    unfold t0, fof, mk_grid3 in A, B, C. cbn [fr fp fz c_r c_phi c_z] in A, B, C. rewrite mk_grid_lv in A, B, C. unfold tm in A, B, C.
    rewrite A, B, C. repeat split; field; lra. }
  exists y0. split; [exact Fy0|]. split; [exact S0|]. split; [exact C0|]. split.
  { intros c i k Hw. split.
    - cbn [y_e y0]. unfold e0. rewrite mk_grid3_lv. unfold sp, spot. destruct c; try (rewrite Rabs_R0; lra).
      destruct (_ && _)%bool; [rewrite Rmult_1_r, Rabs_right; lra|rewrite Rmult_0_r, Rabs_R0; lra].
    - cbn [y_h y0]. assert (D : (0 <= i < nr /\ 0 <= k < nz) \/ ~ (0 <= i < nr /\ 0 <= k < nz)) by lia. destruct D as [(Di & Dk)|D]; [|apply (Out c i k Hw D)].
      specialize (M0 c i k Di Dk). destruct (T1 i k Di Dk) as (A & B & C). unfold t0 in M0. rewrite mk_grid3_lv in M0. unfold tm in M0.
      assert (X : (- (dt / (2 * mu)) = - dt * / (2 * mu))%R) by (field; lra).
      destruct c; cbn [getc] in *; [rewrite A in M0|rewrite B in M0|rewrite C in M0]; lra. }
  (* the run *)
  set (run := fun q => yee_run mu g eps sg (repeat j q) y0).
  assert (Rok : forall q, exists y, run q = Ok y /\ yee_fits g y /\ sealed g (y_e y) /\ centred mu g y).
  { intros q. destruct (C117_free mu g eps sg (repeat j q) y0 Cl Pm Pt F1 F2 Qe) as (y & E & A & B & C & _); auto.
    - apply Forall_forall. intros x Hx. apply repeat_spec in Hx. now subst.
    - apply Forall_forall. intros x Hx. apply repeat_spec in Hx. now subst.
    - exists y; auto. }
  set (st := fun q => match run q with Ok y => y | _ => y0 end).
  assert (Step : forall q, yee_step mu g eps sg j (st q) = Ok (st (S q))).
  { intros q. destruct (Rok q) as (y & E & _). destruct (Rok (S q)) as (y' & E' & _). unfold st. rewrite E, E'.
    unfold run in E'. cbn [repeat] in E'. rewrite (repeat_cons q j) in E'. rewrite yee_run_app in E'. unfold run in E. rewrite E in E'. cbn [bind yee_run] in E'.
    destruct (yee_step mu g eps sg j y) as [y1| |]; cbn [bind] in E'; try discriminate. exact E'. }
  assert (Good : forall q, run q = Ok (st q) /\ yee_fits g (st q) /\ sealed g (y_e (st q))).
  { intros q. destruct (Rok q) as (y & E & A & B & _). unfold st. rewrite E. auto. }
  set (E := fun q => lv (c_phi (y_e (st q)))). set (T := fun q => fof (y_t (st q))).
  assert (Laws : forall q, e_law nr nz dr dz dt (lv eps) (lv sg) (T q) (fof j) (fof (y_e (st q))) (fof (y_e (st (S q)))) /\
     h_law nr nz dr dz dt mu (T q) (T (S q)) (fof (y_e (st (S q))))).
  { intros q. destruct (Good q) as (_ & (Fe & Fh & Ft) & Sq). assert (Ey := Step q). unfold yee_step in Ey.
    destruct (calc_field_e g (y_t (st q)) j eps sg (y_e (st q))) as [e'| |] eqn:Ee; cbn [bind] in Ey; try discriminate.
    destruct (calc_field_h mu g e' (y_h (st q)) (y_t (st q))) as [[h' t']| |] eqn:Eh; cbn [bind] in Ey; try discriminate.
    assert (Ey' : st (S q) = mkYee e' h' t') by congruence. clear Ey.
    destruct (electric_law g _ j eps sg _ e' Cl Ft Fj F1 F2 Fe) as (Fe' & S' & Le); auto.
    { intros i k Hi Hk. destruct (Qe i k Hi Hk). unfold sg, uniform. rewrite mk_grid_lv. fold dt. lra. }
    specialize (S' Sq). destruct (curl_law mu g e' _ _ h' t' Cl Pm Fe' Fh Ft S' Eh) as (_ & _ & Lh & _).
    unfold T. rewrite Ey'. cbn [y_e y_t]. split; [exact Le|exact Lh]. }
  assert (Enc : forall q, enclosed nr nz (only_p (E q))).
  { intros q i k Hi Hk. destruct (Good q) as (_ & _ & Sq). apply (sealed_enclosed g _ Cl) in Sq. destruct (Sq i k Hi Hk) as (_ & G & _). cbn [only_p fr fp fz]. repeat split; auto. }
  assert (Ev : forall q i k, dof_p nr nz i k = true -> E (S q) i k = (E q i k + dt / ev * kp dr dz (T q) i k)%R).
  { intros q i k D. assert (Hi : 0 <= i < nr) by (unfold dof_p in D; lia). assert (Hk : 0 <= k < nz) by (unfold dof_p in D; lia).
    destruct (Laws q) as (Le & _). destruct (Le i k Hi Hk) as (_ & L & _). specialize (L D). unfold eps, sg, j, uniform, uniform3, mk_grid3 in L. cbn [fof fp c_phi] in L. rewrite !mk_grid_lv in L.
    unfold E. cbn [fof fp] in L. apply Rmult_eq_reg_l with ev; [|lra].
    replace (ev * (lv (c_phi (y_e (st q))) i k + dt / ev * kp dr dz (T q) i k))%R with (ev * lv (c_phi (y_e (st q))) i k + dt * kp dr dz (T q) i k)%R by (field; lra). lra. }
  assert (Tv : forall q i k, dof_p nr nz i k = true -> kp dr dz (T (S q)) i k = (kp dr dz (T q) i k + dt / mu * kp dr dz (curl_e dr dz (only_p (E (S q)))) i k)%R).
  { intros q i k D. destruct (Laws q) as (_ & Lh).
    assert (A : forall a b, 0 <= a < nr -> 0 <= b < nz -> fr (T (S q)) a b = (fr (T q) a b + dt / mu * cr dz (only_p (E (S q))) a b)%R /\
      fz (T (S q)) a b = (fz (T q) a b + dt / mu * cz dr (only_p (E (S q))) a b)%R).
    { intros a b Ha Hb. destruct (Lh a b Ha Hb) as (A & _ & C). split; [exact A|exact C]. }
    unfold dof_p in D. destruct (A i k) as (A1 & A2); [lia|lia|]. destruct (A i (k - 1)) as (A3 & _); [lia|lia|]. destruct (A (i - 1) k) as (_ & A4); [lia|lia|].
    unfold kp. rewrite A1, A2, A3, A4. cbn [curl_e fr fz]. unfold Rdiv. ring. }
  assert (NoDof : forall q i k, 0 <= i < nr -> 0 <= k < nz -> dof_p nr nz i k = false -> E q i k = 0%R).
  { intros q i k Hi Hk D. destruct (Enc q i k ltac:(lia) ltac:(lia)) as (_ & G & _). now apply G. }
  assert (Rec : forall q i k, 0 <= i < nr -> 0 <= k < nz -> E (S (S q)) i k = (2 * E (S q) i k - E q i k - wave nr nz dr dz gam (E (S q)) i k)%R).
  { intros q i k Hi Hk. unfold wave. destruct (dof_p nr nz i k) eqn:D.
    - assert (X := Ev (S q) i k D). assert (Y := Ev q i k D). rewrite (Tv q i k D) in X. rewrite X. unfold gam.
      replace (dt * dt / (ev * mu))%R with (dt / ev * (dt / mu))%R by (field; lra). lra.
    - rewrite !NoDof by assumption. ring. }
  assert (E0 : forall i k, E 0%nat i k = sp i k).
  { intros i k. unfold E, st, run. cbn [repeat yee_run y_e y0]. unfold e0, mk_grid3. cbn [c_phi]. apply mk_grid_lv. }
  assert (W0 : forall i k, wave nr nz dr dz gam (E 0%nat) i k = (delta * wave nr nz dr dz gam spot i k)%R).
  { intros i k. unfold wave. destruct (dof_p nr nz i k); [|ring]. unfold kp, curl_e. cbn [fr fz]. unfold cr, cz. cbn [only_p fp]. rewrite !E0. unfold sp, Rdiv. ring. }
  assert (Start : forall i k, 0 <= i < nr -> 0 <= k < nz -> E 1%nat i k = (E 0%nat i k - / 2 * wave nr nz dr dz gam (E 0%nat) i k)%R).
  { intros i k Hi Hk. destruct (dof_p nr nz i k) eqn:D.
    - rewrite (Ev 0%nat i k D). unfold wave. rewrite D.
      assert (A : forall a b, 0 <= a < nr -> 0 <= b < nz -> fr (T 0%nat) a b = (dt / (2 * mu) * cr dz (only_p (E 0%nat)) a b)%R /\
        fz (T 0%nat) a b = (dt / (2 * mu) * cz dr (only_p (E 0%nat)) a b)%R).
      { intros a b Ha Hb. destruct (T1 a b Ha Hb) as (A & _ & C). unfold cr, cz in *. cbn [only_p fp] in *. rewrite !E0. split; [exact A|exact C]. }
      unfold dof_p in D. destruct (A i k) as (A1 & A2); [lia|lia|]. destruct (A i (k - 1)) as (A3 & _); [lia|lia|]. destruct (A (i - 1) k) as (_ & A4); [lia|lia|].
      unfold kp. rewrite A1, A2, A3, A4. cbn [curl_e fr fz]. unfold gam. field. lra.
    - rewrite !NoDof by assumption. unfold wave. rewrite D. ring. }
  assert (G := growth nr nz ltac:(lia) ltac:(lia) dr dz Pr Pz gam E Enc Rec Start). cbv zeta in G.
  set (rt := rate nr nz dr dz gam E) in *.
  assert (Prt : (0 < rt)%R).
  { assert (X : rt = (delta * delta * (/ 4 * ipp nr nz (wave nr nz dr dz gam spot) (wave nr nz dr dz gam spot) - ipp nr nz spot (wave nr nz dr dz gam spot)))%R).
    { unfold rt, rate, ipp. rewrite <- !sum2_scal, <- !sum2_minus, <- sum2_scal. apply sum2_ext. intros i k _ _. rewrite W0, E0. unfold sp. ring. }
    rewrite X. apply Rmult_lt_0_compat; [nra|exact Rt]. }
  assert (P0 : (0 <= ipp nr nz (E 0%nat) (E 0%nat))%R).
  { unfold ipp. apply sum2_nonneg. intros i k Hi Hk. apply Rmult_le_pos; [apply wp_nonneg; lia|apply Rle_0_sqr]. }
  intros B. set (big := (IZR nr * IZR nz * (IZR nr * (B * B)))%R).
  assert (Pb : (0 <= big)%R). { unfold big. assert (0 <= IZR nr)%R by (apply IZR_le; lia). assert (0 <= IZR nz)%R by (apply IZR_le; lia). apply Rmult_le_pos; [now apply Rmult_le_pos|]. apply Rmult_le_pos; [assumption|apply Rle_0_sqr]. }
  assert (Pbr : (0 <= big / rt)%R) by (apply Rmult_le_pos; [exact Pb|left; now apply Rinv_0_lt_compat]).
  assert (Hu : exists q, (1 + big / rt < INR q)%R).
  { destruct (archimed (1 + big / rt)) as (A & _). exists (Z.to_nat (up (1 + big / rt))). rewrite INR_IZR_INZ, Z2Nat.id; [exact A|].
    apply le_IZR. lra. }
  destruct Hu as [q Hq]. exists q, (st q). split; [apply Good|].
  specialize (G q).
  assert (Large : (big < ipp nr nz (E q) (E q))%R).
  { assert (big / rt < INR q * INR q)%R by nra.
    assert (big < rt * (INR q * INR q))%R. { replace big with (rt * (big / rt))%R by (field; lra). now apply Rmult_lt_compat_l. }
    lra. }
  unfold ipp in Large. destruct (sum2_large nr nz _ (IZR nr * (B * B)) ltac:(lia) ltac:(lia) ltac:(apply Rmult_le_pos; [apply IZR_le; lia|apply Rle_0_sqr]) Large) as (i & k & Hi & Hk & H).
  exists i, k. split; [exact Hi|]. split; [exact Hk|]. fold (E q).
  destruct (Rlt_le_dec B (Rabs (E q i k))) as [|Le]; [assumption|exfalso].
  assert (0 <= Rabs (E q i k))%R by apply Rabs_pos.
  assert (E q i k * E q i k <= B * B)%R. { assert (X : (E q i k * E q i k = Rabs (E q i k) * Rabs (E q i k))%R) by (unfold Rabs; destruct (Rcase_abs (E q i k)); ring). rewrite X. nra. }
  unfold wp in H. assert (0 <= IZR i <= IZR nr)%R by (split; apply IZR_le; lia). assert (0 <= E q i k * E q i k)%R by apply Rle_0_sqr. nra.
Qed.

(** constant.hpp:28-34: EPSILON0, MAGN_CONST, LIGHT_VEL *)
Definition epsilon0 : R := 885 / 10 ^ 14.
Definition magn_const : R := 126 / 10 ^ 8.
Definition light_vel : R := 3 * 10 ^ 8.
(** the area of a configuration with one domain and [nz] cells along the axis *)
Definition geo_of (c : CheckModel.config) (nz : Z) : geo :=
  mkGeo (CheckModel.c_nr c) nz 0 0 (CheckModel.c_dr c) (CheckModel.c_dz c) true true true true (CheckModel.c_step c).
(** The check of the configuration accepts, without a message, time steps for which the fields grow without bound. *)
Theorem C118_accepted_refuted : exists c, CheckModel.method_check light_vel c = Ok [] /\ CheckModel.c_dom_r c = 1 /\ CheckModel.c_dom_z c = 1 /\
  CheckModel.c_nr c = 10 /\ CheckModel.c_size_r c = (10 * CheckModel.c_dr c)%R /\ CheckModel.c_size_z c = (10 * CheckModel.c_dz c)%R /\
  unstable magn_const epsilon0 (geo_of c 10).
Proof.
  destruct (ThmCheck.square_cells_accepted light_vel) as (c & A & P & Q & S & D1 & D2 & Nr & Z1 & Z2); [unfold light_vel; lra|].
  exists c. repeat split; auto. unfold geo_of. rewrite Nr. apply C118_unstable_refuted; cbn [g_nr g_nz g_dr g_dz g_dt]; try lia.
  - unfold closed. cbn [g_w0 g_w1 g_w2 g_w3 g_d0 g_nr g_nz g_dr g_dz]. rewrite Q. repeat split; lia || lra.
  - unfold magn_const. lra.
  - unfold epsilon0. lra.
  - rewrite S. unfold light_vel. apply Rmult_lt_0_compat; [exact P|]. apply Rinv_0_lt_compat. lra.
  - rewrite S, Q. set (h := CheckModel.c_dr c) in *.
    replace (h / light_vel * (h / light_vel) * (8 / (3 * (h * h)) + 2 / (h * h)))%R with (14 / 3 / (light_vel * light_vel))%R by (field; unfold light_vel; split; lra).
    unfold light_vel, magn_const, epsilon0. lra.
Qed.
(** a step that is safe for square cells: 2/3 of the size of a cell over the speed of light; the check would accept the whole *)
Theorem C118_safe_step : forall g, g_dr g = g_dz g -> (0 < g_dr g)%R -> (0 < g_dt g)%R -> (light_vel * g_dt g <= 2 / 3 * g_dr g)%R ->
  (g_dt g * g_dt g * (5 / (g_dr g * g_dr g) + 4 / (g_dz g * g_dz g)) < 4 * epsilon0 * magn_const)%R.
Proof.
  intros g E P Pt L. rewrite <- E. set (h := g_dr g) in *. set (dt := g_dt g) in *.
  replace (dt * dt * (5 / (h * h) + 4 / (h * h)))%R with (9 * ((light_vel * dt) * (light_vel * dt)) / (h * h) / (light_vel * light_vel))%R by (field; unfold light_vel; split; lra).
  assert (Pl : (0 < light_vel * light_vel)%R) by (unfold light_vel; lra).
  assert (B : (0 <= light_vel * dt)%R) by (apply Rmult_le_pos; [unfold light_vel; lra|lra]).
  assert (A : (9 * ((light_vel * dt) * (light_vel * dt)) / (h * h) <= 4)%R).
  { assert (0 < h * h)%R by nra. apply Rmult_le_reg_r with (h * h)%R; [assumption|]. unfold Rdiv. rewrite Rmult_assoc, Rinv_l, Rmult_1_r by lra. nra. }
  apply Rle_lt_trans with (4 / (light_vel * light_vel))%R.
  - apply Rmult_le_compat_r; [left; now apply Rinv_0_lt_compat|exact A].
  - unfold light_vel, magn_const, epsilon0. lra.
Qed.

(** ** examples: three by three cells of size 1, E_phi = 1 in the middle *)
Definition e_ex : grid3 R := mk_grid3 3 3 (fun _ _ => 0%R) spot (fun _ _ => 0%R).
Lemma e_ex_sealed : sealed geo_ex e_ex.
Proof.
  intros i k Hi Hk. unfold e_ex, mk_grid3. cbn [c_r c_phi c_z]. rewrite !mk_grid_lv. cbn [geo_ex g_nr g_nz] in *. repeat split; intros B.
  unfold spot. destruct (_ && _) eqn:D in |- *; [|reflexivity]. exfalso. lia.
Qed.
Lemma geo_ex_closed : closed geo_ex.
Proof. unfold closed. cbn [geo_ex g_w0 g_w1 g_w2 g_w3 g_d0 g_nr g_nz g_dr g_dz]. repeat split; lia || lra. Qed.
Example C117_example : closed geo_ex /\ sealed geo_ex e_ex /\ exists y, y_e y = e_ex /\ yee_fits geo_ex y /\ centred 1 geo_ex y /\ (0 < electric geo_ex (gz 1) (y_e y))%R.
Proof.
  assert (Fe : fits3 3 3 e_ex) by (apply mk_grid3_fits; lia).
  split; [exact geo_ex_closed|]. split; [exact e_ex_sealed|].
  destruct (calc_field_h_spec 1 geo_ex e_ex Fe (gz3 0) (gz3 0) (gz3_fits 0) (gz3_fits 0) ltac:(cbn; lia)) as (h & t & E & Fh & Ft & _).
  exists (mkYee e_ex h t). split; [reflexivity|]. split; [split; [exact Fe|split; assumption]|]. split; [exists (gz3 0), (gz3 0); split; [apply gz3_fits|split; [apply gz3_fits|exact E]]|].
  cbn [y_e]. unfold electric.
  apply Rlt_le_trans with (/ 2 * lv (gz 1) 1 1 * vdot_e geo_ex e_ex e_ex 1 1)%R.
  - unfold vdot_e, e_ex, mk_grid3. cbn [c_r c_phi c_z]. rewrite !mk_grid_lv. rewrite vol_p_eq. unfold wp, unit, spot, lv, gz, new_grid. cbn [cell os geo_ex g_dr g_dz Z.eqb Pos.eqb andb].
    pose proof PI_RGT_0. lra.
  - apply (sum2_member 3 3 (fun i k => / 2 * lv (gz 1) i k * vdot_e geo_ex e_ex e_ex i k)%R 1 1); [lia|lia|]. intros i k Hi Hk.
    destruct (volumes_nonneg geo_ex i geo_ex_closed ltac:(lia)) as (V1 & V2 & V3). unfold vdot_e. apply Rmult_le_pos; [unfold lv, gz, new_grid; cbn [cell]; lra|].
    repeat apply Rplus_le_le_0_compat; (apply Rmult_le_pos; [assumption|apply Rle_0_sqr]).
Qed.
(** such a domain with a step of 1/2 is stable with eps = mu = 1 (5 + 4 < 16) *)
Example C118_example : let g := mkGeo 3 3 0 0 1 1 true true true true (/ 2) in closed g /\
  (g_dt g * g_dt g * (5 / (g_dr g * g_dr g) + 4 / (g_dz g * g_dz g)) < 4 * 1 * 1)%R.
Proof. split; [unfold closed; cbn [g_w0 g_w1 g_w2 g_w3 g_d0 g_nr g_nz g_dr g_dz]; repeat split; lia || lra|]. cbn [g_dt g_dr g_dz]. lra. Qed.

Print Assumptions C117_balance.
Print Assumptions C117_centred.
Print Assumptions C117_free.
Print Assumptions C118_stable.
Print Assumptions C118_bounded.
Print Assumptions C118_unstable_refuted.
Print Assumptions C118_accepted_refuted.
Print Assumptions C118_safe_step.
