(** C151, C152: the equations of the fields are linear, and the two polarisations do not mix. *)
From Coq Require Import ZifyBool Reals Lra.
From Verif Require Import Base GridModel GridProofs OverlayModel YeeModel YeeProofs ThmYee.
Open Scope Z_scope.

(** ** specification *)
(** [f] holds a * f1 + b * f2 in every cell *)
Definition combines (nr nz : Z) (a b : R) (f1 f2 f : grid3 R) : Prop :=
  forall c x y, inw nr nz x y -> lv (getc c f) x y = (a * lv (getc c f1) x y + b * lv (getc c f2) x y)%R.
Definition state_combines (g : geo) (a b : R) (y1 y2 y : yee) : Prop :=
  combines (g_nr g) (g_nz g) a b (y_e y1) (y_e y2) (y_e y) /\ combines (g_nr g) (g_nz g) a b (y_h y1) (y_h y2) (y_h y) /\ combines (g_nr g) (g_nz g) a b (y_t y1) (y_t y2) (y_t y).
(** three runs, step by step *)
Inductive combine_all (g : geo) (a b : R) : list (grid3 R) -> list (grid3 R) -> list (grid3 R) -> Prop :=
| ca_nil : combine_all g a b [] [] []
| ca_cons j1 j2 j l1 l2 l : combines (g_nr g) (g_nz g) a b j1 j2 j -> combine_all g a b l1 l2 l -> combine_all g a b (j1 :: l1) (j2 :: l2) (j :: l).

Section Step.
Variable mu : R.
Variable g : geo.
Variables eps sg : grid R.
Hypothesis G : geo_ok g.
Hypothesis F1 : fits2 (g_nr g) (g_nz g) eps.
Hypothesis F2 : fits2 (g_nr g) (g_nz g) sg.
Let nr := g_nr g.
Let nz := g_nz g.
(** what a step does, cell by cell *)
Lemma step_cells j y y' : fits3 nr nz j -> yee_fits g y -> yee_step mu g eps sg j y = Ok y' ->
  (forall c i k, 0 <= i < nr -> 0 <= k < nz -> lv (getc c (y_e y')) i k = e_cell g (y_t y) j eps sg i k (fun x => lv (getc x (y_e y)) i k) c) /\
  (forall i k, 0 <= i < nr -> 0 <= k < nz ->
     lv (c_r (y_t y')) i k = (lv (c_r (y_t y)) i k + wall_times g i * alpha_r mu g (y_e y') i k)%R /\
     lv (c_phi (y_t y')) i k = (lv (c_phi (y_t y)) i k + alpha_phi mu g (y_e y') i k)%R /\
     lv (c_z (y_t y')) i k = (lv (c_z (y_t y)) i k - alpha_z mu g (y_e y') i k)%R /\
     lv (c_r (y_h y')) i k = (lv (c_r (y_t y)) i k + (wall_times g i - /2) * alpha_r mu g (y_e y') i k)%R /\
     lv (c_phi (y_h y')) i k = (lv (c_phi (y_t y)) i k + alpha_phi mu g (y_e y') i k / 2)%R /\
     lv (c_z (y_h y')) i k = (lv (c_z (y_t y)) i k - alpha_z mu g (y_e y') i k / 2)%R) /\
  (forall c i k, inw nr nz i k -> ~ (0 <= i < nr /\ 0 <= k < nz) -> lv (getc c (y_e y')) i k = 0%R /\ lv (getc c (y_h y')) i k = 0%R /\ lv (getc c (y_t y')) i k = 0%R).
Proof using G F1 F2.
  intros Fj (Fe & Fh & Ft) E. destruct G as [G1 G2]. unfold yee_step in E.
  destruct (calc_field_e_spec g (y_t y) j eps sg Ft Fj F1 F2 (y_e y) Fe G1 G2) as (e & Ee & Fe' & Ve & Ze). rewrite Ee in E. cbn [bind] in E.
  destruct (calc_field_h_spec mu g e Fe' (y_h y) (y_t y) Fh Ft G1) as (h & t & Eh & Fh' & Ft' & Vh & Zh). rewrite Eh in E. cbn [bind] in E. injection E as <-. cbn [y_e y_h y_t].
  split; [exact Ve|]. split; [exact Vh|]. intros c i k Hw Hn. split; [now apply Ze|]. now apply Zh.
Qed.

Lemma step_combines a b j1 j2 j y1 y2 y y1' y2' y' :
  fits3 nr nz j1 -> fits3 nr nz j2 -> fits3 nr nz j -> yee_fits g y1 -> yee_fits g y2 -> yee_fits g y ->
  combines nr nz a b j1 j2 j -> state_combines g a b y1 y2 y ->
  yee_step mu g eps sg j1 y1 = Ok y1' -> yee_step mu g eps sg j2 y2 = Ok y2' -> yee_step mu g eps sg j y = Ok y' -> state_combines g a b y1' y2' y'.
Proof using G F1 F2.
  intros J1 J2 J Y1 Y2 Y Cj (Ce & _ & Ct) E1 E2 E.
  destruct (step_cells _ _ _ J1 Y1 E1) as (A1 & B1 & Z1). destruct (step_cells _ _ _ J2 Y2 E2) as (A2 & B2 & Z2). destruct (step_cells _ _ _ J Y E) as (A & B & Z).
  assert (Se : combines nr nz a b (y_e y1') (y_e y2') (y_e y')).
  { intros c i k Hw. assert (D : (0 <= i < nr /\ 0 <= k < nz) \/ ~ (0 <= i < nr /\ 0 <= k < nz)) by lia. destruct D as [[Hi Hk]|N].
    - rewrite A, A1, A2 by assumption. assert (Q := Ct Cr). assert (Q2 := Ct Cphi). assert (Q3 := Ct Cz). cbn [getc] in Q, Q2, Q3.
      assert (W1 : inw nr nz (i - 1) k) by (unfold inw; lia). assert (W2 : inw nr nz i (k - 1)) by (unfold inw; lia).
      assert (Ce' := Ce c i k Hw). assert (Cj' := Cj c i k Hw). unfold e_cell. fold nr nz.
      destruct (_ && _ && _ && _); [|destruct (_ && _ && _ && _); [|destruct (_ && _ && _ && _)]]; destruct c; cbn [new_reg new_left new_axis getc] in *; try exact Ce';
      unfold e_upd, rot_r, rot_z_axis, rot_z, rot_phi, Rdiv; rewrite Ce', Cj', ?(Q i k Hw), ?(Q2 i k Hw), ?(Q3 i k Hw), ?(Q _ _ W1), ?(Q2 _ _ W1), ?(Q3 _ _ W1), ?(Q _ _ W2), ?(Q2 _ _ W2), ?(Q3 _ _ W2); ring.
    - rewrite (proj1 (Z c i k Hw N)), (proj1 (Z1 c i k Hw N)), (proj1 (Z2 c i k Hw N)). ring. }
  assert (Sh : forall c i k, inw nr nz i k -> lv (getc c (y_h y')) i k = (a * lv (getc c (y_h y1')) i k + b * lv (getc c (y_h y2')) i k)%R /\
     lv (getc c (y_t y')) i k = (a * lv (getc c (y_t y1')) i k + b * lv (getc c (y_t y2')) i k)%R).
  { intros c i k Hw. assert (D : (0 <= i < nr /\ 0 <= k < nz) \/ ~ (0 <= i < nr /\ 0 <= k < nz)) by lia. destruct D as [[Hi Hk]|N].
    - destruct (B i k Hi Hk) as (P1 & P2 & P3 & P4 & P5 & P6). destruct (B1 i k Hi Hk) as (Q1 & Q2 & Q3 & Q4 & Q5 & Q6). destruct (B2 i k Hi Hk) as (R1 & R2 & R3 & R4 & R5 & R6).
      assert (W1 : inw nr nz (i + 1) k) by (unfold inw; lia). assert (W2 : inw nr nz i (k + 1)) by (unfold inw; lia).
      assert (S1 := Se Cr). assert (S2 := Se Cphi). assert (S3 := Se Cz). assert (T1 := Ct Cr i k Hw). assert (T2 := Ct Cphi i k Hw). assert (T3 := Ct Cz i k Hw). cbn [getc] in S1, S2, S3, T1, T2, T3.
      assert (L1 : alpha_r mu g (y_e y') i k = (a * alpha_r mu g (y_e y1') i k + b * alpha_r mu g (y_e y2') i k)%R) by (unfold alpha_r, Rdiv; rewrite (S2 i k Hw), (S2 _ _ W2); ring).
      assert (L2 : alpha_phi mu g (y_e y') i k = (a * alpha_phi mu g (y_e y1') i k + b * alpha_phi mu g (y_e y2') i k)%R)
        by (unfold alpha_phi, Rdiv; rewrite (S3 i k Hw), (S1 i k Hw), (S3 _ _ W1), (S1 _ _ W2); ring).
      assert (L3 : alpha_z mu g (y_e y') i k = (a * alpha_z mu g (y_e y1') i k + b * alpha_z mu g (y_e y2') i k)%R) by (unfold alpha_z, Rdiv; rewrite (S2 i k Hw), (S2 _ _ W1); ring).
      destruct c; cbn [getc]; rewrite ?P1, ?P2, ?P3, ?P4, ?P5, ?P6, ?Q1, ?Q2, ?Q3, ?Q4, ?Q5, ?Q6, ?R1, ?R2, ?R3, ?R4, ?R5, ?R6, ?L1, ?L2, ?L3, ?T1, ?T2, ?T3; unfold Rdiv; split; ring.
    - destruct (Z c i k Hw N) as (_ & -> & ->). destruct (Z1 c i k Hw N) as (_ & -> & ->). destruct (Z2 c i k Hw N) as (_ & -> & ->). split; ring. }
  split; [exact Se|]. split; intros c i k Hw; now apply Sh.
Qed.
End Step.

(** ** C151 *)
(** the fields of a + b are the fields of a plus the fields of b: any number of steps, any walls, any absorbing layers *)
Theorem C151_superposition : forall mu g eps sg a b js1 js2 js y1 y2 y, geo_ok g -> fits2 (g_nr g) (g_nz g) eps -> fits2 (g_nr g) (g_nz g) sg ->
  Forall (fits3 (g_nr g) (g_nz g)) js1 -> Forall (fits3 (g_nr g) (g_nz g)) js2 -> Forall (fits3 (g_nr g) (g_nz g)) js -> yee_fits g y1 -> yee_fits g y2 -> yee_fits g y ->
  combine_all g a b js1 js2 js -> state_combines g a b y1 y2 y ->
  exists y1' y2' y', yee_run mu g eps sg js1 y1 = Ok y1' /\ yee_run mu g eps sg js2 y2 = Ok y2' /\ yee_run mu g eps sg js y = Ok y' /\ state_combines g a b y1' y2' y'.
Proof.
  intros mu g eps sg a b js1 js2 js y1 y2 y G E1 E2 F1 F2 F Y1 Y2 Y C. revert y1 y2 y F1 F2 F Y1 Y2 Y.
  induction C as [|j1 j2 j l1 l2 l Cj C IH]; intros y1 y2 y F1 F2 F Y1 Y2 Y S.
  - exists y1, y2, y. auto.
  - inversion F1; subst. inversion F2; subst. inversion F; subst. cbn [yee_run].
    destruct (yee_step_ok mu g eps sg j1 y1) as (z1 & S1 & Z1); auto. destruct (yee_step_ok mu g eps sg j2 y2) as (z2 & S2 & Z2); auto. destruct (yee_step_ok mu g eps sg j y) as (z & S0 & Z0); auto.
    rewrite S1, S2, S0. cbn [bind]. apply IH; auto. exact (step_combines mu g eps sg G E1 E2 a b j1 j2 j y1 y2 y z1 z2 z ltac:(auto) ltac:(auto) ltac:(auto) Y1 Y2 Y Cj S S1 S2 S0).
Qed.
(** two grids that are equal outside a box *)
Definition same_out (a b c d nr nz : Z) (f1 f2 : grid3 R) : Prop := forall x i k, inw nr nz i k -> ~ (a <= i <= b /\ c <= k <= d) -> lv (getc x f1) i k = lv (getc x f2) i k.
(** the difference of two grids *)
Definition less (f1 f2 : grid3 R) : grid3 R :=
  let d c := setc (getc c f1) (fun x y => cell (getc c f1) x y - cell (getc c f2) x y)%R in mkGrid3 (d Cr) (d Cphi) (d Cz).
Lemma less_fits nr nz f1 f2 : fits3 nr nz f1 -> fits3 nr nz (less f1 f2).
Proof. intros F c. specialize (F c). destruct c; exact F. Qed.
Lemma less_lv nr nz f1 f2 c x y : fits3 nr nz f1 -> fits3 nr nz f2 -> lv (getc c (less f1 f2)) x y = (lv (getc c f1) x y - lv (getc c f2) x y)%R.
Proof.
  intros A B. destruct (A c) as (_ & E1 & _). destruct (B c) as (_ & E2 & _).
  assert (E : lv (getc c (less f1 f2)) x y = (cell (getc c f1) (x + os (getc c f1)) (y + os (getc c f1)) - cell (getc c f2) (x + os (getc c f1)) (y + os (getc c f1)))%R) by (destruct c; reflexivity).
  rewrite E. unfold lv. now rewrite E1, E2.
Qed.
Lemma less_combines nr nz f1 f2 : fits3 nr nz f1 -> fits3 nr nz f2 -> combines nr nz 1 (-1) f1 f2 (less f1 f2).
Proof. intros A B c x y _. rewrite (less_lv nr nz) by assumption. ring. Qed.
Lemma less_out nr nz f1 f2 a b c d : fits3 nr nz f1 -> fits3 nr nz f2 -> same_out a b c d nr nz f1 f2 -> zero_out a b c d nr nz (less f1 f2).
Proof. intros A B S x i k Hw N. rewrite (less_lv nr nz), (S x i k Hw N) by assumption. ring. Qed.
Lemma zero_same nr nz f1 f2 f a b c d : combines nr nz 1 (-1) f1 f2 f -> zero_out a b c d nr nz f -> same_out a b c d nr nz f1 f2.
Proof. intros C Z x i k Hw N. specialize (C x i k Hw). rewrite (Z x i k Hw N) in C. lra. Qed.
(** what happens in a box reaches the cells around it with at most one cell per step: two runs that differ in the box only, with any
    fields and currents elsewhere *)
Theorem C151_dependence : forall mu g eps sg js1 js2 a b c d y1 y2 y1' y2', geo_ok g -> fits2 (g_nr g) (g_nz g) eps -> fits2 (g_nr g) (g_nz g) sg ->
  Forall (fits3 (g_nr g) (g_nz g)) js1 -> Forall (fits3 (g_nr g) (g_nz g)) js2 -> yee_fits g y1 -> yee_fits g y2 ->
  Forall2 (same_out a b c d (g_nr g) (g_nz g)) js1 js2 ->
  same_out a b c d (g_nr g) (g_nz g) (y_e y1) (y_e y2) -> same_out a b c d (g_nr g) (g_nz g) (y_t y1) (y_t y2) -> same_out a b c d (g_nr g) (g_nz g) (y_h y1) (y_h y2) ->
  yee_run mu g eps sg js1 y1 = Ok y1' -> yee_run mu g eps sg js2 y2 = Ok y2' ->
  let n := Z.of_nat (length js1) in
  same_out (a - n) (b + n) (c - n) (d + n) (g_nr g) (g_nz g) (y_e y1') (y_e y2') /\
  same_out (a - n) (b + n) (c - n) (d + n) (g_nr g) (g_nz g) (y_t y1') (y_t y2') /\
  same_out (a - n) (b + n) (c - n) (d + n) (g_nr g) (g_nz g) (y_h y1') (y_h y2').
Proof.
  intros mu g eps sg js1 js2 a b c d y1 y2 y1' y2' G E1 E2 F1 F2 Y1 Y2 Js Se St Sh R1 R2 n.
  set (nr := g_nr g) in *. set (nz := g_nz g) in *.
  assert (D : exists js, combine_all g 1 (-1) js1 js2 js /\ Forall (fits3 nr nz) js /\ Forall (zero_out a b c d nr nz) js /\ length js = length js1).
  { clear R1 R2 Se St Sh n. induction Js as [|j1 j2 l1 l2 Sj Js IH].
    - exists []. repeat split; constructor.
    - inversion F1 as [|? ? J1 L1]; subst. inversion F2 as [|? ? J2 L2]; subst. destruct (IH L1 L2) as (js & C & F & Z & L). exists (less j1 j2 :: js).
      split; [constructor; [now apply less_combines|exact C]|]. split; [constructor; [now apply less_fits|exact F]|]. split; [constructor; [now apply less_out|exact Z]|]. cbn [length]. congruence. }
  destruct D as (js & C & F & Z & L). destruct Y1 as (Y1e & Y1h & Y1t). destruct Y2 as (Y2e & Y2h & Y2t). fold nr nz in Y1e, Y1h, Y1t, Y2e, Y2h, Y2t.
  set (y := mkYee (less (y_e y1) (y_e y2)) (less (y_h y1) (y_h y2)) (less (y_t y1) (y_t y2))).
  assert (Y : yee_fits g y) by (split; [|split]; now apply less_fits).
  destruct (C151_superposition mu g eps sg 1 (-1) js1 js2 js y1 y2 y) as (z1 & z2 & z & S1 & S2 & S & Cz); auto.
  { split; auto. } { split; auto. } { split; [|split]; now apply less_combines. }
  rewrite R1 in S1. injection S1 as <-. rewrite R2 in S2. injection S2 as <-.
  destruct (C38_speed mu g eps sg js a b c d y z) as (V1 & V2 & V3); auto; try (now apply less_out).
  rewrite L in V1, V2, V3. fold n nr nz in V1, V2, V3. destruct Cz as (Ce & Ch & Ct).
  split; [exact (zero_same _ _ _ _ _ _ _ _ _ Ce V1)|]. split; [exact (zero_same _ _ _ _ _ _ _ _ _ Ct V2)|exact (zero_same _ _ _ _ _ _ _ _ _ Ch V3)].
Qed.

(** ** C152: the polarisations *)
(** the two polarisations: E_r, E_z, H_phi with the currents j_r, j_z, and E_phi, H_r, H_z with j_phi *)
Definition pol_e (first : bool) (c : comp) : bool := match c with Cphi => negb first | _ => first end.
Definition pol_h (first : bool) (c : comp) : bool := pol_e (negb first) c.
Definition same_in (nr nz : Z) (p : comp -> bool) (f1 f2 : grid3 R) : Prop := forall c x y, p c = true -> inw nr nz x y -> lv (getc c f1) x y = lv (getc c f2) x y.
Definition same_pol (g : geo) (first : bool) (y1 y2 : yee) : Prop :=
  same_in (g_nr g) (g_nz g) (pol_e first) (y_e y1) (y_e y2) /\ same_in (g_nr g) (g_nz g) (pol_h first) (y_h y1) (y_h y2) /\ same_in (g_nr g) (g_nz g) (pol_h first) (y_t y1) (y_t y2).
Theorem C152_step : forall mu g eps sg first j1 j2 y1 y2 y1' y2', geo_ok g -> fits2 (g_nr g) (g_nz g) eps -> fits2 (g_nr g) (g_nz g) sg ->
  fits3 (g_nr g) (g_nz g) j1 -> fits3 (g_nr g) (g_nz g) j2 -> yee_fits g y1 -> yee_fits g y2 ->
  same_in (g_nr g) (g_nz g) (pol_e first) j1 j2 -> same_pol g first y1 y2 ->
  yee_step mu g eps sg j1 y1 = Ok y1' -> yee_step mu g eps sg j2 y2 = Ok y2' -> same_pol g first y1' y2'.
Proof.
  intros mu g eps sg first j1 j2 y1 y2 y1' y2' G E1 E2 J1 J2 Y1 Y2 Cj (Ce & _ & Ct) R1 R2.
  destruct (step_cells mu g eps sg G E1 E2 _ _ _ J1 Y1 R1) as (A1 & B1 & Z1). destruct (step_cells mu g eps sg G E1 E2 _ _ _ J2 Y2 R2) as (A2 & B2 & Z2).
  assert (Se : same_in (g_nr g) (g_nz g) (pol_e first) (y_e y1') (y_e y2')).
  { intros c i k Pc Hw. assert (D : (0 <= i < g_nr g /\ 0 <= k < g_nz g) \/ ~ (0 <= i < g_nr g /\ 0 <= k < g_nz g)) by lia. destruct D as [[Hi Hk]|N].
    - rewrite A1, A2 by assumption. assert (W1 : inw (g_nr g) (g_nz g) (i - 1) k) by (unfold inw; lia). assert (W2 : inw (g_nr g) (g_nz g) i (k - 1)) by (unfold inw; lia).
      assert (Ce' := Ce c i k Pc Hw). assert (Cj' := Cj c i k Pc Hw). assert (Q1 := fun x y => Ct Cr x y). assert (Q2 := fun x y => Ct Cphi x y). assert (Q3 := fun x y => Ct Cz x y). cbn [getc] in Q1, Q2, Q3.
      unfold e_cell. destruct (_ && _ && _ && _); [|destruct (_ && _ && _ && _); [|destruct (_ && _ && _ && _)]]; destruct c, first; cbn [new_reg new_left new_axis getc pol_e pol_h negb] in *; try discriminate Pc; try exact Ce';
      unfold e_upd, rot_r, rot_z_axis, rot_z, rot_phi; rewrite Ce', Cj';
      try rewrite (Q2 i k eq_refl Hw); try rewrite (Q2 _ _ eq_refl W1); try rewrite (Q2 _ _ eq_refl W2); try reflexivity;
      rewrite (Q1 i k eq_refl Hw), (Q1 _ _ eq_refl W2), (Q3 i k eq_refl Hw), (Q3 _ _ eq_refl W1); reflexivity.
    - destruct (Z1 c i k Hw N) as (-> & _). destruct (Z2 c i k Hw N) as (-> & _). reflexivity. }
  assert (Sh : forall c i k, pol_h first c = true -> inw (g_nr g) (g_nz g) i k -> lv (getc c (y_h y1')) i k = lv (getc c (y_h y2')) i k /\ lv (getc c (y_t y1')) i k = lv (getc c (y_t y2')) i k).
  { intros c i k Pc Hw. assert (D : (0 <= i < g_nr g /\ 0 <= k < g_nz g) \/ ~ (0 <= i < g_nr g /\ 0 <= k < g_nz g)) by lia. destruct D as [[Hi Hk]|N].
    - destruct (B1 i k Hi Hk) as (Q1 & Q2 & Q3 & Q4 & Q5 & Q6). destruct (B2 i k Hi Hk) as (R1' & R2' & R3 & R4 & R5 & R6).
      assert (W1 : inw (g_nr g) (g_nz g) (i + 1) k) by (unfold inw; lia). assert (W2 : inw (g_nr g) (g_nz g) i (k + 1)) by (unfold inw; lia).
      assert (T := Ct c i k Pc Hw). assert (S1 := fun x y => Se Cr x y). assert (S2 := fun x y => Se Cphi x y). assert (S3 := fun x y => Se Cz x y). cbn [getc] in S1, S2, S3.
      destruct c, first; cbn [getc pol_e pol_h negb] in *; try discriminate Pc.
      + assert (L : alpha_r mu g (y_e y1') i k = alpha_r mu g (y_e y2') i k) by (unfold alpha_r; now rewrite (S2 i k eq_refl Hw), (S2 _ _ eq_refl W2)). rewrite Q4, R4, Q1, R1', L, T. split; reflexivity.
      + assert (L : alpha_phi mu g (y_e y1') i k = alpha_phi mu g (y_e y2') i k)
          by (unfold alpha_phi; now rewrite (S1 i k eq_refl Hw), (S3 i k eq_refl Hw), (S3 _ _ eq_refl W1), (S1 _ _ eq_refl W2)). rewrite Q5, R5, Q2, R2', L, T. split; reflexivity.
      + assert (L : alpha_z mu g (y_e y1') i k = alpha_z mu g (y_e y2') i k) by (unfold alpha_z; now rewrite (S2 i k eq_refl Hw), (S2 _ _ eq_refl W1)). rewrite Q6, R6, Q3, R3, L, T. split; reflexivity.
    - destruct (Z1 c i k Hw N) as (_ & -> & ->). destruct (Z2 c i k Hw N) as (_ & -> & ->). split; reflexivity. }
  split; [exact Se|]. split; intros c i k Pc Hw; now apply Sh.
Qed.
(** neither polarisation depends on the fields and currents of the other one, for ever *)
Theorem C152_for_ever : forall mu g eps sg first js1 js2 y1 y2 y1' y2', geo_ok g -> fits2 (g_nr g) (g_nz g) eps -> fits2 (g_nr g) (g_nz g) sg ->
  Forall (fits3 (g_nr g) (g_nz g)) js1 -> Forall (fits3 (g_nr g) (g_nz g)) js2 -> yee_fits g y1 -> yee_fits g y2 ->
  Forall2 (same_in (g_nr g) (g_nz g) (pol_e first)) js1 js2 -> same_pol g first y1 y2 ->
  yee_run mu g eps sg js1 y1 = Ok y1' -> yee_run mu g eps sg js2 y2 = Ok y2' -> same_pol g first y1' y2'.
Proof.
  intros mu g eps sg first js1 js2 y1 y2 y1' y2' G E1 E2 F1 F2 Y1 Y2 Js. revert y1 y2 F1 F2 Y1 Y2.
  induction Js as [|j1 j2 l1 l2 Sj Js IH]; intros y1 y2 F1 F2 Y1 Y2 S; cbn [yee_run].
  - intros [= <-] [= <-]. exact S.
  - inversion F1; subst. inversion F2; subst.
    destruct (yee_step_ok mu g eps sg j1 y1) as (z1 & S1 & Z1); auto. destruct (yee_step_ok mu g eps sg j2 y2) as (z2 & S2 & Z2); auto. rewrite S1, S2. cbn [bind].
    apply IH; auto. apply (C152_step mu g eps sg first j1 j2 y1 y2 z1 z2); auto.
Qed.
(** with no field and no current of one polarisation at the start there never is one *)
Definition none_in (nr nz : Z) (p : comp -> bool) (f : grid3 R) : Prop := forall c x y, p c = true -> inw nr nz x y -> lv (getc c f) x y = 0%R.
Definition none_pol (g : geo) (first : bool) (y : yee) : Prop :=
  none_in (g_nr g) (g_nz g) (pol_e first) (y_e y) /\ none_in (g_nr g) (g_nz g) (pol_h first) (y_h y) /\ none_in (g_nr g) (g_nz g) (pol_h first) (y_t y).
Definition blank (nr nz : Z) : grid3 R := let z := new_grid nr nz 2 (fun _ _ => 0%R) in mkGrid3 z z z.
Lemma blank_fits nr nz : 0 <= nr -> 0 <= nz -> nr + 4 < 2 ^ 32 -> nz + 4 < 2 ^ 32 -> fits3 nr nz (blank nr nz).
Proof. intros A B C D c. destruct c; (split; [unfold wf, blank, new_grid; cbn [getc c_r c_phi c_z xr yr xs ys os]; rewrite !u32_small by lia; lia|repeat split]). Qed.
Theorem C152_none : forall mu g eps sg first js y y', geo_ok g -> g_nr g + 4 < 2 ^ 32 -> g_nz g + 4 < 2 ^ 32 -> fits2 (g_nr g) (g_nz g) eps -> fits2 (g_nr g) (g_nz g) sg ->
  Forall (fits3 (g_nr g) (g_nz g)) js -> yee_fits g y -> Forall (none_in (g_nr g) (g_nz g) (pol_e first)) js -> none_pol g first y ->
  yee_run mu g eps sg js y = Ok y' -> none_pol g first y'.
Proof.
  intros mu g eps sg first js y y' G Br Bz E1 E2 F Y Nj (Ne & Nh & Nt) R. set (z := blank (g_nr g) (g_nz g)). pose proof G as [G1 G2].
  assert (Fz : fits3 (g_nr g) (g_nz g) z) by (apply blank_fits; lia).
  assert (Lz : forall c x y, lv (getc c z) x y = 0%R) by (intros [] ? ?; reflexivity).
  assert (Zz : zero3 (g_nr g) (g_nz g) z) by (intros c x k _; apply Lz).
  destruct (C38_run_defined mu g eps sg (map (fun _ => z) js) (mkYee z z z) G E1 E2) as (y2 & R2 & _).
  { apply Forall_forall. intros f Hf. apply in_map_iff in Hf as (? & <- & _). exact Fz. } { split; [|split]; exact Fz. }
  destruct (C38_empty mu g eps sg (map (fun _ => z) js) (mkYee z z z) y2) as (Z1 & Z2 & Z3); auto.
  { apply Forall_forall. intros f Hf. apply in_map_iff in Hf as (? & <- & _). exact Fz. } { split; [|split]; exact Fz. }
  { apply Forall_forall. intros f Hf. apply in_map_iff in Hf as (? & <- & _). exact Zz. }
  destruct (C152_for_ever mu g eps sg first js (map (fun _ => z) js) y (mkYee z z z) y' y2) as (S1 & S2 & S3); auto.
  { apply Forall_forall. intros f Hf. apply in_map_iff in Hf as (? & <- & _). exact Fz. } { split; [|split]; exact Fz. }
  { clear - Nj Lz. induction Nj as [|j l N _ IH]; [constructor|]. cbn [map]. constructor; [|exact IH]. intros c x y Pc Hw. now rewrite (N c x y Pc Hw), Lz. }
  { split; [|split]; intros c x k Pc Hw; cbn [y_e y_h y_t]; rewrite Lz; auto. }
  split; [|split]; intros c x k Pc Hw; [rewrite (S1 c x k Pc Hw); now apply Z1|rewrite (S2 c x k Pc Hw); now apply Z3|rewrite (S3 c x k Pc Hw); now apply Z2].
Qed.

(** ** C153: nothing is lost *)
(** the cells of the domain, without the ones around it *)
Definition same_dom (g : geo) (f1 f2 : grid3 R) : Prop := forall c i k, 0 <= i < g_nr g -> 0 <= k < g_nz g -> lv (getc c f1) i k = lv (getc c f2) i k.
Definition same_around (g : geo) (f1 f2 : grid3 R) : Prop :=
  forall c i k, inw (g_nr g) (g_nz g) i k -> ~ (0 <= i < g_nr g /\ 0 <= k < g_nz g) -> lv (getc c f1) i k = lv (getc c f2) i k.
(** no cell whose conductivity cancels the old field *)
Definition keeps (g : geo) (eps sg : grid R) : Prop :=
  forall i k, 0 <= i < g_nr g -> 0 <= k < g_nz g -> (2 * lv eps i k - lv sg i k * g_dt g <> 0 /\ 2 * lv eps i k + lv sg i k * g_dt g <> 0)%R.
Lemma back_step mu g eps sg j y1 y2 y1' y2' : geo_ok g -> fits2 (g_nr g) (g_nz g) eps -> fits2 (g_nr g) (g_nz g) sg -> keeps g eps sg ->
  fits3 (g_nr g) (g_nz g) j -> yee_fits g y1 -> yee_fits g y2 -> same_around g (y_t y1) (y_t y2) ->
  yee_step mu g eps sg j y1 = Ok y1' -> yee_step mu g eps sg j y2 = Ok y2' -> same_dom g (y_e y1') (y_e y2') -> same_dom g (y_t y1') (y_t y2') ->
  same_dom g (y_e y1) (y_e y2) /\ same_dom g (y_t y1) (y_t y2).
Proof.
  intros G E1 E2 K J Y1 Y2 Ar R1 R2 Se St.
  destruct (step_cells mu g eps sg G E1 E2 _ _ _ J Y1 R1) as (A1 & B1 & Z1). destruct (step_cells mu g eps sg G E1 E2 _ _ _ J Y2 R2) as (A2 & B2 & Z2).
  assert (Fe : forall c i k, inw (g_nr g) (g_nz g) i k -> lv (getc c (y_e y1')) i k = lv (getc c (y_e y2')) i k).
  { intros c i k Hw. assert (D : (0 <= i < g_nr g /\ 0 <= k < g_nz g) \/ ~ (0 <= i < g_nr g /\ 0 <= k < g_nz g)) by lia. destruct D as [[Hi Hk]|N]; [now apply Se|].
    destruct (Z1 c i k Hw N) as (-> & _). destruct (Z2 c i k Hw N) as (-> & _). reflexivity. }
  assert (Dt : same_dom g (y_t y1) (y_t y2)).
  { intros c i k Hi Hk. destruct (B1 i k Hi Hk) as (Q1 & Q2 & Q3 & _). destruct (B2 i k Hi Hk) as (P1 & P2 & P3 & _).
    assert (Hw : inw (g_nr g) (g_nz g) i k) by (unfold inw; lia). assert (W1 : inw (g_nr g) (g_nz g) (i + 1) k) by (unfold inw; lia). assert (W2 : inw (g_nr g) (g_nz g) i (k + 1)) by (unfold inw; lia).
    assert (S1 := fun x y => Fe Cr x y). assert (S2 := fun x y => Fe Cphi x y). assert (S3 := fun x y => Fe Cz x y). cbn [getc] in S1, S2, S3.
    assert (Lr : alpha_r mu g (y_e y1') i k = alpha_r mu g (y_e y2') i k) by (unfold alpha_r; now rewrite (S2 i k Hw), (S2 _ _ W2)).
    assert (Lp : alpha_phi mu g (y_e y1') i k = alpha_phi mu g (y_e y2') i k) by (unfold alpha_phi; now rewrite (S1 i k Hw), (S3 i k Hw), (S3 _ _ W1), (S1 _ _ W2)).
    assert (Lz : alpha_z mu g (y_e y1') i k = alpha_z mu g (y_e y2') i k) by (unfold alpha_z; now rewrite (S2 i k Hw), (S2 _ _ W1)).
    assert (S := St c i k Hi Hk). destruct c; cbn [getc] in *; [rewrite Q1, P1, Lr in S|rewrite Q2, P2, Lp in S|rewrite Q3, P3, Lz in S]; lra. }
  split; [|exact Dt]. intros c i k Hi Hk.
  assert (Ft : forall x a b, inw (g_nr g) (g_nz g) a b -> lv (getc x (y_t y1)) a b = lv (getc x (y_t y2)) a b).
  { intros x a b Hw. assert (D : (0 <= a < g_nr g /\ 0 <= b < g_nz g) \/ ~ (0 <= a < g_nr g /\ 0 <= b < g_nz g)) by lia. destruct D as [[Ha Hb]|N]; [now apply Dt|now apply Ar]. }
  assert (Hw : inw (g_nr g) (g_nz g) i k) by (unfold inw; lia). assert (W1 : inw (g_nr g) (g_nz g) (i - 1) k) by (unfold inw; lia). assert (W2 : inw (g_nr g) (g_nz g) i (k - 1)) by (unfold inw; lia).
  assert (Q1 := fun x y => Ft Cr x y). assert (Q2 := fun x y => Ft Cphi x y). assert (Q3 := fun x y => Ft Cz x y). cbn [getc] in Q1, Q2, Q3.
  assert (U : forall u v jc r, e_upd g eps sg i k u jc r = e_upd g eps sg i k v jc r -> u = v).
  { intros u v jc r Eq. unfold e_upd in Eq. assert (M : (u * ke g eps sg i k = v * ke g eps sg i k)%R) by lra. apply Rmult_eq_reg_r in M; [exact M|].
    destruct (K i k Hi Hk) as [K1 K2]. unfold ke. intros Z. apply Rmult_integral in Z as [Z|Z]; [now apply K1|]. revert Z. now apply Rinv_neq_0_compat. }
  assert (S := Se c i k Hi Hk). rewrite A1, A2 in S by assumption. unfold e_cell in S.
  destruct (_ && _ && _ && _); [|destruct (_ && _ && _ && _); [|destruct (_ && _ && _ && _)]]; destruct c; cbn [new_reg new_left new_axis getc] in *; try exact S;
  apply U in S || (unfold rot_r, rot_z_axis, rot_z, rot_phi in S; rewrite ?(Q1 i k Hw), ?(Q2 i k Hw), ?(Q3 i k Hw), ?(Q1 _ _ W1), ?(Q2 _ _ W1), ?(Q3 _ _ W1), ?(Q1 _ _ W2), ?(Q2 _ _ W2), ?(Q3 _ _ W2) in S; apply U in S); exact S.
Qed.
(** two runs with the same currents that end with the same fields began with the same fields *)
Theorem C153_nothing_lost : forall mu g eps sg js y1 y2 y1' y2', geo_ok g -> fits2 (g_nr g) (g_nz g) eps -> fits2 (g_nr g) (g_nz g) sg -> keeps g eps sg ->
  Forall (fits3 (g_nr g) (g_nz g)) js -> yee_fits g y1 -> yee_fits g y2 -> same_around g (y_t y1) (y_t y2) ->
  yee_run mu g eps sg js y1 = Ok y1' -> yee_run mu g eps sg js y2 = Ok y2' -> same_dom g (y_e y1') (y_e y2') -> same_dom g (y_t y1') (y_t y2') ->
  same_dom g (y_e y1) (y_e y2) /\ same_dom g (y_t y1) (y_t y2).
Proof.
  intros mu g eps sg js y1 y2 y1' y2' G E1 E2 K F. revert y1 y2. induction F as [|j l J F IH]; intros y1 y2 Y1 Y2 Ar; cbn [yee_run].
  - intros [= <-] [= <-] Se St. split; assumption.
  - destruct (yee_step_ok mu g eps sg j y1) as (z1 & S1 & Z1); auto. destruct (yee_step_ok mu g eps sg j y2) as (z2 & S2 & Z2); auto. rewrite S1, S2. cbn [bind]. intros R1 R2 Se St.
    destruct (step_cells mu g eps sg G E1 E2 _ _ _ J Y1 S1) as (_ & _ & O1). destruct (step_cells mu g eps sg G E1 E2 _ _ _ J Y2 S2) as (_ & _ & O2).
    assert (Ar' : same_around g (y_t z1) (y_t z2)). { intros c i k Hw N. destruct (O1 c i k Hw N) as (_ & _ & ->). destruct (O2 c i k Hw N) as (_ & _ & ->). reflexivity. }
    destruct (IH z1 z2) as (De & Dt); auto. now apply (back_step mu g eps sg j y1 y2 z1 z2).
Qed.

(** ** concrete runs *)
Definition geo9 : geo := mkGeo 9 9 0 0 1 1 true true true true 1.
Definition gf (f : Z -> Z -> R) : grid R := new_grid 9 9 2 (fun x y => f (x - 2) (y - 2)).
Lemma gf_fits f : fits2 9 9 (gf f).
Proof. split; [apply new_grid_wf; lia|]. repeat split. Qed.
Lemma gf_lv f x y : lv (gf f) x y = f x y.
Proof. unfold lv, gf, new_grid. cbn [cell os]. f_equal; lia. Qed.
Definition gf3 (a b c : Z -> Z -> R) : grid3 R := mkGrid3 (gf a) (gf b) (gf c).
Lemma gf3_fits a b c : fits3 9 9 (gf3 a b c).
Proof. intros []; apply gf_fits. Qed.
Definition none9 : Z -> Z -> R := fun _ _ => 0%R.
Definition spot (v : R) : Z -> Z -> R := fun x y => if (x =? 4) && (y =? 4) then v else 0%R.
(** H_phi is 5 everywhere; [y9 v] adds v in one cell *)
Definition y9 (v : R) : yee := mkYee (gf3 none9 none9 none9) (gf3 none9 none9 none9) (gf3 none9 (fun x y => 5 + spot v x y)%R none9).
Lemma y9_fits v : yee_fits geo9 (y9 v).
Proof. split; [|split]; apply gf3_fits. Qed.
Lemma geo9_ok : geo_ok geo9. Proof. split; cbn; lia. Qed.
(** E_r one cell farther after a step *)
Lemma y9_step v : exists y', yee_step 1 geo9 (gf (fun _ _ => 1%R)) (gf none9) (gf3 none9 none9 none9) (y9 v) = Ok y' /\ lv (c_r (y_e y')) 4 5 = v /\ lv (c_phi (y_e y')) 4 5 = 0%R.
Proof.
  destruct (yee_step_ok 1 geo9 (gf (fun _ _ => 1%R)) (gf none9) (gf3 none9 none9 none9) (y9 v) geo9_ok (gf_fits _) (gf_fits _) (gf3_fits _ _ _) (y9_fits v)) as (y' & S & _).
  destruct (step_cells 1 geo9 _ _ geo9_ok (gf_fits _) (gf_fits _) _ _ _ (gf3_fits _ _ _) (y9_fits v) S) as (A & _). exists y'. split; [exact S|].
  split; [specialize (A Cr 4 5 ltac:(cbn; lia) ltac:(cbn; lia))|specialize (A Cphi 4 5 ltac:(cbn; lia) ltac:(cbn; lia))]; cbn [getc] in A; rewrite A; unfold e_cell, lo_r, lo_z, hi_r, hi_z; cbn [g_w0 g_w1 g_w2 g_w3 g_nr g_nz geo9];
  (replace (_ && _ && _ && _) with true by reflexivity); cbn [new_reg]; unfold e_upd, ke, kh, rot_r, rot_phi; cbn [y_e y_t y9 gf3 c_r c_phi c_z getc]; rewrite !gf_lv; unfold none9, spot; cbn [g_dt g_dz g_dr geo9];
  (replace ((4 =? 4) && (5 =? 4)) with false by reflexivity); try (replace ((4 =? 4) && (5 - 1 =? 4)) with true by reflexivity); field.
Qed.
(** twice [y9 1] less [y9 0] is 5 everywhere and 2 more in the cell, which is [y9 2]; the runs of [y9 1] and [y9 0] differ at the end of
    the reach of the cell, and neither reaches the other polarisation *)
Example C151_example : state_combines geo9 2 (-1) (y9 1) (y9 0) (y9 2) /\ combine_all geo9 2 (-1) [gf3 none9 none9 none9] [gf3 none9 none9 none9] [gf3 none9 none9 none9] /\
  same_out 4 4 4 4 9 9 (y_t (y9 1)) (y_t (y9 0)) /\
  exists y0 y1, yee_run 1 geo9 (gf (fun _ _ => 1%R)) (gf none9) [gf3 none9 none9 none9] (y9 0) = Ok y0 /\
    yee_run 1 geo9 (gf (fun _ _ => 1%R)) (gf none9) [gf3 none9 none9 none9] (y9 1) = Ok y1 /\ lv (c_r (y_e y0)) 4 5 = 0%R /\ lv (c_r (y_e y1)) 4 5 = 1%R.
Proof.
  split; [|split; [|split]].
  - split; [|split]; intros [] x y _; cbn [y_e y_h y_t y9 gf3 getc c_r c_phi c_z]; rewrite !gf_lv; unfold none9, spot; try destruct (_ && _); ring.
  - constructor; [|constructor]. intros [] x y _; cbn [gf3 getc c_r c_phi c_z]; rewrite !gf_lv; unfold none9; ring.
  - intros [] x y _ N; cbn [y_t y9 gf3 getc c_r c_phi c_z]; rewrite !gf_lv; try reflexivity. unfold spot. now replace (_ && _) with false by lia.
  - destruct (y9_step 0) as (y0 & S0 & V0 & _). destruct (y9_step 1) as (y1 & S1 & V1 & _). exists y0, y1. cbn [yee_run]. rewrite S0, S1. cbn [bind]. repeat split; auto.
Qed.
Example C152_example : same_pol geo9 false (y9 1) (y9 0) /\ ~ same_pol geo9 true (y9 1) (y9 0) /\ none_pol geo9 false (y9 1) /\ none_in 9 9 (pol_e false) (gf3 none9 none9 none9) /\
  exists y1, yee_run 1 geo9 (gf (fun _ _ => 1%R)) (gf none9) [gf3 none9 none9 none9] (y9 1) = Ok y1 /\ lv (c_r (y_e y1)) 4 5 = 1%R /\ lv (c_phi (y_e y1)) 4 5 = 0%R.
Proof.
  split; [|split; [|split; [|split]]].
  - split; [|split]; intros [] x y P _; cbn [pol_e pol_h negb] in P; try discriminate P; cbn [y_e y_h y_t y9 gf3 getc c_r c_phi c_z]; now rewrite !gf_lv.
  - intros (_ & _ & T). specialize (T Cphi 4 4 eq_refl ltac:(unfold inw; cbn; lia)). cbn [y_t y9 gf3 getc c_phi] in T. rewrite !gf_lv in T. unfold spot in T.
    change ((4 =? 4) && (4 =? 4)) with true in T. cbv iota in T. lra.
  - split; [|split]; intros [] x y P _; cbn [pol_e pol_h negb] in P; try discriminate P; cbn [y_e y_h y_t y9 gf3 getc c_r c_phi c_z]; now rewrite !gf_lv.
  - intros [] x y _ _; cbn [gf3 getc c_r c_phi c_z]; now rewrite gf_lv.
  - destruct (y9_step 1) as (y1 & S1 & V1 & W1). exists y1. cbn [yee_run]. rewrite S1. cbn [bind]. auto.
Qed.
Example C153_example : keeps geo9 (gf (fun _ _ => 1%R)) (gf none9) /\ same_around geo9 (y_t (y9 1)) (y_t (y9 0)) /\ ~ same_dom geo9 (y_t (y9 1)) (y_t (y9 0)).
Proof.
  split; [|split].
  - intros i k _ _. rewrite !gf_lv. unfold none9. cbn [g_dt geo9]. split; lra.
  - intros [] i k _ N; cbn [y_t y9 gf3 getc c_r c_phi c_z]; rewrite !gf_lv; try reflexivity. unfold spot. cbn [g_nr g_nz geo9] in N. now replace (_ && _) with false by lia.
  - intros S. specialize (S Cphi 4 4 ltac:(cbn; lia) ltac:(cbn; lia)). cbn [y_t y9 gf3 getc c_phi] in S. rewrite !gf_lv in S. unfold spot in S.
    change ((4 =? 4) && (4 =? 4)) with true in S. cbv iota in S. lra.
Qed.
(** where the conductivity times the time step is twice the permittivity, the electric field of before is lost *)
Definition ye (v : R) : yee := mkYee (gf3 none9 none9 (spot v)) (gf3 none9 none9 none9) (gf3 none9 none9 none9).
Theorem C153_cancelled_refuted : exists y1 y2, fits2 9 9 (gf (fun _ _ => 2%R)) /\
  yee_step 1 geo9 (gf (fun _ _ => 1%R)) (gf (fun _ _ => 2%R)) (gf3 none9 none9 none9) (ye 0) = Ok y1 /\ yee_step 1 geo9 (gf (fun _ _ => 1%R)) (gf (fun _ _ => 2%R)) (gf3 none9 none9 none9) (ye 1) = Ok y2 /\
  same_around geo9 (y_t (ye 0)) (y_t (ye 1)) /\ ~ same_dom geo9 (y_e (ye 0)) (y_e (ye 1)) /\
  same_dom geo9 (y_e y1) (y_e y2) /\ same_dom geo9 (y_t y1) (y_t y2).
Proof.
  assert (Y : forall v, yee_fits geo9 (ye v)) by (intros v; split; [|split]; apply gf3_fits). pose proof geo9_ok as G.
  destruct (yee_step_ok 1 geo9 (gf (fun _ _ => 1%R)) (gf (fun _ _ => 2%R)) (gf3 none9 none9 none9) (ye 0) G (gf_fits _) (gf_fits _) (gf3_fits _ _ _) (Y 0%R)) as (y1 & S1 & _).
  destruct (yee_step_ok 1 geo9 (gf (fun _ _ => 1%R)) (gf (fun _ _ => 2%R)) (gf3 none9 none9 none9) (ye 1) G (gf_fits _) (gf_fits _) (gf3_fits _ _ _) (Y 1%R)) as (y2 & S2 & _).
  exists y1, y2. split; [apply gf_fits|]. split; [exact S1|]. split; [exact S2|]. split; [intros [] i k _ _; reflexivity|]. split.
  { intros S. specialize (S Cz 4 4 ltac:(cbn; lia) ltac:(cbn; lia)). cbn [y_e ye gf3 getc c_z] in S. rewrite !gf_lv in S. unfold spot in S.
    change ((4 =? 4) && (4 =? 4)) with true in S. cbv iota in S. lra. }
  destruct (step_cells 1 geo9 _ _ G (gf_fits _) (gf_fits _) _ _ _ (gf3_fits _ _ _) (Y 0%R) S1) as (A1 & B1 & Z1).
  destruct (step_cells 1 geo9 _ _ G (gf_fits _) (gf_fits _) _ _ _ (gf3_fits _ _ _) (Y 1%R) S2) as (A2 & B2 & Z2).
  assert (V : forall v c i k, e_cell geo9 (y_t (ye v)) (gf3 none9 none9 none9) (gf (fun _ _ => 1%R)) (gf (fun _ _ => 2%R)) i k (fun x => lv (getc x (y_e (ye v))) i k) c = 0%R).
  { intros v c i k. unfold e_cell, lo_r, lo_z, hi_r, hi_z. cbn [g_w0 g_w1 g_w2 g_w3 g_nr g_nz geo9].
    repeat match goal with |- context [if ?b then _ else _] => destruct b eqn:? end;
    destruct c; cbn [new_reg new_left new_axis getc y_e y_t ye gf3 c_r c_phi c_z]; unfold e_upd, ke, kh, rot_r, rot_z_axis, rot_z, rot_phi; cbn [c_r c_phi c_z y_t ye gf3]; rewrite ?gf_lv; cbn [g_dt geo9];
    try reflexivity; try (unfold none9, Rdiv; ring).  all: (unfold spot; now replace (_ && _) with false by lia). }
  assert (De : same_dom geo9 (y_e y1) (y_e y2)) by (intros c i k Hi Hk; rewrite A1, A2 by assumption; now rewrite !V).
  split; [exact De|]. intros c i k Hi Hk.
  assert (E0 : forall y' , (y' = y1 \/ y' = y2) -> forall x a b, inw 9 9 a b -> lv (getc x (y_e y')) a b = 0%R).
  { intros y' Hy x a b Hw. assert (D : (0 <= a < 9 /\ 0 <= b < 9) \/ ~ (0 <= a < 9 /\ 0 <= b < 9)) by lia. destruct D as [[Ha Hb]|N].
    - destruct Hy as [->| ->]; [rewrite A1 by assumption|rewrite A2 by assumption]; apply V.
    - destruct Hy as [->| ->]; [apply (proj1 (Z1 x a b Hw N))|apply (proj1 (Z2 x a b Hw N))]. }
  destruct (B1 i k Hi Hk) as (Q1 & Q2 & Q3 & _). destruct (B2 i k Hi Hk) as (P1 & P2 & P3 & _). cbn [g_nr g_nz geo9] in Hi, Hk.
  assert (Hw : inw 9 9 i k) by (unfold inw; lia). assert (W1 : inw 9 9 (i + 1) k) by (unfold inw; lia). assert (W2 : inw 9 9 i (k + 1)) by (unfold inw; lia).
  assert (N1 := E0 y1 (or_introl eq_refl)). assert (N2 := E0 y2 (or_intror eq_refl)).
  destruct c; cbn [getc]; [rewrite Q1, P1|rewrite Q2, P2|rewrite Q3, P3]; unfold alpha_r, alpha_phi, alpha_z;
  rewrite ?(N1 Cr i k Hw : lv (c_r _) i k = _), ?(N2 Cr i k Hw : lv (c_r _) i k = _), ?(N1 Cphi i k Hw : lv (c_phi _) i k = _), ?(N2 Cphi i k Hw : lv (c_phi _) i k = _), ?(N1 Cz i k Hw : lv (c_z _) i k = _), ?(N2 Cz i k Hw : lv (c_z _) i k = _),
    ?(N1 Cr _ _ W2 : lv (c_r _) _ _ = _), ?(N2 Cr _ _ W2 : lv (c_r _) _ _ = _), ?(N1 Cphi _ _ W2 : lv (c_phi _) _ _ = _), ?(N2 Cphi _ _ W2 : lv (c_phi _) _ _ = _), ?(N1 Cz _ _ W1 : lv (c_z _) _ _ = _), ?(N2 Cz _ _ W1 : lv (c_z _) _ _ = _),
    ?(N1 Cphi _ _ W1 : lv (c_phi _) _ _ = _), ?(N2 Cphi _ _ W1 : lv (c_phi _) _ _ = _); reflexivity.
Qed.

Print Assumptions C151_superposition.
Print Assumptions C151_dependence.
Print Assumptions C151_example.
Print Assumptions C152_step.
Print Assumptions C152_for_ever.
Print Assumptions C152_none.
Print Assumptions C152_example.
Print Assumptions C153_nothing_lost.
Print Assumptions C153_example.
Print Assumptions C153_cancelled_refuted.
