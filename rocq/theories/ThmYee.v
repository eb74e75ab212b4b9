(** Theorems about the field solver: properties C36 - C39. *)
From Coq Require Import ZifyBool Reals Lra Psatz.
From Verif Require Import Base GridModel GridProofs OverlayModel YeeModel YeeProofs.
Open Scope Z_scope.

(** ** a small concrete domain for the examples: 3 x 3 cells, all four walls *)
Definition gz (v : R) : grid R := new_grid 3 3 2 (fun _ _ => v).
Definition gz3 (v : R) : grid3 R := mkGrid3 (gz v) (gz v) (gz v).
Definition geo_ex : geo := mkGeo 3 3 0 0 1 1 true true true true 1.
Lemma gz_fits v : fits2 3 3 (gz v).
Proof. split; [apply new_grid_wf; lia|]. repeat split. Qed.
Lemma gz3_fits v : fits3 3 3 (gz3 v).
Proof. intros []; apply gz_fits. Qed.

(** a state of the right sizes *)
Definition yee_fits (g : geo) (y : yee) : Prop :=
  fits3 (g_nr g) (g_nz g) (y_e y) /\ fits3 (g_nr g) (g_nz g) (y_h y) /\ fits3 (g_nr g) (g_nz g) (y_t y).
Definition geo_ok (g : geo) : Prop := 1 <= g_nr g < 2 ^ 32 /\ 1 <= g_nz g < 2 ^ 32.

(** Every step is defined: no access outside the grids. *)
Lemma yee_step_ok mu g eps sg j y : geo_ok g -> fits2 (g_nr g) (g_nz g) eps -> fits2 (g_nr g) (g_nz g) sg ->
  fits3 (g_nr g) (g_nz g) j -> yee_fits g y -> exists y', yee_step mu g eps sg j y = Ok y' /\ yee_fits g y'.
Proof.
  intros (G1 & G2) F1 F2 Fj (Fe & Fh & Ft). unfold yee_step.
  destruct (calc_field_e_spec g (y_t y) j eps sg Ft Fj F1 F2 (y_e y) Fe G1 G2) as (e & Ee & Fe' & _). rewrite Ee. cbn [bind].
  destruct (calc_field_h_spec mu g e Fe' (y_h y) (y_t y) Fh Ft G1) as (h & t & Eh & Fh' & Ft' & _). rewrite Eh. cbn [bind].
  eexists. split; [reflexivity|]. exact (conj Fe' (conj Fh' Ft')).
Qed.
Theorem C38_run_defined : forall mu g eps sg js y, geo_ok g -> fits2 (g_nr g) (g_nz g) eps -> fits2 (g_nr g) (g_nz g) sg ->
  Forall (fits3 (g_nr g) (g_nz g)) js -> yee_fits g y -> exists y', yee_run mu g eps sg js y = Ok y' /\ yee_fits g y'.
Proof.
  intros mu g eps sg js. induction js as [|j js IH]; intros y G F1 F2 Fj Fy; cbn [yee_run].
  - exists y; auto.
  - inversion Fj; subst. destruct (yee_step_ok mu g eps sg j y) as (y1 & E & Fy1); auto. rewrite E. cbn [bind]. auto.
Qed.

(** induction over the steps *)
Lemma run_ind (P : yee -> Prop) mu g eps sg (Q : grid3 R -> Prop) :
  (forall j y y', Q j -> P y -> yee_step mu g eps sg j y = Ok y' -> P y') ->
  forall js y y', Forall Q js -> P y -> yee_run mu g eps sg js y = Ok y' -> P y'.
Proof.
  intros St js. induction js as [|j js IH]; intros y y' Hq Hp; cbn [yee_run].
  - now intros [= <-].
  - inversion Hq; subst. destruct (yee_step mu g eps sg j y) as [y1| |] eqn:E; cbn [bind]; try discriminate.
    apply IH; auto. eapply St; eauto.
Qed.

(** * C37: perfectly conducting walls *)
(** specification: the components of E along the walls are zero in the wall cells *)
Definition conducting (g : geo) (e : grid3 R) : Prop :=
  (g_w1 g = true -> forall i, 0 <= i < g_nr g -> lv (c_r e) i 0 = 0%R /\ lv (c_phi e) i 0 = 0%R) /\
  (g_w2 g = true -> forall k, 0 <= k < g_nz g -> lv (c_phi e) (g_nr g - 1) k = 0%R /\ lv (c_z e) (g_nr g - 1) k = 0%R) /\
  (g_w3 g = true -> forall i, 0 <= i < g_nr g -> lv (c_r e) i (g_nz g - 1) = 0%R /\ lv (c_phi e) i (g_nz g - 1) = 0%R).
Theorem C37_step : forall g t j eps sg e e', geo_ok g -> 2 <= g_nr g ->
  fits3 (g_nr g) (g_nz g) t -> fits3 (g_nr g) (g_nz g) j -> fits2 (g_nr g) (g_nz g) eps -> fits2 (g_nr g) (g_nz g) sg ->
  fits3 (g_nr g) (g_nz g) e -> conducting g e -> calc_field_e g t j eps sg e = Ok e' -> conducting g e'.
Proof.
  intros g t j eps sg e e' (G1 & G2) N2 Ft Fj F1 F2 Fe (C1 & C2 & C3) Ee.
  destruct (calc_field_e_spec g t j eps sg Ft Fj F1 F2 e Fe G1 G2) as (e1 & Ee1 & _ & V & _).
  rewrite Ee in Ee1. injection Ee1 as <-.
  assert (Vr : forall i k, 0 <= i < g_nr g -> 0 <= k < g_nz g -> lv (c_r e') i k = e_cell g t j eps sg i k (fun y => lv (getc y e) i k) Cr) by (intros; now apply (V Cr)).
  assert (Vp : forall i k, 0 <= i < g_nr g -> 0 <= k < g_nz g -> lv (c_phi e') i k = e_cell g t j eps sg i k (fun y => lv (getc y e) i k) Cphi) by (intros; now apply (V Cphi)).
  assert (Vz : forall i k, 0 <= i < g_nr g -> 0 <= k < g_nz g -> lv (c_z e') i k = e_cell g t j eps sg i k (fun y => lv (getc y e) i k) Cz) by (intros; now apply (V Cz)).
  split; [|split]; intros W x Hx.
  - rewrite Vr, Vp by lia. destruct (C1 W x Hx) as [A B]. unfold e_cell, lo_z, lo_r, hi_r, hi_z in *. rewrite W.
    replace (_ && (1 <=? 0) && _) with false by lia.
    cbn [new_left]. destruct (_ && _ && _ && _); cbn [getc]; [tauto|].
    replace (g_w0 g && (x =? 0) && (1 <=? 0) && _) with false by lia. cbn [getc]. tauto.
  - rewrite Vz, Vp by lia. destruct (C2 W x Hx) as [A B]. unfold e_cell, lo_z, lo_r, hi_r, hi_z in *. rewrite W.
    replace (g_nr g - 1 <? g_nr g - 1) with false by lia. rewrite !andb_false_r. cbn [andb].
    replace (g_nr g - 1 =? 0) with false by lia. rewrite !andb_false_r. cbn [andb getc]. tauto.
  - rewrite Vr, Vp by lia. destruct (C3 W x Hx) as [A B]. unfold e_cell, lo_z, lo_r, hi_r, hi_z in *. rewrite W.
    replace (g_nz g - 1 <? g_nz g - 1) with false by lia. rewrite !andb_false_r. cbn [andb new_left].
    destruct (_ && _ && _ && _); cbn [getc]; tauto.
Qed.
Theorem C37_for_ever : forall mu g eps sg js y y', geo_ok g -> 2 <= g_nr g ->
  fits2 (g_nr g) (g_nz g) eps -> fits2 (g_nr g) (g_nz g) sg -> Forall (fits3 (g_nr g) (g_nz g)) js -> yee_fits g y ->
  conducting g (y_e y) -> yee_run mu g eps sg js y = Ok y' -> conducting g (y_e y').
Proof.
  intros mu g eps sg js y y' G N2 F1 F2 Fj Fy C E.
  enough (H : yee_fits g y' /\ conducting g (y_e y')) by tauto.
  revert E. apply (run_ind (fun y => yee_fits g y /\ conducting g (y_e y)) mu g eps sg (fits3 (g_nr g) (g_nz g))); auto.
  intros j y0 y1 Hj [Fy0 C0] E. destruct (yee_step_ok mu g eps sg j y0 G F1 F2 Hj Fy0) as (y2 & E2 & Fy2).
  rewrite E in E2. injection E2 as <-. split; [exact Fy2|]. destruct Fy0 as (Fe & Fh & Ft).
  unfold yee_step in E. destruct (calc_field_e g (y_t y0) j eps sg (y_e y0)) as [e| |] eqn:Ee; cbn [bind] in E; try discriminate.
  destruct (calc_field_h mu g e (y_h y0) (y_t y0)) as [[h t]| |]; cbn [bind] in E; try discriminate.
  injection E as <-. cbn [y_e]. eapply C37_step; [exact G|exact N2| | | | | |exact C0|exact Ee]; auto.
Qed.
Definition y_ex : yee := mkYee (gz3 0) (gz3 1) (gz3 1).
Example C37_example : geo_ok geo_ex /\ yee_fits geo_ex y_ex /\ conducting geo_ex (y_e y_ex) /\
  exists e', calc_field_e geo_ex (gz3 1) (gz3 1) (gz 1) (gz 0) (gz3 0) = Ok e' /\ lv (c_r e') 1 1 <> 0%R.
Proof.
  assert (G : geo_ok geo_ex) by (split; cbn; lia).
  split; [exact G|]. split; [repeat split; apply gz3_fits|]. split; [repeat split; intros; reflexivity|].
  destruct (calc_field_e_spec geo_ex (gz3 1) (gz3 1) (gz 1) (gz 0)) with (e := gz3 0) as (e' & E & _ & V & _);
    try apply gz3_fits; try apply gz_fits; try apply G.
  exists e'. split; [exact E|]. specialize (V Cr 1 1 ltac:(cbn; lia) ltac:(cbn; lia)). cbn [getc] in V. rewrite V.
  unfold e_cell, lo_r, lo_z, hi_r, hi_z, geo_ex. cbn [g_w0 g_w1 g_w2 g_w3 g_nr g_nz]. cbn [Z.leb Z.ltb Z.compare Z.sub Z.add Z.opp Pos.compare Pos.compare_cont Z.pos_sub Pos.pred_double andb new_reg].
  unfold e_upd, ke, kh, rot_r, lv, gz3, gz, new_grid. cbn [getc c_r c_phi c_z cell g_dt g_dz]. lra.
Qed.

(** * C36: the discrete magnetic divergence *)
(** specification: net flux out of the ring (i, k) divided by its volume; H_r lives on the faces r = i*dr, H_z on z = k*dz *)
Definition divergence (g : geo) (t : grid3 R) (i k : Z) : R :=
  let I := IZR (i + g_d0 g) in
  (((I + 1) * lv (c_r t) (i + 1) k - I * lv (c_r t) i k) / ((I + /2) * g_dr g)
   + (lv (c_z t) i (k + 1) - lv (c_z t) i k) / g_dz g)%R.
Theorem C36_divergence_step : forall mu g e h t h' t' i k, geo_ok g -> (0 < mu)%R -> (0 < g_dr g)%R -> (0 < g_dz g)%R ->
  fits3 (g_nr g) (g_nz g) e -> fits3 (g_nr g) (g_nz g) h -> fits3 (g_nr g) (g_nz g) t ->
  (g_w2 g = true -> forall k, 0 <= k < g_nz g -> lv (c_phi e) (g_nr g - 1) k = 0%R) ->
  calc_field_h mu g e h t = Ok (h', t') ->
  0 <= g_d0 g -> 0 <= i -> i + 1 < g_nr g -> 0 <= k -> k + 1 < g_nz g ->
  divergence g t' i k = divergence g t i k /\ divergence g h' i k = divergence g t i k.
Proof.
  intros mu g e h t h' t' i k (G1 & G2) Hmu Hdr Hdz Fe Fh Ft Cw E Hd Hi Hi1 Hk Hk1.
  destruct (calc_field_h_spec mu g e Fe h t Fh Ft G1) as (h1 & t1 & E1 & _ & _ & V & _). rewrite E in E1. injection E1 as <- <-.
  destruct (V (i + 1) k ltac:(lia) ltac:(lia)) as (A1 & _ & _ & A4 & _ & _).
  destruct (V i k ltac:(lia) ltac:(lia)) as (B1 & _ & B3 & B4 & _ & B6).
  destruct (V i (k + 1) ltac:(lia) ltac:(lia)) as (_ & _ & D3 & _ & _ & D6).
  assert (Wi : wall_times g i = 1%R) by (unfold wall_times; replace (i =? g_nr g - 1) with false by lia; now rewrite andb_false_r).
  assert (Al : forall a : R, ((wall_times g (i + 1) - a) * alpha_r mu g e (i + 1) k = (1 - a) * alpha_r mu g e (i + 1) k)%R).
  { intros a. unfold wall_times. destruct (g_w2 g && (i + 1 =? g_nr g - 1)) eqn:B; [|reflexivity].
    assert (alpha_r mu g e (i + 1) k = 0%R); [|now rewrite H, !Rmult_0_r].
    unfold alpha_r. replace (i + 1) with (g_nr g - 1) by lia. rewrite !Cw by lia. rewrite Rminus_0_r, Rmult_0_r. unfold Rdiv. now rewrite Rmult_0_l. }
  unfold divergence. cbv zeta. rewrite A1, A4, B1, B3, B4, B6, D3, D6, Wi. rewrite Al.
  replace (wall_times g (i + 1) * alpha_r mu g e (i + 1) k)%R with ((wall_times g (i + 1) - 0) * alpha_r mu g e (i + 1) k)%R by ring.
  rewrite Al. unfold alpha_r, alpha_z. rewrite plus_IZR.
  assert (P : (IZR i + / 2 + IZR (g_d0 g) <> 0)%R).
  { assert (X := IZR_le _ _ Hi). assert (Y := IZR_le _ _ Hd). lra. }
  assert (P' : (IZR i + IZR (g_d0 g) + / 2 <> 0)%R) by lra.
  split; field; repeat split; lra.
Qed.
(** any number of steps with any currents, from a state with conducting walls *)
Theorem C36_for_ever : forall mu g eps sg js y y' i k, geo_ok g -> 2 <= g_nr g -> (0 < mu)%R -> (0 < g_dr g)%R -> (0 < g_dz g)%R ->
  fits2 (g_nr g) (g_nz g) eps -> fits2 (g_nr g) (g_nz g) sg -> Forall (fits3 (g_nr g) (g_nz g)) js -> yee_fits g y ->
  conducting g (y_e y) -> yee_run mu g eps sg js y = Ok y' ->
  0 <= g_d0 g -> 0 <= i -> i + 1 < g_nr g -> 0 <= k -> k + 1 < g_nz g ->
  divergence g (y_t y') i k = divergence g (y_t y) i k.
Proof.
  intros mu g eps sg js y y' i k G N2 Hmu Hdr Hdz F1 F2 Fj Fy C E Hd Hi Hi1 Hk Hk1.
  enough (H : yee_fits g y' /\ conducting g (y_e y') /\ divergence g (y_t y') i k = divergence g (y_t y) i k) by tauto.
  revert E. apply (run_ind (fun z => yee_fits g z /\ conducting g (y_e z) /\ divergence g (y_t z) i k = divergence g (y_t y) i k)
                    mu g eps sg (fits3 (g_nr g) (g_nz g))); auto.
  intros j y0 y1 Hj (Fy0 & C0 & D0) E. destruct (yee_step_ok mu g eps sg j y0 G F1 F2 Hj Fy0) as (y2 & E2 & Fy2).
  rewrite E in E2. injection E2 as <-. split; [exact Fy2|]. destruct Fy0 as (Fe & Fh & Ft).
  unfold yee_step in E. destruct (calc_field_e g (y_t y0) j eps sg (y_e y0)) as [e| |] eqn:Ee; cbn [bind] in E; try discriminate.
  destruct (calc_field_h mu g e (y_h y0) (y_t y0)) as [[h t]| |] eqn:Eh; cbn [bind] in E; try discriminate.
  injection E as <-. cbn [y_e y_t].
  assert (Ce : conducting g e) by (eapply C37_step; [exact G|exact N2| | | | | |exact C0|exact Ee]; auto).
  split; [exact Ce|]. rewrite <- D0.
  apply (C36_divergence_step mu g e (y_h y0) (y_t y0) h t i k); auto.
  - apply Fy2.
  - intros W k0 Hk0. now apply Ce.
Qed.
(** The first condition on the walls is needed: H_r of the row at the outer wall is updated twice, so a field that is
    not zero there would create divergence. *)
Definition e_wall : grid3 R := mkGrid3 (gz 0) (new_grid 3 3 2 (fun x y => if (x =? 4) && (y =? 3) then 1%R else 0%R)) (gz 0).
Theorem C36_wall_row_refuted : exists h' t', calc_field_h 1 geo_ex e_wall (gz3 0) (gz3 0) = Ok (h', t') /\
  divergence geo_ex (gz3 0) 1 0 = 0%R /\ divergence geo_ex t' 1 0 <> 0%R.
Proof.
  assert (Fe : fits3 3 3 e_wall) by (intros []; split; try (apply new_grid_wf; lia); repeat split).
  destruct (calc_field_h_spec 1 geo_ex e_wall Fe (gz3 0) (gz3 0) (gz3_fits _) (gz3_fits _)) as (h' & t' & E & _ & _ & V & _); [cbn; lia|].
  exists h', t'. split; [exact E|]. split.
  - unfold divergence, lv, gz3, gz, new_grid. cbn [c_r c_phi c_z cell]. unfold Rdiv. ring.
  - unfold divergence. cbv zeta. destruct (V 2 0 ltac:(cbn; lia) ltac:(cbn; lia)) as (A1 & _).
    destruct (V 1 0 ltac:(cbn; lia) ltac:(cbn; lia)) as (B1 & _ & B3 & _). destruct (V 1 1 ltac:(cbn; lia) ltac:(cbn; lia)) as (_ & _ & D3 & _).
    change (1 + 1) with 2. change (0 + 1) with 1. rewrite A1, B1, B3, D3.
    unfold wall_times, alpha_r, alpha_z, lv, e_wall, gz3, gz, new_grid, geo_ex. cbn.
    intros Hf. field_simplify in Hf; lra.
Qed.
Example C36_example : geo_ok geo_ex /\ conducting geo_ex (gz3 0) /\ divergence geo_ex (y_t y_ex) 1 1 <> 0%R.
Proof.
  split; [split; cbn; lia|]. split; [repeat split; intros; reflexivity|].
  unfold divergence, y_ex, gz3, gz, lv, new_grid, geo_ex. cbn [y_t c_r c_z cell g_dr g_dz g_d0]. change (1 + 0) with 1. lra.
Qed.

(** * C38: empty space stays empty; finite speed *)
Definition zero3 (nr nz : Z) (f : grid3 R) : Prop := forall c x y, inw nr nz x y -> lv (getc c f) x y = 0%R.
Definition zero_out (a b c d nr nz : Z) (f : grid3 R) : Prop := forall x i k, inw nr nz i k ->
  ~ (a <= i <= b /\ c <= k <= d) -> lv (getc x f) i k = 0%R.
(** one site *)
Lemma e_site g t j eps sg i k old x : old x = 0%R -> lv (getc x j) i k = 0%R ->
  (forall y, lv (getc y t) i k = 0 /\ lv (getc y t) (i - 1) k = 0 /\ lv (getc y t) i (k - 1) = 0)%R ->
  e_cell g t j eps sg i k old x = 0%R.
Proof.
  intros Ho Hj Ht. destruct (Ht Cr) as (A1 & A2 & A3). destruct (Ht Cphi) as (B1 & B2 & B3). destruct (Ht Cz) as (D1 & D2 & D3).
  cbn [getc] in *.
  assert (X : e_upd g eps sg i k 0 0 0 = 0%R) by (unfold e_upd; ring).
  assert (R1 : rot_r g t i k = 0%R) by (unfold rot_r, Rdiv; rewrite B1, B3; ring).
  assert (R2 : rot_z_axis g t i k = 0%R) by (unfold rot_z_axis, Rdiv; rewrite B1; ring).
  assert (R3 : rot_z g t i k = 0%R) by (unfold rot_z, Rdiv; rewrite B1, B2; ring).
  assert (R4 : rot_phi g t i k = 0%R) by (unfold rot_phi, Rdiv; rewrite A1, A3, D1, D2; ring).
  unfold e_cell. destruct (_ && _ && _ && _); [|destruct (_ && _ && _ && _); [|destruct (_ && _ && _ && _)]]; [| | |exact Ho];
    destruct x; cbn [new_reg new_left new_axis getc] in *; rewrite ?Ho, ?Hj, ?R1, ?R2, ?R3, ?R4; auto.
Qed.
Lemma h_site mu g e i k : (forall y, lv (getc y e) i k = 0 /\ lv (getc y e) (i + 1) k = 0 /\ lv (getc y e) i (k + 1) = 0)%R ->
  alpha_r mu g e i k = 0%R /\ alpha_phi mu g e i k = 0%R /\ alpha_z mu g e i k = 0%R.
Proof.
  intros He. destruct (He Cr) as (A1 & A2 & A3). destruct (He Cphi) as (B1 & B2 & B3). destruct (He Cz) as (D1 & D2 & D3). cbn [getc] in *.
  unfold alpha_r, alpha_phi, alpha_z, Rdiv. rewrite A1, A3, B1, B2, B3, D1, D2. repeat split; ring.
Qed.
Theorem C38_spread_e : forall a b c d g t j eps sg e e', geo_ok g ->
  fits3 (g_nr g) (g_nz g) t -> fits3 (g_nr g) (g_nz g) j -> fits2 (g_nr g) (g_nz g) eps -> fits2 (g_nr g) (g_nz g) sg ->
  fits3 (g_nr g) (g_nz g) e -> calc_field_e g t j eps sg e = Ok e' -> 
  zero_out a b c d (g_nr g) (g_nz g) t -> zero_out a (b + 1) c (d + 1) (g_nr g) (g_nz g) j -> zero_out a (b + 1) c (d + 1) (g_nr g) (g_nz g) e ->
  zero_out a (b + 1) c (d + 1) (g_nr g) (g_nz g) e'.
Proof.
  intros a b c d g t j eps sg e e' (G1 & G2) Ft Fj F1 F2 Fe E Zt Zj Ze.
  destruct (calc_field_e_spec g t j eps sg Ft Fj F1 F2 e Fe G1 G2) as (e1 & E1 & _ & V & Gh). rewrite E in E1. injection E1 as <-.
  intros x i k Hw Hn. destruct (Z_le_dec 0 i), (Z_lt_dec i (g_nr g)), (Z_le_dec 0 k), (Z_lt_dec k (g_nz g)); try (apply Gh; auto; lia).
  rewrite V by lia. apply e_site.
  - now apply Ze.
  - now apply Zj.
  - intros y. repeat split; apply Zt; unfold inw in *; lia.
Qed.
Theorem C38_spread_h : forall a b c d mu g e h t h' t', geo_ok g ->
  fits3 (g_nr g) (g_nz g) e -> fits3 (g_nr g) (g_nz g) h -> fits3 (g_nr g) (g_nz g) t -> calc_field_h mu g e h t = Ok (h', t') ->
  zero_out a b c d (g_nr g) (g_nz g) e -> zero_out (a - 1) b (c - 1) d (g_nr g) (g_nz g) t ->
  zero_out (a - 1) b (c - 1) d (g_nr g) (g_nz g) h' /\ zero_out (a - 1) b (c - 1) d (g_nr g) (g_nz g) t'.
Proof.
  intros a b c d mu g e h t h' t' (G1 & G2) Fe Fh Ft E Ze Zt.
  destruct (calc_field_h_spec mu g e Fe h t Fh Ft G1) as (h1 & t1 & E1 & _ & _ & V & Gh). rewrite E in E1. injection E1 as <- <-.
  assert (K : forall x i k, inw (g_nr g) (g_nz g) i k -> ~ (a - 1 <= i <= b /\ c - 1 <= k <= d) -> lv (getc x h') i k = 0%R /\ lv (getc x t') i k = 0%R).
  { intros x i k Hw Hn.
    destruct (Z_le_dec 0 i), (Z_lt_dec i (g_nr g)), (Z_le_dec 0 k), (Z_lt_dec k (g_nz g)); try (apply Gh; auto; lia).
    destruct (V i k ltac:(lia) ltac:(lia)) as (V1 & V2 & V3 & V4 & V5 & V6).
    destruct (h_site mu g e i k) as (S1 & S2 & S3); [intros y; repeat split; apply Ze; unfold inw in *; lia|].
    pose proof (Zt Cr i k Hw Hn) as T1. pose proof (Zt Cphi i k Hw Hn) as T2. pose proof (Zt Cz i k Hw Hn) as T3. cbn [getc] in *.
    rewrite S1, S2, S3, T1, T2, T3 in *. destruct x; cbn [getc]; rewrite ?V1, ?V2, ?V3, ?V4, ?V5, ?V6; split; lra. }
  split; intros x i k Hw Hn; now apply K.
Qed.
(** After n steps the fields reach at most n cells beyond the box that contains the initial fields and all currents. *)
Theorem C38_speed : forall mu g eps sg js a b c d y y', geo_ok g ->
  fits2 (g_nr g) (g_nz g) eps -> fits2 (g_nr g) (g_nz g) sg -> Forall (fits3 (g_nr g) (g_nz g)) js -> yee_fits g y ->
  Forall (zero_out a b c d (g_nr g) (g_nz g)) js ->
  zero_out a b c d (g_nr g) (g_nz g) (y_e y) -> zero_out a b c d (g_nr g) (g_nz g) (y_t y) -> zero_out a b c d (g_nr g) (g_nz g) (y_h y) ->
  yee_run mu g eps sg js y = Ok y' ->
  let n := Z.of_nat (length js) in
  zero_out (a - n) (b + n) (c - n) (d + n) (g_nr g) (g_nz g) (y_e y') /\
  zero_out (a - n) (b + n) (c - n) (d + n) (g_nr g) (g_nz g) (y_t y') /\
  zero_out (a - n) (b + n) (c - n) (d + n) (g_nr g) (g_nz g) (y_h y').
Proof.
  intros mu g eps sg js. induction js as [|j js IH]; intros a b c d y y' G F1 F2 Fj Fy Zj Ze Zt Zh; cbn [yee_run].
  - intros [= <-]. cbv zeta. cbn [length Z.of_nat]. rewrite !Z.sub_0_r, !Z.add_0_r. auto.
  - inversion Fj as [|? ? Fj1 Fj2]; subst. inversion Zj as [|? ? Zj1 Zj2]; subst.
    destruct (yee_step_ok mu g eps sg j y G F1 F2 Fj1 Fy) as (y1 & E1 & Fy1). rewrite E1. cbn [bind]. intros E.
    assert (M : forall a b c d a' b' c' d' f, zero_out a b c d (g_nr g) (g_nz g) f -> a' <= a -> b <= b' -> c' <= c -> d <= d' ->
                zero_out a' b' c' d' (g_nr g) (g_nz g) f).
    { intros a0 b0 c0 d0 a' b' c' d' f Zf Ha Hb Hc Hd x i k Hw Hn. apply Zf; auto. lia. }
    unfold yee_step in E1. destruct Fy as (Fe & Fh & Ft).
    destruct (calc_field_e g (y_t y) j eps sg (y_e y)) as [e| |] eqn:Ee; cbn [bind] in E1; try discriminate.
    destruct (calc_field_h mu g e (y_h y) (y_t y)) as [[h t]| |] eqn:Eh; cbn [bind] in E1; try discriminate.
    injection E1 as <-.
    assert (Z1 : zero_out a (b + 1) c (d + 1) (g_nr g) (g_nz g) e).
    { eapply C38_spread_e; [exact G| | | | | |exact Ee| | |]; eauto; eapply M; eauto; lia. }
    destruct (C38_spread_h a (b + 1) c (d + 1) mu g e (y_h y) (y_t y) h t) as [Z2 Z3]; auto.
    { apply Fy1. }
    { eapply M; [exact Zt|lia|lia|lia|lia]. }
    cbv zeta. replace (Z.of_nat (length (j :: js))) with (1 + Z.of_nat (length js)) by (cbn [length]; lia).
    rewrite !Z.sub_add_distr, !Z.add_assoc.
    apply (IH (a - 1) (b + 1) (c - 1) (d + 1) (mkYee e h t) y'); auto; cbn [y_e y_t y_h]; auto.
    + rewrite Forall_forall in *. intros f Hf. apply (M a b c d); auto; lia.
    + apply (M a (b + 1) c (d + 1)); auto; lia.
Qed.
(** With no field and no current nothing ever appears. *)
Theorem C38_empty : forall mu g eps sg js y y', geo_ok g ->
  fits2 (g_nr g) (g_nz g) eps -> fits2 (g_nr g) (g_nz g) sg -> Forall (fits3 (g_nr g) (g_nz g)) js -> yee_fits g y ->
  Forall (zero3 (g_nr g) (g_nz g)) js -> zero3 (g_nr g) (g_nz g) (y_e y) -> zero3 (g_nr g) (g_nz g) (y_t y) -> zero3 (g_nr g) (g_nz g) (y_h y) ->
  yee_run mu g eps sg js y = Ok y' ->
  zero3 (g_nr g) (g_nz g) (y_e y') /\ zero3 (g_nr g) (g_nz g) (y_t y') /\ zero3 (g_nr g) (g_nz g) (y_h y').
Proof.
  intros mu g eps sg js y y' G F1 F2 Fj Fy Zj Ze Zt Zh E.
  (* a box far outside the grid *)
  pose (f := - Z.of_nat (length js) - 100).
  assert (B : forall u v, zero3 (g_nr g) (g_nz g) u -> zero_out f f f v (g_nr g) (g_nz g) u) by (intros u v Zu x i k Hw _; now apply Zu).
  assert (L := C38_speed mu g eps sg js f f f f y y' G F1 F2 Fj Fy).
  assert (X : forall u n, zero_out (f - n) (f + n) (f - n) (f + n) (g_nr g) (g_nz g) u -> n = Z.of_nat (length js) -> zero3 (g_nr g) (g_nz g) u).
  { intros u n Zu -> x i k Hw. apply Zu; auto. unfold inw, f in *. lia. }
  destruct L as (L1 & L2 & L3); auto.
  - rewrite Forall_forall in *. intros u Hu. apply B. auto.
  - repeat split; eapply X; eauto.
Qed.
Example C38_example : zero3 3 3 (gz3 0) /\
  zero_out 1 1 1 1 3 3 (mkGrid3 (gz 0) (gz 0) (new_grid 3 3 2 (fun x y => if (x =? 3) && (y =? 3) then 1%R else 0%R))).
Proof.
  split; [intros []; reflexivity|]. intros [] i k Hw Hn; try reflexivity.
  unfold lv, new_grid. cbn [getc c_z cell os]. now replace (_ && _) with false by lia.
Qed.

(** * C39: absorbing layers *)
Theorem C39_multiplier : forall g eps sg i k, (0 < lv eps i k)%R -> (0 <= lv sg i k)%R -> (0 < g_dt g)%R ->
  (-1 < ke g eps sg i k <= 1)%R /\ (lv sg i k = 0%R -> ke g eps sg i k = 1%R).
Proof.
  intros g eps sg i k He Hs Hd. unfold ke. set (a := (2 * lv eps i k)%R). set (b := (lv sg i k * g_dt g)%R).
  assert (0 < a)%R by (unfold a; lra). assert (0 <= b)%R by (unfold b; apply Rmult_le_pos; lra).
  split; [split|].
  - apply Rmult_lt_reg_r with (a + b)%R; [lra|]. unfold Rdiv. rewrite Rmult_assoc, Rinv_l; lra.
  - apply Rmult_le_reg_r with (a + b)%R; [lra|]. unfold Rdiv. rewrite Rmult_assoc, Rinv_l; lra.
  - intros Z. unfold b. rewrite Z. field. unfold a in *. lra.
Qed.
(** [ke] is what the update multiplies the old field with *)
Theorem C39_is_multiplier : forall g t j eps sg e e', geo_ok g ->
  fits3 (g_nr g) (g_nz g) t -> fits3 (g_nr g) (g_nz g) j -> fits2 (g_nr g) (g_nz g) eps -> fits2 (g_nr g) (g_nz g) sg ->
  fits3 (g_nr g) (g_nz g) e -> calc_field_e g t j eps sg e = Ok e' ->
  forall c i k, 0 <= i < g_nr g -> 0 <= k < g_nz g ->
  lv (getc c e') i k = lv (getc c e) i k \/
  exists src, lv (getc c e') i k = (ke g eps sg i k * lv (getc c e) i k + src)%R /\
    (forall e2 e2', fits3 (g_nr g) (g_nz g) e2 -> calc_field_e g t j eps sg e2 = Ok e2' ->
       lv (getc c e2') i k = (ke g eps sg i k * lv (getc c e2) i k + src)%R).
Proof.
  intros g t j eps sg e e' (G1 & G2) Ft Fj F1 F2 Fe E c i k Hi Hk.
  assert (V : forall e2 e2', fits3 (g_nr g) (g_nz g) e2 -> calc_field_e g t j eps sg e2 = Ok e2' ->
     lv (getc c e2') i k = e_cell g t j eps sg i k (fun y => lv (getc y e2) i k) c).
  { intros e2 e2' Fe2 E2. destruct (calc_field_e_spec g t j eps sg Ft Fj F1 F2 e2 Fe2 G1 G2) as (e3 & E3 & _ & V & _).
    rewrite E2 in E3. injection E3 as <-. now apply V. }
  rewrite (V e e' Fe E). unfold e_cell in *.
  destruct (_ && _ && _ && _); [|destruct (_ && _ && _ && _); [|destruct (_ && _ && _ && _); [|now left]]];
    destruct c; cbn [new_reg new_left new_axis] in *; try (now left); right; unfold e_upd in *; eexists;
    (split; [rewrite Rmult_comm; unfold Rminus; reflexivity|]; intros e2 e2' Fe2 E2; rewrite (V e2 e2' Fe2 E2); ring).
Qed.

(** the conductivities *)
Section Sig.
Variable g : geo.
Variable p : pml.
Hypothesis Hg : geo_ok g.
Hypothesis Hd : (0 < g_dr g)%R /\ (0 < g_dz g)%R.
Hypothesis Hpos : 0 <= g_d0 g /\ 0 <= g_d1 g /\ g_d0 g + g_nr g <= p_G0 p < 2 ^ 64 /\ g_d1 g + g_nz g <= p_G1 p < 2 ^ 64.
Hypothesis HL : (p_L0 p = IZR (p_G0 p) * g_dr g)%R /\ (p_L1 p = IZR (p_G1 p) * g_dz g)%R.
Hypothesis Hp : 0 <= p_left p /\ 0 <= p_top p /\ 0 <= p_right p.
Hypothesis Hs : (0 <= p_s0 p)%R /\ (0 <= p_s1 p)%R.

(** contribution of the layer of [n] cells at depth [m] cells from its inner edge (1 .. n) *)
Definition profile (n m : Z) : R := (p_s0 p + (p_s1 p - p_s0 p) * (IZR m / IZR n) * (IZR m / IZR n))%R.
Definition c_top (i : Z) : R := let m := i + g_d0 g + 1 - (p_G0 p - p_top p) in if 1 <? m then profile (p_top p) m else 0%R.
Definition c_left (k : Z) : R := let m := p_left p - (k + g_d1 g) in if 0 <? m then profile (p_left p) m else 0%R.
Definition c_right (k : Z) : R := let m := k + g_d1 g + 1 - (p_G1 p - p_right p) in if 1 <? m then profile (p_right p) m else 0%R.

Lemma profile_bounds n m : 1 <= m <= n -> (0 <= profile n m)%R /\ (profile n m <= Rmax (p_s0 p) (p_s1 p))%R.
Proof.
  intros [H1 H2]. assert (A := IZR_le _ _ H1). assert (B := IZR_le _ _ H2). unfold profile.
  set (q := (IZR m / IZR n)%R).
  assert (Q : (0 <= q <= 1)%R).
  { unfold q. split; [apply Rmult_le_pos; [lra|apply Rlt_le, Rinv_0_lt_compat; lra]|].
    apply Rmult_le_reg_r with (IZR n); [lra|]. unfold Rdiv. rewrite Rmult_assoc, Rinv_l; lra. }
  assert (0 <= q * q <= 1)%R by nra. rewrite Rmult_assoc. set (r := (q * q)%R) in *. destruct Hs.
  split; [nra|]. pose proof (Rmax_l (p_s0 p) (p_s1 p)). pose proof (Rmax_r (p_s0 p) (p_s1 p)). nra.
Qed.
Lemma rlt_scale (a b : Z) d : (0 < d)%R -> rlt (IZR a * d) (d * IZR b) = (a <? b).
Proof.
  intros H. unfold rlt. destruct (Rlt_dec _ _) as [L|L].
  - symmetry. apply Z.ltb_lt. apply lt_IZR. apply Rmult_lt_reg_r with d; auto. lra.
  - symmetry. apply Z.ltb_ge. apply le_IZR. apply Rnot_lt_le in L. apply Rmult_le_reg_r with d; auto. lra.
Qed.


(** every pass of [set_pml] adds its contribution to every cell *)
Lemma add_pass (body : Z -> Z -> grid R -> outcome (grid R)) (c : Z -> Z -> R) r0 r1 c0 c1 s :
  fits2 (g_nr g) (g_nz g) s ->
  (forall i k s, r0 <= i < r1 -> c0 <= k < c1 -> fits2 (g_nr g) (g_nz g) s ->
     body i k s = Ok (setl s i k (lv s i k + c i k)) \/ (body i k s = Ok s /\ c i k = 0%R)) ->
  exists s', for_to r0 r1 (fun i => for_to c0 c1 (body i)) s = Ok s' /\ fits2 (g_nr g) (g_nz g) s' /\
  forall a b, lv s' a b = if (r0 <=? a) && (a <? r1) && (c0 <=? b) && (b <? c1) then (lv s a b + c a b)%R else lv s a b.
Proof.
  intros Fs St.
  destruct (nest (fun (s : grid R) (_ : unit) a b => lv s a b) (fits2 (g_nr g) (g_nz g)) (fun i k old x => (old x + c i k)%R))
    with (r0 := r0) (r1 := r1) (c0 := c0) (c1 := c1) (body := body) (s := s) as (s' & E & F & V); auto.
  - intros i k f f' x Hf. now rewrite Hf.
  - intros i k u Hi Hk Fu. destruct (St i k u Hi Hk Fu) as [E|[E Z]]; rewrite E; eexists; (split; [reflexivity|]); split; auto.
    + intros _ a b. rewrite lv_setl. reflexivity.
    + intros _ a b. destruct (_ && _) eqn:B; [|reflexivity]. rewrite Z. replace a with i by lia. replace b with k by lia. ring.
  - exists s'. split; [exact E|]. split; [exact F|]. intros a b. apply (V tt).
Qed.
Lemma add_pass_t (body : Z -> Z -> grid R -> outcome (grid R)) (c : Z -> Z -> R) r0 r1 c0 c1 s :
  fits2 (g_nr g) (g_nz g) s ->
  (forall i k s, r0 <= i < r1 -> c0 <= k < c1 -> fits2 (g_nr g) (g_nz g) s ->
     body k i s = Ok (setl s i k (lv s i k + c i k)) \/ (body k i s = Ok s /\ c i k = 0%R)) ->
  exists s', for_to c0 c1 (fun k => for_to r0 r1 (body k)) s = Ok s' /\ fits2 (g_nr g) (g_nz g) s' /\
  forall a b, lv s' a b = if (r0 <=? a) && (a <? r1) && (c0 <=? b) && (b <? c1) then (lv s a b + c a b)%R else lv s a b.
Proof.
  intros Fs St.
  destruct (nest (fun (s : grid R) (_ : unit) a b => lv s b a) (fits2 (g_nr g) (g_nz g)) (fun k i old x => (old x + c i k)%R))
    with (r0 := c0) (r1 := c1) (c0 := r0) (c1 := r1) (body := body) (s := s) as (s' & E & F & V); auto.
  - intros i k f f' x Hf. now rewrite Hf.
  - intros k i u Hk Hi Fu. destruct (St i k u Hi Hk Fu) as [E|[E Z]]; rewrite E; eexists; (split; [reflexivity|]); split; auto.
    + intros _ a b. rewrite lv_setl. now rewrite andb_comm.
    + intros _ a b. destruct (_ && _) eqn:B; [|reflexivity]. rewrite Z. replace a with k by lia. replace b with i by lia. ring.
  - exists s'. split; [exact E|]. split; [exact F|]. intros a b. rewrite (V tt b a).
    replace ((c0 <=? b) && (b <? c1) && (r0 <=? a) && (a <? r1)) with ((r0 <=? a) && (a <? r1) && (c0 <=? b) && (b <? c1)) by lia. reflexivity.
Qed.

Lemma top_step i k s : p_top p <> 0 -> 0 <= i < g_nr g -> 0 <= k < g_nz g -> fits2 (g_nr g) (g_nz g) s ->
  pml_top_at g p i k s = Ok (setl s i k (lv s i k + c_top i)) \/ (pml_top_at g p i k s = Ok s /\ c_top i = 0%R).
Proof.
  intros H0 Hi Hk Fs. destruct Hd as [D1 D2], Hpos as (P1 & P2 & P3 & P4), HL as [L1 _], Hp as (Q1 & Q2 & Q3).
  unfold pml_top_at, dist_x_to_end, c_top. cbv zeta. rewrite !u64_small by (rewrite ?u64_small; lia). rewrite rlt_scale by exact D1.
  destruct (p_G0 p - g_d0 g - i <? p_top p) eqn:B.
  - replace (1 <? i + g_d0 g + 1 - (p_G0 p - p_top p)) with true by lia. left.
    unfold rinc. rewrite (rop_eq (g_nr g) (g_nz g)) by (auto; unfold inw; lia). do 3 f_equal.
    unfold sig, profile. rewrite L1, !minus_IZR, !plus_IZR.
    assert (IZR (p_top p) <> 0%R) by (apply not_0_IZR; auto). field. lra.
  - replace (1 <? i + g_d0 g + 1 - (p_G0 p - p_top p)) with false by lia. right. auto.
Qed.
Lemma left_step i k s : p_left p <> 0 -> 0 <= i < g_nr g -> 0 <= k < g_nz g -> fits2 (g_nr g) (g_nz g) s ->
  pml_left_at g p k i s = Ok (setl s i k (lv s i k + c_left k)) \/ (pml_left_at g p k i s = Ok s /\ c_left k = 0%R).
Proof.
  intros H0 Hi Hk Fs. destruct Hd as [D1 D2], Hpos as (P1 & P2 & P3 & P4), HL as [_ L1], Hp as (Q1 & Q2 & Q3).
  unfold pml_left_at, c_left. cbv zeta.
  replace (g_dz g * IZR k + IZR (g_d1 g) * g_dz g)%R with (IZR (k + g_d1 g) * g_dz g)%R by (rewrite plus_IZR; ring).
  rewrite rlt_scale by exact D2.
  destruct (k + g_d1 g <? p_left p) eqn:B.
  - replace (0 <? p_left p - (k + g_d1 g)) with true by lia. left.
    unfold rinc. rewrite (rop_eq (g_nr g) (g_nz g)) by (auto; unfold inw; lia). do 3 f_equal.
    unfold sig, profile. rewrite minus_IZR, plus_IZR.
    assert (IZR (p_left p) <> 0%R) by (apply not_0_IZR; auto). field. lra.
  - replace (0 <? p_left p - (k + g_d1 g)) with false by lia. right. auto.
Qed.
Lemma right_step i k s : p_right p <> 0 -> 0 <= i < g_nr g -> 0 <= k < g_nz g -> fits2 (g_nr g) (g_nz g) s ->
  pml_right_at g p k i s = Ok (setl s i k (lv s i k + c_right k)) \/ (pml_right_at g p k i s = Ok s /\ c_right k = 0%R).
Proof.
  intros H0 Hi Hk Fs. destruct Hd as [D1 D2], Hpos as (P1 & P2 & P3 & P4), HL as [_ L1], Hp as (Q1 & Q2 & Q3).
  unfold pml_right_at, dist_y_to_end, c_right. cbv zeta. rewrite !u64_small by (rewrite ?u64_small; lia). rewrite rlt_scale by exact D2.
  destruct (p_G1 p - g_d1 g - k <? p_right p) eqn:B.
  - replace (1 <? k + g_d1 g + 1 - (p_G1 p - p_right p)) with true by lia. left.
    unfold rinc. rewrite (rop_eq (g_nr g) (g_nz g)) by (auto; unfold inw; lia). do 3 f_equal.
    unfold sig, profile. rewrite L1, !minus_IZR, !plus_IZR.
    assert (IZR (p_right p) <> 0%R) by (apply not_0_IZR; auto). field. lra.
  - replace (1 <? k + g_d1 g + 1 - (p_G1 p - p_right p)) with false by lia. right. auto.
Qed.

Lemma set_pml_spec s : fits2 (g_nr g) (g_nz g) s ->
  exists s', set_pml g p s = Ok s' /\ fits2 (g_nr g) (g_nz g) s' /\
  forall i k, 0 <= i < g_nr g -> 0 <= k < g_nz g -> lv s' i k = (lv s i k + c_top i + c_left k + c_right k)%R.
Proof.
  intros Fs. unfold set_pml.
  assert (Hin : forall i k, 0 <= i < g_nr g -> 0 <= k < g_nz g -> (0 <=? i) && (i <? g_nr g) && (0 <=? k) && (k <? g_nz g) = true) by lia.
  destruct Hpos as (P1 & P2 & P3 & P4).
  assert (A1 : exists s1, (if p_top p =? 0 then Ok s else for_to 0 (g_nr g) (fun i => for_to 0 (g_nz g) (pml_top_at g p i)) s) = Ok s1 /\
    fits2 (g_nr g) (g_nz g) s1 /\ forall i k, 0 <= i < g_nr g -> 0 <= k < g_nz g -> lv s1 i k = (lv s i k + c_top i)%R).
  { destruct (p_top p =? 0) eqn:Z0.
    - exists s. split; [reflexivity|]. split; [exact Fs|]. intros i k Hi Hk. unfold c_top. cbv zeta.
      replace (1 <? _) with false by lia. ring.
    - destruct (add_pass (pml_top_at g p) (fun i _ => c_top i) 0 (g_nr g) 0 (g_nz g) s Fs) as (s1 & E & F & V).
      + intros; apply top_step; auto; lia.
      + exists s1. split; [exact E|]. split; [exact F|]. intros i k Hi Hk. rewrite V. now rewrite Hin. }
  destruct A1 as (s1 & E1 & F1 & V1). rewrite E1. cbn [bind].
  assert (A2 : exists s2, (if p_left p =? 0 then Ok s1 else for_to 0 (g_nz g) (fun k => for_to 0 (g_nr g) (pml_left_at g p k)) s1) = Ok s2 /\
    fits2 (g_nr g) (g_nz g) s2 /\ forall i k, 0 <= i < g_nr g -> 0 <= k < g_nz g -> lv s2 i k = (lv s1 i k + c_left k)%R).
  { destruct (p_left p =? 0) eqn:Z0.
    - exists s1. split; [reflexivity|]. split; [exact F1|]. intros i k Hi Hk. unfold c_left. cbv zeta.
      replace (0 <? _) with false by lia. ring.
    - destruct (add_pass_t (pml_left_at g p) (fun _ k => c_left k) 0 (g_nr g) 0 (g_nz g) s1 F1) as (s2 & E & F & V).
      + intros; apply left_step; auto; lia.
      + exists s2. split; [exact E|]. split; [exact F|]. intros i k Hi Hk. rewrite V. now rewrite Hin. }
  destruct A2 as (s2 & E2 & F2 & V2). rewrite E2. cbn [bind].
  destruct (p_right p =? 0) eqn:Z0.
  - exists s2. split; [reflexivity|]. split; [exact F2|]. intros i k Hi Hk. unfold c_right. cbv zeta.
    replace (1 <? _) with false by lia. rewrite V2, V1 by auto. ring.
  - destruct (add_pass_t (pml_right_at g p) (fun _ k => c_right k) 0 (g_nr g) 0 (g_nz g) s2 F2) as (s3 & E & F & V).
    + intros; apply right_step; auto; lia.
    + exists s3. split; [exact E|]. split; [exact F|]. intros i k Hi Hk. rewrite V, Hin by auto. rewrite V2, V1 by auto. ring.
Qed.
End Sig.

(** specification: is cell (i, k) of the domain inside a layer of the configured thickness? *)
Definition in_layers (g : geo) (p : pml) (i k : Z) : Prop :=
  p_G0 p - p_top p <= i + g_d0 g \/ k + g_d1 g < p_left p \/ p_G1 p - p_right p <= k + g_d1 g.
(** a domain inside the whole area, equal steps everywhere *)
Definition pml_ok (g : geo) (p : pml) : Prop :=
  geo_ok g /\ ((0 < g_dr g)%R /\ (0 < g_dz g)%R) /\
  (0 <= g_d0 g /\ 0 <= g_d1 g /\ g_d0 g + g_nr g <= p_G0 p < 2 ^ 64 /\ g_d1 g + g_nz g <= p_G1 p < 2 ^ 64) /\
  ((p_L0 p = IZR (p_G0 p) * g_dr g)%R /\ (p_L1 p = IZR (p_G1 p) * g_dz g)%R) /\
  (0 <= p_left p /\ 0 <= p_top p /\ 0 <= p_right p) /\ ((0 <= p_s0 p)%R /\ (0 <= p_s1 p)%R).
Theorem C39_layers : forall g p s, pml_ok g p -> fits2 (g_nr g) (g_nz g) s ->
  (forall i k, 0 <= i < g_nr g -> 0 <= k < g_nz g -> lv s i k = 0%R) ->
  exists s', set_pml g p s = Ok s' /\ fits2 (g_nr g) (g_nz g) s' /\
  forall i k, 0 <= i < g_nr g -> 0 <= k < g_nz g ->
    (0 <= lv s' i k)%R /\ (~ in_layers g p i k -> lv s' i k = 0%R) /\ (lv s' i k <= 3 * Rmax (p_s0 p) (p_s1 p))%R.
Proof.
  intros g p s (H1 & H2 & H3 & H4 & H5 & H6) Fs Zs. pose proof H3 as (P1 & P2 & P3 & P4).
  destruct (set_pml_spec g p H2 H3 H4 H5 s Fs) as (s' & E & F & V). exists s'. split; [exact E|]. split; [exact F|].
  intros i k Hi Hk. rewrite V, Zs by auto.
  pose proof (Rmax_l (p_s0 p) (p_s1 p)) as M0. destruct H6 as [S0 S1].
  assert (B1 : (0 <= c_top g p i <= Rmax (p_s0 p) (p_s1 p))%R).
  { unfold c_top. cbv zeta. destruct (1 <? _) eqn:B; [apply profile_bounds; [split; assumption|lia]|lra]. }
  assert (B2 : (0 <= c_left g p k <= Rmax (p_s0 p) (p_s1 p))%R).
  { unfold c_left. cbv zeta. destruct (0 <? _) eqn:B; [apply profile_bounds; [split; assumption|lia]|lra]. }
  assert (B3 : (0 <= c_right g p k <= Rmax (p_s0 p) (p_s1 p))%R).
  { unfold c_right. cbv zeta. destruct (1 <? _) eqn:B; [apply profile_bounds; [split; assumption|lia]|lra]. }
  split; [lra|]. split; [|lra].
  intros N. unfold in_layers in N. unfold c_top, c_left, c_right. cbv zeta.
  replace (1 <? i + g_d0 g + 1 - (p_G0 p - p_top p)) with false by lia. replace (0 <? p_left p - (k + g_d1 g)) with false by lia.
  replace (1 <? k + g_d1 g + 1 - (p_G1 p - p_right p)) with false by lia. lra.
Qed.
Definition pml_ex : pml := mkPml 1 2 2 1 2 3 3 3 3.
Example C39_example : pml_ok geo_ex pml_ex /\ ~ in_layers geo_ex (mkPml 1 1 1 1 2 3 3 3 3) 1 1 /\ in_layers geo_ex pml_ex 2 2.
Proof. split; [unfold pml_ok, geo_ok, pml_ex, geo_ex; cbn; repeat split; lra || lia|]. unfold in_layers, geo_ex, pml_ex; cbn; lia. Qed.

Print Assumptions C38_run_defined.
Print Assumptions C37_step.
Print Assumptions C37_for_ever.
Print Assumptions C36_divergence_step.
Print Assumptions C36_for_ever.
Print Assumptions C36_wall_row_refuted.
Print Assumptions C38_spread_e.
Print Assumptions C38_spread_h.
Print Assumptions C38_speed.
Print Assumptions C38_empty.
Print Assumptions C39_multiplier.
Print Assumptions C39_is_multiplier.
Print Assumptions C39_layers.
