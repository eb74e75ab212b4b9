(** C135: the fields of a run with several processes. *)
From Coq Require Import ZifyBool Reals Lra Permutation.
From Verif Require Import Base GridModel GridProofs CollectorModel OverlayModel OverlayConc OverlaySum OverlayPass ThmOverlay YeeModel YeeProofs ThmYee ExtModel ThmExt YeeSmb ThmYeeSmb SmbCorner
  MpiModel MpiNet MpiData MpiExchange ThmMpi FieldMpiModel FieldMpi ThmCorner.
Open Scope Z_scope.

(** any number of steps: whatever the schedule of the messages, every rank holds the cells of the undivided area: of E and of
    field_h_at_et with the ghost cells around them, of field_h without the ghost cells at the borders between ranks, which hold zero *)
Theorem C135_ranks_partial : forall mu g W R C s eps sg Eps Sg K js Js st st' y,
  1 <= W -> 1 <= R -> 1 <= C -> 4 <= s -> s + 4 < 2 ^ 32 -> g_nr g = R * s -> g_nz g = W * C * s -> g_nr g < 2 ^ 32 -> g_nz g < 2 ^ 32 -> g_d1 g = 0 ->
  rank_inner2 W R C s eps Eps -> rank_inner2 W R C s sg Sg -> rank_fields g W R C s st y -> Forall2 (rank_current W R C s) js Js ->
  mpi_run mu g W (W * C) R s eps sg K js st st' ->
  exists y', yee_run mu g Eps Sg Js y = Ok y' /\ rank_fields g W R C s st' y'.
Proof.
  intros mu g W R C s eps sg Eps Sg K js Js st st' y HW HR HC Hs HsL Gr Gz GrL GzL G0 He Hsg S F Rn. revert Js y S F.
  induction Rn as [st|j js st st1 st2 St Rn IH]; intros Js y S F.
  - inversion F; subst. exists y. split; [reflexivity|exact S].
  - inversion F as [|? J ? Js' SJ F']; subst.
    destruct (mpi_step_sound mu g W R C s HW HR HC Hs HsL Gr Gz GrL GzL G0 eps sg Eps Sg He Hsg K j J st st1 y S SJ St) as (y1 & E1 & S1).
    destruct (IH Js' y1 S1 F') as (y2 & E2 & S2). exists y2. cbn [yee_run]. rewrite E1. cbn [bind]. split; assumption.
Qed.
(** ... and there are such runs, if the MPI library stores the messages of all radial domains *)
Theorem C135_takes_place : forall mu g W R C s eps sg Eps Sg K js Js st y,
  1 <= W -> 1 <= R -> 1 <= C -> 4 <= s -> s + 4 < 2 ^ 32 -> g_nr g = R * s -> g_nz g = W * C * s -> g_nr g < 2 ^ 32 -> g_nz g < 2 ^ 32 -> g_d1 g = 0 ->
  rank_inner2 W R C s eps Eps -> rank_inner2 W R C s sg Sg -> rank_fields g W R C s st y -> Forall2 (rank_current W R C s) js Js -> (Z.to_nat R <= K)%nat ->
  exists st', mpi_run mu g W (W * C) R s eps sg K js st st'.
Proof.
  intros mu g W R C s eps sg Eps Sg K js Js st y HW HR HC Hs HsL Gr Gz GrL GzL G0 He Hsg S F HK. revert st y S.
  induction F as [|j J js Js SJ F IH]; intros st y S.
  - exists st. constructor.
  - destruct (mpi_step_exists mu g W R C s HW HR HC Hs HsL Gr Gz GrL GzL G0 eps sg Eps Sg He Hsg K j J st y HK S SJ) as (st1 & St).
    destruct (mpi_step_sound mu g W R C s HW HR HC Hs HsL Gr Gz GrL GzL G0 eps sg Eps Sg He Hsg K j J st st1 y S SJ St) as (y1 & _ & S1).
    destruct (IH st1 y1 S1) as (st2 & Rn). exists st2. econstructor; eauto.
Qed.
(** domain by domain, the fields are those of a run with one process and the same domains *)
Theorem C135_one_process : forall mu g W R C s eps sg eps1 sg1 Eps Sg K js js1 Js st st' m m' y,
  1 <= W -> 1 <= R -> 1 <= C -> 4 <= s -> s + 4 < 2 ^ 32 -> g_nr g = R * s -> g_nz g = W * C * s -> g_nr g < 2 ^ 32 -> g_nz g < 2 ^ 32 -> g_d1 g = 0 ->
  rank_inner2 W R C s eps Eps -> rank_inner2 W R C s sg Sg -> inner2 R (W * C) s eps1 Eps -> inner2 R (W * C) s sg1 Sg ->
  rank_fields g W R C s st y -> same_fields g R (W * C) s m y ->
  Forall2 (rank_current W R C s) js Js -> Forall2 (same_current R (W * C) s) js1 Js ->
  mpi_run mu g W (W * C) R s eps sg K js st st' -> smb_run mu g R (W * C) s eps1 sg1 js1 m = Ok m' ->
  forall p i k c x z, 0 <= p < W -> 0 <= i < R -> 0 <= k < C -> 0 <= x < s -> 0 <= z < s ->
    lv (getc c (y_e (st' p (i, k)))) x z = lv (getc c (y_e (m' (i, p * C + k)))) x z /\
    lv (getc c (y_h (st' p (i, k)))) x z = lv (getc c (y_h (m' (i, p * C + k)))) x z /\
    lv (getc c (y_t (st' p (i, k)))) x z = lv (getc c (y_t (m' (i, p * C + k)))) x z.
Proof.
  intros mu g W R C s eps sg eps1 sg1 Eps Sg K js js1 Js st st' m m' y HW HR HC Hs HsL Gr Gz GrL GzL G0 He Hsg He1 Hsg1 S S1 F F1 Rn E p i k c x z Hp Hi Hk Hx Hz.
  destruct (C135_ranks_partial mu g W R C s eps sg Eps Sg K js Js st st' y HW HR HC Hs HsL Gr Gz GrL GzL G0 He Hsg S F Rn) as (y1 & E1 & _ & _ & _ & _ & Ae & Ah & At).
  destruct (C65_for_ever mu g R (W * C) s HR ltac:(nia) Hs HsL Gr Gz GrL GzL eps1 sg1 Eps Sg He1 Hsg1 js1 Js m y S1 F1) as (m1 & y2 & E2 & E3 & _ & _ & _ & _ & Be & Bh & Bt).
  rewrite E in E2. injection E2 as <-. rewrite E1 in E3. injection E3 as <-.
  assert (Hk' : 0 <= p * C + k < W * C) by nia.
  assert (Be' := Be i (p * C + k) c x z Hi Hk' ltac:(lia)). assert (Bh' := Bh i (p * C + k) c x z Hi Hk' ltac:(lia)). assert (Bt' := Bt i (p * C + k) c x z Hi Hk' ltac:(lia)).
  assert (Ae' := Ae p i k c x z Hp Hi Hk ltac:(lia)). assert (At' := At p i k c x z Hp Hi Hk ltac:(lia)).
  assert (Ah' := proj1 (Ah p i k c x z Hp Hi Hk ltac:(lia)) ltac:(unfold rank_border; lia)).
  cbn beta in *. rewrite Ae', Ah', At', Be', Bh', Bt'. auto.
Qed.

(** two processes with one domain of 4 x 4 cells each, one step with a uniform current from empty space *)
Definition empty_rank : Z -> doms yee := fun _ _ => mkYee (sz3 4 0) (sz3 4 0) (sz3 4 0).
Definition right_geo : geo := mkGeo 4 4 0 4 1 1 true false true true 1.
Lemma C135_setting :
  rank_inner2 2 1 1 4 (fun _ _ => sz 4 1) (slab 1) /\ rank_inner2 2 1 1 4 (fun _ _ => sz 4 0) (slab 0) /\
  rank_fields geo48 2 1 1 4 empty_rank (mkYee (slab3 0) (slab3 0) (slab3 0)) /\ rank_current 2 1 1 4 (fun _ _ => sz3 4 1) (slab3 1).
Proof.
  assert (Fs : forall v, fits2 4 8 (slab v)) by (intros v; split; [apply new_grid_wf; lia|repeat split]).
  assert (F8 : forall v, fits3 4 8 (slab3 v)) by (intros v []; apply Fs).
  assert (F4 : forall v, rank_fit 2 1 1 4 (fun _ _ => sz3 4 v)) by (intros v p _ i j _ _ []; apply sz_fits; lia).
  split; [split; [apply Fs|]; intros; split; [apply sz_fits; lia|reflexivity]|].
  split; [split; [apply Fs|]; intros; split; [apply sz_fits; lia|reflexivity]|].
  split.
  - assert (A : rank_agrees 2 1 1 4 (fun _ _ => sz3 4 0) (slab3 0)) by (intros p i j [] x y _ _ _ _; reflexivity).
    assert (A' : rank_agrees_inside 2 1 1 4 (fun _ _ => sz3 4 0) (slab3 0)) by (intros p i j [] x y _ _ _ _; split; intros _; reflexivity).
    exact (conj (conj (F8 0%R) (conj (F8 0%R) (F8 0%R))) (conj (F4 0%R) (conj (F4 0%R) (conj (F4 0%R) (conj A (conj A' A)))))).
  - refine (conj (F8 1%R) (conj (F4 1%R) _)). intros p i j [] x y _ _ _ _ _; reflexivity.
Qed.
Lemma slab_field y' : yee_step 1 geo48 (slab 1) (slab 0) (slab3 1) (mkYee (slab3 0) (slab3 0) (slab3 0)) = Ok y' ->
  fits3 4 8 (y_h y') /\ lv (c_phi (y_h y')) 1 3 = 0%R /\ lv (c_phi (y_h y')) 2 3 = (1 / 2)%R.
Proof.
  assert (Fs : forall v, fits2 4 8 (slab v)) by (intros v; split; [apply new_grid_wf; lia|repeat split]).
  assert (F8 : forall v, fits3 4 8 (slab3 v)) by (intros v []; apply Fs).
  unfold yee_step. cbn [y_e y_h y_t].
  destruct (calc_field_e_spec geo48 (slab3 0) (slab3 1) (slab 1) (slab 0)) with (e := slab3 0) as (E' & EE & FE & V & _); auto; try (cbn; lia); try apply F8; try apply Fs.
  rewrite EE. cbn [bind].
  destruct (calc_field_h_spec 1 geo48 E' FE (slab3 0) (slab3 0) (F8 0%R) (F8 0%R) ltac:(cbn; lia)) as (H' & T' & EH & FH & _ & VH & _).
  rewrite EH. cbn [bind]. intros [= <-]. cbn [y_h]. split; [exact FH|].
  assert (Ls : forall v x y, lv (slab v) x y = v) by reflexivity.
  assert (Er : forall x z, 1 <= x < 3 -> 1 <= z < 7 -> lv (c_r E') x z = (-1)%R /\ lv (c_z E') x z = (-1)%R).
  { intros x z Hx Hz. assert (V1 := V Cr x z ltac:(cbn; lia) ltac:(cbn; lia)). assert (V2 := V Cz x z ltac:(cbn; lia) ltac:(cbn; lia)). cbn [getc] in V1, V2. rewrite V1, V2.
    unfold e_cell, lo_r, lo_z, hi_r, hi_z, geo48. cbn [g_w0 g_w1 g_w2 g_w3 g_nr g_nz].
    replace ((1 <=? x) && (x <? 4 - 1) && (1 <=? z) && (z <? 8 - 1)) with true by lia. cbn [new_reg].
    unfold e_upd, ke, kh, rot_z, rot_r. cbn [y_t y_e getc c_r c_phi c_z slab3 g_dt g_dr g_dz g_d0]. rewrite !Ls. split; [lra|].
    assert (P : (IZR (x + 0) <> 0)%R) by (apply not_0_IZR; lia). replace ((0 + 0) / (2 * 1 * IZR (x + 0)))%R with 0%R by (field; exact P). lra. }
  assert (E3 : lv (c_z E') 3 3 = 0%R).
  { assert (V2 := V Cz 3 3 ltac:(cbn; lia) ltac:(cbn; lia)). cbn [getc] in V2. rewrite V2. reflexivity. }
  destruct (VH 1 3 ltac:(cbn; lia) ltac:(cbn; lia)) as (_ & _ & _ & _ & A & _). destruct (VH 2 3 ltac:(cbn; lia) ltac:(cbn; lia)) as (_ & _ & _ & _ & B & _).
  rewrite A, B. unfold alpha_phi. change (1 + 1) with 2. change (2 + 1) with 3. change (3 + 1) with 4.
  rewrite !(fun x z Hx Hz => proj1 (Er x z Hx Hz)) by lia. rewrite !(fun x z Hx Hz => proj2 (Er x z Hx Hz)) by lia. rewrite E3. change (lv (c_phi (slab3 0)) 1 3) with 0%R. change (lv (c_phi (slab3 0)) 2 3) with 0%R.
  cbn [g_dt g_dr g_dz geo48]. split; lra.
Qed.
Lemma border_field K st' y' : mpi_step 1 geo48 2 (2 * 1) 1 4 (fun _ _ => sz 4 1) (fun _ _ => sz 4 0) K (fun _ _ => sz3 4 1) empty_rank st' ->
  yee_step 1 geo48 (slab 1) (slab 0) (slab3 1) (mkYee (slab3 0) (slab3 0) (slab3 0)) = Ok y' ->
  lv (c_phi (y_h y')) 2 3 = (1 / 2)%R /\ lv (c_phi (y_h (st' 1 (0, 0)))) 2 (-1) = 0%R /\
  exists a b, get_field_h right_geo (y_h (st' 1 (0, 0))) 2 (17 / 4) = Ok a /\ get_field_h geo48 (y_h y') 2 (17 / 4) = Ok b /\ (vcomp Cphi a < vcomp Cphi b)%R.
Proof.
  destruct C135_setting as (I1 & I2 & S & SJ). intros St E.
  destruct (mpi_step_sound 1 geo48 2 1 1 4 ltac:(lia) ltac:(lia) ltac:(lia) ltac:(lia) ltac:(lia) eq_refl eq_refl ltac:(cbn; lia) ltac:(cbn; lia) eq_refl _ _ _ _ I1 I2 K _ _ _ _ _ S SJ St) as (y2 & E2 & S').
  rewrite E in E2. injection E2 as <-.
  destruct (slab_field y' E) as (FH & V1 & V2).
  destruct S' as (_ & _ & Lh & _ & _ & Ah & _).
  assert (Z0 : forall x, -2 <= x < 6 -> 0 <= x < 4 -> lv (c_phi (y_h (st' 1 (0, 0)))) x (-1) = 0%R) by (intros x _ Hx; apply (Ah 1 0 0 Cphi x (-1)); try lia; unfold rank_border; lia).
  assert (Same : forall x z, 0 <= x < 4 -> 0 <= z < 4 -> lv (c_phi (y_h (st' 1 (0, 0)))) x z = lv (c_phi (y_h y')) x (4 + z)).
  { intros x z Hx Hz. destruct (Ah 1 0 0 Cphi x z) as [A _]; try lia. cbn [getc] in A. rewrite A by (unfold rank_border; lia). f_equal; lia. }
  split; [exact V2|]. split; [apply Z0; lia|].
  assert (Ng : inside geo48 2 (17 / 4)) by (unfold inside; cbn; repeat split; (lia || lra)).
  assert (Nd : inside right_geo 2 (17 / 4)) by (unfold inside; cbn; repeat split; (lia || lra)).
  rewrite (get_field_h_eq right_geo _ _ _ (Lh 1 ltac:(lia) 0 0 ltac:(lia) ltac:(lia)) Nd), (get_field_h_eq geo48 _ _ _ FH Ng).
  do 2 eexists. split; [reflexivity|]. split; [reflexivity|]. cbn [vcomp].
  change (place_half_rz right_geo) with (place_half_rz geo48).
  assert (C3 : cell_number (2 - / 2 * 1) 1 = 1) by (cut (1 <= cell_number (2 - / 2 * 1) 1 < 2); [lia|apply cell_number_range; lra]).
  assert (C4 : cell_number (17 / 4 - / 2 * 1) 1 = 3) by (cut (3 <= cell_number (17 / 4 - / 2 * 1) 1 < 4); [lia|apply cell_number_range; lra]).
  set (p := place_half_rz geo48 2 (17 / 4)).
  assert (Ei : p_i p = 1) by exact C3. assert (Ek : p_k p = 3) by exact C4.
  unfold sum4, four. cbv zeta. rewrite Ei, Ek. cbn [g_d0 g_d1 g_dr right_geo geo48].
  change (3 - 4) with (-1). change (1 - 0) with 1. change (3 - 0) with 3. change (3 + 1) with 4. change (-1 + 1) with 0. change (1 + 1) with 2.
  rewrite !Z0, !Same, V1, V2 by lia. change (4 + 0) with 4.
  assert (Hv : (0 < cyl_rng_vol (p_dz1 p) (p_r2 p) (2 + / 2 * 1) / p_vol2 p)%R).
  { unfold p, place_half_rz. cbn [p_dz1 p_r2 p_vol2 geo48 g_dr g_dz]. rewrite ?C3, ?C4. unfold cyl_rng_vol, cell_volume. assert (Pi := PI_RGT_0).
    apply Rdiv_lt_0_compat.
    - cbn. nra.
    - cbn. nra. }
  set (B := (lv (c_phi (y_h y')) 1 4 * _ / _)%R). set (D := (lv (c_phi (y_h y')) 2 4 * _ / _)%R). clearbody B D.
  set (X := (cyl_rng_vol (p_dz1 p) (p_r2 p) (2 + / 2 * 1))%R) in *. unfold Rdiv in *. nra.
Qed.
(** a particle of the second process at (2, 17/4) feels a weaker magnetic field than in the run with one process: the pusher reads
    field_h, whose ghost cells at the border of the ranks hold zero *)
Theorem C135_magnetic_refuted : exists g W R C s eps sg Eps Sg K j J st st' y y' gr,
  rank_inner2 W R C s eps Eps /\ rank_inner2 W R C s sg Sg /\ rank_fields g W R C s st y /\ rank_current W R C s j J /\
  mpi_step 1 g W (W * C) R s eps sg K j st st' /\ yee_step 1 g Eps Sg J y = Ok y' /\ rank_geo g W (W * C) 1 = Ok (gr, C) /\
  lv (c_phi (y_h y')) 2 3 = (1 / 2)%R /\ lv (c_phi (y_h (st' 1 (0, 0)))) 2 (-1) = 0%R /\
  exists a b, get_field_h (dom_geo gr R C s (0, 0)) (y_h (st' 1 (0, 0))) 2 (17 / 4) = Ok a /\ get_field_h g (y_h y') 2 (17 / 4) = Ok b /\ (vcomp Cphi a < vcomp Cphi b)%R.
Proof.
  destruct C135_setting as (I1 & I2 & S & SJ).
  destruct (mpi_step_exists 1 geo48 2 1 1 4 ltac:(lia) ltac:(lia) ltac:(lia) ltac:(lia) ltac:(lia) eq_refl eq_refl ltac:(cbn; lia) ltac:(cbn; lia) eq_refl _ _ _ _ I1 I2 1%nat _ _ _ _ ltac:(cbn; lia) S SJ) as (st' & St).
  destruct (mpi_step_sound 1 geo48 2 1 1 4 ltac:(lia) ltac:(lia) ltac:(lia) ltac:(lia) ltac:(lia) eq_refl eq_refl ltac:(cbn; lia) ltac:(cbn; lia) eq_refl _ _ _ _ I1 I2 1%nat _ _ _ _ _ S SJ St) as (y' & E & _).
  exists geo48, 2, 1, 1, 4, (fun _ _ => sz 4 1), (fun _ _ => sz 4 0), (slab 1), (slab 0), 1%nat, (fun _ _ => sz3 4 1), (slab3 1), empty_rank, st', (mkYee (slab3 0) (slab3 0) (slab3 0)), y', right_geo.
  split; [exact I1|]. split; [exact I2|]. split; [exact S|]. split; [exact SJ|]. split; [exact St|]. split; [exact E|]. split; [reflexivity|].
  exact (border_field 1%nat st' y' St E).
Qed.
Example C135_ex : rank_inner2 2 1 1 4 (fun _ _ => sz 4 1) (slab 1) /\ rank_inner2 2 1 1 4 (fun _ _ => sz 4 0) (slab 0) /\
  rank_fields geo48 2 1 1 4 empty_rank (mkYee (slab3 0) (slab3 0) (slab3 0)) /\ Forall2 (rank_current 2 1 1 4) [fun _ _ => sz3 4 1] [slab3 1] /\
  (exists st', mpi_run 1 geo48 2 2 1 4 (fun _ _ => sz 4 1) (fun _ _ => sz 4 0) 1 [fun _ _ => sz3 4 1] empty_rank st') /\
  g_nz geo48 = 2 * 1 * 4 /\ rank_geo geo48 2 2 1 = Ok (right_geo, 1).
Proof.
  destruct C135_setting as (I1 & I2 & S & SJ).
  split; [exact I1|]. split; [exact I2|]. split; [exact S|]. assert (F : Forall2 (rank_current 2 1 1 4) [fun _ _ => sz3 4 1] [slab3 1]) by (constructor; [exact SJ|constructor]).
  split; [exact F|]. split; [|split; reflexivity].
  exact (C135_takes_place 1 geo48 2 1 1 4 _ _ _ _ 1%nat _ _ _ _ ltac:(lia) ltac:(lia) ltac:(lia) ltac:(lia) ltac:(lia) eq_refl eq_refl ltac:(cbn; lia) ltac:(cbn; lia) eq_refl I1 I2 S F ltac:(cbn; lia)).
Qed.

Print Assumptions C135_ranks_partial.
Print Assumptions C135_takes_place.
Print Assumptions C135_one_process.
Print Assumptions C135_magnetic_refuted.
