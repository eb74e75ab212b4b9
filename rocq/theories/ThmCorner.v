(** C126: the ghost cells of a domain after the exchange, corner blocks included. *)
From Coq Require Import ZifyBool Reals Lra Psatz Permutation.
From Verif Require Import Base GridModel GridProofs CollectorModel OverlayModel YeeModel YeeProofs ThmYee ExtModel ThmExt YeeSmb ThmYeeSmb SmbCorner.
Open Scope Z_scope.

(** after a step every cell of a domain, ghost or not, holds what the undivided area holds at its place, except the corner blocks
    towards the lower right and the upper left neighbour, which hold zero *)
Theorem C126_corners_partial : forall mu g R C s eps sg Eps Sg j J m y,
  1 <= R -> 1 <= C -> 4 <= s -> s + 4 < 2 ^ 32 -> g_nr g = R * s -> g_nz g = C * s -> g_nr g < 2 ^ 32 -> g_nz g < 2 ^ 32 ->
  inner2 R C s eps Eps -> inner2 R C s sg Sg -> same_fields g R C s m y -> same_current R C s j J ->
  exists m' y', smb_step mu g R C s eps sg j m = Ok m' /\ yee_step mu g Eps Sg J y = Ok y' /\
    matches R C s (fun p => y_e (m' p)) (y_e y') /\ matches R C s (fun p => y_h (m' p)) (y_h y') /\ matches R C s (fun p => y_t (m' p)) (y_t y').
Proof.
  intros mu g R C s eps sg Eps Sg j J m y HR HC Hs HsL Gr Gz GrL GzL Ie Is SF SJ.
  destruct (C65_step mu g R C s HR HC Hs HsL Gr Gz GrL GzL eps sg Eps Sg Ie Is j J m y SF SJ) as (m' & y' & E1 & E2 & _).
  exists m', y'. split; [exact E1|]. split; [exact E2|]. now apply (step_corners mu g R C s HR HC Hs HsL Gr Gz GrL GzL eps sg Eps Sg Ie Is j J m y).
Qed.
(** ... so with one row or one column of domains, all of them *)
Theorem C126_row : forall mu g R C s eps sg Eps Sg j J m y,
  1 <= R -> 1 <= C -> R = 1 \/ C = 1 -> 4 <= s -> s + 4 < 2 ^ 32 -> g_nr g = R * s -> g_nz g = C * s -> g_nr g < 2 ^ 32 -> g_nz g < 2 ^ 32 ->
  inner2 R C s eps Eps -> inner2 R C s sg Sg -> same_fields g R C s m y -> same_current R C s j J ->
  exists m' y', smb_step mu g R C s eps sg j m = Ok m' /\ yee_step mu g Eps Sg J y = Ok y' /\
    forall i k c x z, 0 <= i < R -> 0 <= k < C -> -2 <= x < s + 2 -> -2 <= z < s + 2 ->
      lv (getc c (y_e (m' (i, k)))) x z = lv (getc c (y_e y')) (i * s + x) (k * s + z) /\
      lv (getc c (y_h (m' (i, k)))) x z = lv (getc c (y_h y')) (i * s + x) (k * s + z) /\
      lv (getc c (y_t (m' (i, k)))) x z = lv (getc c (y_t y')) (i * s + x) (k * s + z).
Proof.
  intros mu g R C s eps sg Eps Sg j J m y HR HC H1 Hs HsL Gr Gz GrL GzL Ie Is SF SJ.
  destruct (C126_corners_partial mu g R C s eps sg Eps Sg j J m y) as (m' & y' & E1 & E2 & Me & Mh & Mt); auto.
  exists m', y'. split; [exact E1|]. split; [exact E2|]. intros i k c x z Hi Hk Hx Hz.
  assert (W : inw s s x z) by (unfold inw; lia). assert (N : ~ skew R C s i k x z) by (unfold skew; lia).
  split; [|split]; [apply (proj1 (Me i k c x z Hi Hk W) N)|apply (proj1 (Mh i k c x z Hi Hk W) N)|apply (proj1 (Mt i k c x z Hi Hk W) N)].
Qed.

(** two rows and two columns, uniform current: E_z is -1 at cell (4, 3) of the area; the ghost cell (4, -1) of domain (0, 1) stands for
    it and holds 0; a particle of that domain at (15/4, 17/4) feels another field than in the undivided area *)
Theorem C126_corner_refuted : exists g R C s eps sg Eps Sg j J m y m' y',
  1 <= R /\ 1 <= C /\ 4 <= s /\ g_nr g = R * s /\ g_nz g = C * s /\ inner2 R C s eps Eps /\ inner2 R C s sg Sg /\ same_fields g R C s m y /\ same_current R C s j J /\
  smb_step 1 g R C s eps sg j m = Ok m' /\ yee_step 1 g Eps Sg J y = Ok y' /\
  lv (c_z (y_e y')) 4 3 = (-1)%R /\ lv (c_z (y_e (m' (0, 1)))) 4 (-1) = 0%R /\
  exists a b, get_field_e (dom_geo g R C s (0, 1)) (y_e (m' (0, 1))) (15 / 4) (17 / 4) = Ok a /\ get_field_e g (y_e y') (15 / 4) (17 / 4) = Ok b /\
    vcomp Cr a = vcomp Cr b /\ vcomp Cphi a = vcomp Cphi b /\ (vcomp Cz b < vcomp Cz a)%R.
Proof.
  destruct C65_example as (I1 & I2 & S & SJ & _).
  destruct (C126_corners_partial 1 geo8 2 2 4 _ _ _ _ _ _ _ _ ltac:(lia) ltac:(lia) ltac:(lia) ltac:(lia) eq_refl eq_refl ltac:(cbn; lia) ltac:(cbn; lia) I1 I2 S SJ)
    as (m' & y' & E1 & E2 & Me & _).
  destruct (C65_step 1 geo8 2 2 4 ltac:(lia) ltac:(lia) ltac:(lia) ltac:(lia) eq_refl eq_refl ltac:(cbn; lia) ltac:(cbn; lia) _ _ _ _ I1 I2 _ _ _ _ S SJ) as (m2 & y2 & E1' & E2' & SF').
  rewrite E1 in E1'. injection E1' as <-. rewrite E2 in E2'. injection E2' as <-. destruct SF' as ((Fe & _) & Le & _).
  assert (F8 : forall v, fits3 8 8 (sz3 8 v)) by (intros v []; apply sz_fits; lia).
  assert (E3 : calc_field_e geo8 (sz3 8 0) (sz3 8 1) (sz 8 1) (sz 8 0) (sz3 8 0) = Ok (y_e y')) by (apply (run_one 1 geo8 (sz 8 1) (sz 8 0) (sz3 8 1) (mkYee (sz3 8 0) (sz3 8 0) (sz3 8 0))); cbn [yee_run]; now rewrite E2).
  assert (V := e_value geo8 _ _ _ _ _ _ Cz 4 3 (F8 0%R) (F8 1%R) (sz_fits 8 1 ltac:(lia)) (sz_fits 8 0 ltac:(lia)) (F8 0%R) ltac:(split; cbn; lia) E3 ltac:(cbn; lia) ltac:(cbn; lia)).
  assert (V' : lv (getc Cz (y_e y')) 4 3 = (-1)%R).
  { rewrite V. unfold e_cell, lo_r, lo_z, hi_r, hi_z, geo8. cbn [g_w0 g_w1 g_w2 g_w3 g_nr g_nz].
    change ((1 <=? 4) && (4 <? 8 - 1) && (1 <=? 3) && (3 <? 8 - 1)) with true. cbn [new_reg].
    unfold e_upd, ke, kh, rot_z. cbn [y_t y_e getc c_r c_phi c_z sz3 g_dt g_dr g_d0]. rewrite !lv_sz by lia. change (4 + 0) with 4. lra. }
  clear V E3.
  assert (M : forall c x y, inw 4 4 x y -> (~ skew 2 2 4 0 1 x y -> lv (getc c (y_e (m' (0, 1)))) x y = lv (getc c (y_e y')) x (4 + y)) /\
     (skew 2 2 4 0 1 x y -> lv (getc c (y_e (m' (0, 1)))) x y = 0%R)).
  { intros c x y W. exact (Me 0 1 c x y ltac:(lia) ltac:(lia) W). }
  assert (Z0 : lv (c_z (y_e (m' (0, 1)))) 4 (-1) = 0%R) by (apply (M Cz 4 (-1)); [unfold inw; lia|unfold skew; lia]).
  exists geo8, 2, 2, 4, (fun _ => sz 4 1), (fun _ => sz 4 0), (sz 8 1), (sz 8 0), (fun _ => sz3 4 1), (sz3 8 1), (fun _ => mkYee (sz3 4 0) (sz3 4 0) (sz3 4 0)), (mkYee (sz3 8 0) (sz3 8 0) (sz3 8 0)), m', y'.
  split; [lia|]. split; [lia|]. split; [lia|]. split; [reflexivity|]. split; [reflexivity|]. split; [exact I1|]. split; [exact I2|]. split; [exact S|]. split; [exact SJ|].
  split; [exact E1|]. split; [exact E2|]. split; [exact V'|]. split; [exact Z0|].
  assert (Ng : inside geo8 (15 / 4) (17 / 4)) by (unfold inside; cbn; repeat split; (lia || lra)).
  assert (Nd : inside (dom_geo geo8 2 2 4 (0, 1)) (15 / 4) (17 / 4)) by (unfold inside; cbn; repeat split; (lia || lra)).
  rewrite (get_field_e_eq (dom_geo geo8 2 2 4 (0, 1)) _ _ _ (Le 0 1 ltac:(lia) ltac:(lia)) Nd), (get_field_e_eq geo8 _ _ _ Fe Ng).
  do 2 eexists. split; [reflexivity|]. split; [reflexivity|]. cbn [vcomp].
  change (place_half_r (dom_geo geo8 2 2 4 (0, 1))) with (place_half_r geo8). change (place_half_z (dom_geo geo8 2 2 4 (0, 1))) with (place_half_z geo8).
  change (place_node (dom_geo geo8 2 2 4 (0, 1))) with (place_node geo8).
  assert (C1 : cell_number (15 / 4) 1 = 3) by (cut (3 <= cell_number (15 / 4) 1 < 4); [lia|apply cell_number_range; lra]).
  assert (C2 : cell_number (17 / 4) 1 = 4) by (cut (4 <= cell_number (17 / 4) 1 < 5); [lia|apply cell_number_range; lra]).
  assert (C3 : cell_number (15 / 4 - / 2 * 1) 1 = 3) by (cut (3 <= cell_number (15 / 4 - / 2 * 1) 1 < 4); [lia|apply cell_number_range; lra]).
  assert (C4 : cell_number (17 / 4 - / 2 * 1) 1 = 3) by (cut (3 <= cell_number (17 / 4 - / 2 * 1) 1 < 4); [lia|apply cell_number_range; lra]).
  assert (Same : forall c p, (0 <= p_i p <= 3 /\ 4 <= p_k p <= 6) -> four (dom_geo geo8 2 2 4 (0, 1)) (lv (getc c (y_e (m' (0, 1))))) (15 / 4) p = four geo8 (lv (getc c (y_e y'))) (15 / 4) p).
  { intros c p Hp. unfold four. cbv zeta. cbn [dom_geo g_d0 g_d1 g_dr fst snd geo8]. rewrite Z.mul_0_l, !Z.add_0_r, !Z.sub_0_r. change (1 * 4) with 4.
    rewrite !(fun x y W N => proj1 (M c x y W) N) by (unfold inw, skew; lia). rewrite <- ?Z.add_assoc. change (-4 + 1) with (-3).
    replace (4 + (p_k p - 4)) with (p_k p) by lia. replace (4 + (p_k p - 4 + 1)) with (p_k p + 1) by lia. reflexivity. }
  assert (Pr : 0 <= p_i (place_half_r geo8 (15 / 4) (17 / 4)) <= 3 /\ 4 <= p_k (place_half_r geo8 (15 / 4) (17 / 4)) <= 6) by (cbn [place_half_r p_i p_k geo8 g_dr g_dz]; rewrite C3, C2; lia).
  assert (Pn : 0 <= p_i (place_node geo8 (15 / 4) (17 / 4)) <= 3 /\ 4 <= p_k (place_node geo8 (15 / 4) (17 / 4)) <= 6) by (cbn [place_node p_i p_k geo8 g_dr g_dz]; rewrite C1, C2; lia).
  assert (Sr := Same Cr _ Pr). assert (Sp := Same Cphi _ Pn). cbn [getc] in Sr, Sp. rewrite Sr, Sp. split; [reflexivity|]. split; [reflexivity|].
  apply Rplus_lt_compat_r. clear Sr Sp Same Pr Pn.
  set (p := place_half_z geo8 (15 / 4) (17 / 4)).
  assert (Ei : p_i p = 3) by exact C1. assert (Ek : p_k p = 3) by exact C4.
  unfold sum4, four. cbv zeta. rewrite Ei, Ek. cbn [dom_geo g_d0 g_d1 g_dr fst snd geo8].
  change (3 - (0 * 4 + 0)) with 3. change (3 - (1 * 4 + 0)) with (-1). change (3 - 0) with 3. change (3 + 1) with 4. change (-1 + 1) with 0.
  assert (Q1 := proj1 (M Cz 3 (-1) ltac:(unfold inw; lia)) ltac:(unfold skew; lia)). assert (Q2 := proj1 (M Cz 3 0 ltac:(unfold inw; lia)) ltac:(unfold skew; lia)).
  assert (Q3 := proj1 (M Cz 4 0 ltac:(unfold inw; lia)) ltac:(unfold skew; lia)). cbn [getc] in Q1, Q2, Q3, V'. change (4 + -1) with 3 in Q1. change (4 + 0) with 4 in Q2, Q3.
  rewrite Q1, Q2, Q3, Z0, V'.
  assert (Hv : (0 < cyl_rng_vol (p_dz1 p) (p_r2 p) (15 / 4 + / 2 * 1) / p_vol2 p)%R).
  { unfold p, place_half_z. cbn [p_dz1 p_r2 p_vol2 geo8 g_dr g_dz]. rewrite ?C1, ?C4. unfold cyl_rng_vol, cell_volume. assert (Pi := PI_RGT_0).
    apply Rdiv_lt_0_compat.
    - cbn. nra.
    - cbn. nra. }
  set (A := (lv (c_z (y_e y')) 3 3 * _ / _)%R). set (B := (lv (c_z (y_e y')) 3 4 * _ / _)%R). set (D := (lv (c_z (y_e y')) 4 4 * _ / _)%R). clearbody A B D.
  set (X := (cyl_rng_vol (p_dz1 p) (p_r2 p) (15 / 4 + / 2 * 1))%R) in *. unfold Rdiv in *. nra.
Qed.

(** two domains side by side *)
Definition slab (v : R) : grid R := new_grid 4 8 2 (fun _ _ => v).
Definition slab3 (v : R) : grid3 R := mkGrid3 (slab v) (slab v) (slab v).
Definition geo48 : geo := mkGeo 4 8 0 0 1 1 true true true true 1.
Example C126_ex : inner2 1 2 4 (fun _ => sz 4 1) (slab 1) /\ inner2 1 2 4 (fun _ => sz 4 0) (slab 0) /\
  same_fields geo48 1 2 4 (fun _ => mkYee (sz3 4 0) (sz3 4 0) (sz3 4 0)) (mkYee (slab3 0) (slab3 0) (slab3 0)) /\ same_current 1 2 4 (fun _ => sz3 4 1) (slab3 1) /\
  exists m', smb_step 1 geo48 1 2 4 (fun _ => sz 4 1) (fun _ => sz 4 0) (fun _ => sz3 4 1) (fun _ => mkYee (sz3 4 0) (sz3 4 0) (sz3 4 0)) = Ok m' /\
    lv (c_z (y_e (m' (0, 0)))) 2 4 = (-1)%R /\ lv (c_z (y_e (m' (0, 1)))) 4 (-1) = 0%R.
Proof.
  assert (Fs : forall v, fits2 4 8 (slab v)) by (intros v; split; [apply new_grid_wf; lia|repeat split]).
  assert (I1 : inner2 1 2 4 (fun _ => sz 4 1) (slab 1)) by (split; [apply Fs|]; intros; split; [apply sz_fits; lia|reflexivity]).
  assert (I2 : inner2 1 2 4 (fun _ => sz 4 0) (slab 0)) by (split; [apply Fs|]; intros; split; [apply sz_fits; lia|reflexivity]).
  assert (F4 : forall v, all_fit 1 2 4 (fun _ => sz3 4 v)) by (intros v i j _ _ []; apply sz_fits; lia).
  assert (F8 : forall v, fits3 4 8 (slab3 v)) by (intros v []; apply Fs).
  assert (A : agrees 1 2 4 (fun _ => sz3 4 0) (slab3 0)) by (intros i j [] x y _ _ _; reflexivity).
  assert (S : same_fields geo48 1 2 4 (fun _ => mkYee (sz3 4 0) (sz3 4 0) (sz3 4 0)) (mkYee (slab3 0) (slab3 0) (slab3 0))).
  { exact (conj (conj (F8 0%R) (conj (F8 0%R) (F8 0%R))) (conj (F4 0%R) (conj (F4 0%R) (conj (F4 0%R) (conj A (conj A A)))))). }
  assert (SJ : same_current 1 2 4 (fun _ => sz3 4 1) (slab3 1)).
  { refine (conj (F8 1%R) (conj (F4 1%R) _)). intros i j [] x y _ _ _ _; reflexivity. }
  split; [exact I1|]. split; [exact I2|]. split; [exact S|]. split; [exact SJ|].
  destruct (C126_row 1 geo48 1 2 4 _ _ _ _ _ _ _ _ ltac:(lia) ltac:(lia) ltac:(lia) ltac:(lia) ltac:(lia) eq_refl eq_refl ltac:(cbn; lia) ltac:(cbn; lia) I1 I2 S SJ)
    as (m' & y' & E1 & E2 & M).
  exists m'. split; [exact E1|].
  assert (E3 : calc_field_e geo48 (slab3 0) (slab3 1) (slab 1) (slab 0) (slab3 0) = Ok (y_e y')) by (apply (run_one 1 geo48 (slab 1) (slab 0) (slab3 1) (mkYee (slab3 0) (slab3 0) (slab3 0))); cbn [yee_run]; now rewrite E2).
  assert (Ls : forall v x y, lv (slab v) x y = v) by reflexivity.
  split; [destruct (M 0 0 Cz 2 4) as [Q _]; try lia|destruct (M 0 1 Cz 4 (-1)) as [Q _]; try lia]; cbn [getc] in Q; rewrite Q; clear Q.
  - assert (V := e_value geo48 _ _ _ _ _ _ Cz 2 4 (F8 0%R) (F8 1%R) (Fs 1%R) (Fs 0%R) (F8 0%R) ltac:(split; cbn; lia) E3 ltac:(cbn; lia) ltac:(cbn; lia)).
    change (0 * 4 + 2) with 2. change (0 * 4 + 4) with 4. cbn [getc] in V. rewrite V. unfold e_cell, lo_r, lo_z, hi_r, hi_z, geo48. cbn [g_w0 g_w1 g_w2 g_w3 g_nr g_nz].
    change ((1 <=? 2) && (2 <? 4 - 1) && (1 <=? 4) && (4 <? 8 - 1)) with true. cbn [new_reg].
    unfold e_upd, ke, kh, rot_z. cbn [y_t y_e getc c_r c_phi c_z slab3 g_dt g_dr g_d0]. rewrite !Ls. change (2 + 0) with 2. lra.
  - destruct (calc_field_e_spec geo48 (slab3 0) (slab3 1) (slab 1) (slab 0)) with (e := slab3 0) as (E' & EE & _ & _ & O); auto; try (cbn; lia); try apply F8; try apply Fs.
    rewrite E3 in EE. injection EE as <-. apply (O Cz 4 3); [unfold inw; cbn; lia|cbn; lia].
Qed.

Print Assumptions C126_corners_partial.
Print Assumptions C126_row.
Print Assumptions C126_corner_refuted.
