(** C123: Gauss's law in an area that is divided into domains. *)
From Coq Require Import ZifyBool Reals Lra Permutation.
From Verif Require Import Base GridModel GridProofs CollectorModel OverlayModel OverlayConc OverlaySum OverlayPass ThmOverlay YeeModel YeeProofs ThmYee
  ExtModel ThmExt RndUtil CurrentModel CurrentProofs ThmCurrent ThmCurrent2 SumUtil CavityProofs ThmEnergy ThmGauss YeeSmb ThmYeeSmb SmbCurrent ThmDivide.
Open Scope Z_scope.

(** SMB.cpp:1266-1278 [solve_current] and 1231-1252 [solve_maxvell] in the order in which a current meets the fields it
    changes (PiCoPiC.cpp:326-336: [solve_maxvell] of a round works with the current of the round before) *)
Fixpoint smb_gauss (mu : R) (g : geo) (R C s : Z) (eps sg : doms (grid Rdefinitions.R))
    (pss : list (doms (list mover))) (m : doms yee) (j : doms (grid3 Rdefinitions.R)) : outcome (doms yee * doms (grid3 Rdefinitions.R)) :=
  match pss with
  | [] => Ok (m, j)
  | ps :: pss' => do j' <- smb_current vb_distribution g R C s ps j; do m' <- smb_step mu g R C s eps sg j' m; smb_gauss mu g R C s eps sg pss' m' j'
  end.
(** the particles of the whole area go on from where they are, whatever domains they are in *)
Fixpoint linked_doms (R C : Z) (start : list (Rdefinitions.R * Rdefinitions.R * Rdefinitions.R)) (pss : list (doms (list mover))) : Prop :=
  match pss with [] => True | ps :: pss' => Permutation (where_from (everyone R C ps)) start /\ linked_doms R C (where_to (everyone R C ps)) pss' end.
Fixpoint arrived_doms (R C : Z) (start : list (Rdefinitions.R * Rdefinitions.R * Rdefinitions.R)) (pss : list (doms (list mover))) :=
  match pss with [] => start | ps :: pss' => arrived_doms R C (where_to (everyone R C ps)) pss' end.
(** the flux out of a node of the whole area, read from the domains that own the cells *)
Definition glued_flux (g : geo) (s : Z) (m : doms (grid3 R)) (i k : Z) : R :=
  (face_r g i * glued s m Cr i k - (if i =? 0 then 0 else face_r g (i - 1) * glued s m Cr (i - 1) k)
   + face_z g i * (glued s m Cz i k - glued s m Cz i (k - 1)))%R.

Lemma sum_over_perm {A} (f : A -> R) l l' : Permutation l l' -> sum_over f l = sum_over f l'.
Proof. induction 1; cbn [sum_over]; lra. Qed.
Lemma glued_flux_agrees g R C s m G i k : 1 <= s -> g_nr g = R * s -> g_nz g = C * s -> agrees R C s m G -> node g i k -> glued_flux g s m i k = flux g G i k.
Proof.
  intros Hs Gr Gz A (Ni & Nk). unfold glued_flux, flux.
  rewrite (glued_agrees R C s m G Cr i k), (glued_agrees R C s m G Cz i k), (glued_agrees R C s m G Cz i (k - 1)) by (auto; lia). cbn [getc].
  destruct (i =? 0) eqn:I0; [reflexivity|]. rewrite (glued_agrees R C s m G Cr (i - 1) k) by (auto; lia). reflexivity.
Qed.

Section C123.
Variable mu : R.
Variable g : geo.
Variables R C s : Z.
Hypothesis HR : 1 <= R.
Hypothesis HC : 1 <= C.
Hypothesis Hs : 4 <= s.
Hypothesis HsL : s + 4 < 2 ^ 32.
Hypothesis Gr : g_nr g = R * s.
Hypothesis Gz : g_nz g = C * s.
Hypothesis GrL : g_nr g < 2 ^ 32 - 4.
Hypothesis GzL : g_nz g < 2 ^ 32 - 4.
Variables eps sg : doms (grid Rdefinitions.R).
Variables Eps Sg : grid Rdefinitions.R.
Hypothesis Heps : inner2 R C s eps Eps.
Hypothesis Hsg : inner2 R C s sg Sg.
Hypothesis Cl : closed g.
Hypothesis D1 : g_d1 g = 0.
Hypothesis Pt : (0 < g_dt g)%R.

(** one round: each particle is in the list of the domain it is in now, all moves are of the kind of C120, and none deposits
    in the two corners of ghost cells that the stitching leaves out *)
Definition gauss_round (ps : doms (list mover)) : Prop :=
  (forall i k, 0 <= i < R -> 0 <= k < C -> Forall (lands (dom_geo g R C s (i, k))) (ps (i, k))) /\
  Forall (good_move g) (everyone R C ps) /\
  (R = 1 \/ C = 1 \/ forall i k, 0 <= i < R -> 0 <= k < C -> no_corner s (flat_map (rz_deps (dom_geo g R C s (i, k))) (ps (i, k)))).

(** the currents of the domains with some current of the whole area that leaves the nodes with the charge *)
Lemma round_current ps j : all_fit R C s j -> gauss_round ps ->
  exists j' J, smb_current vb_distribution g R C s ps j = Ok j' /\ same_current R C s j' J /\
    forall i k, node g i k -> charge_after g (everyone R C ps) i k = (charge_before g (everyone R C ps) i k - g_dt g * flux g J i k)%R.
Proof using HR HC Hs HsL Gr Gz GrL GzL Cl D1 Pt.
  intros Fj (L & G & D). pose proof Cl as (_ & _ & _ & _ & _ & N & M & Pr & Pz).
  assert (S : sizes g) by (split; [exact Pr|split; [exact Pz|exact Pt]]).
  assert (F0 : fits3 (R * s) (C * s) (uniform3 (R * s) (C * s) 0)) by (apply mk_grid3_fits; lia).
  assert (Lo : Forall long_r (everyone R C ps)) by (apply long_moves with g; exact G).
  destruct (C121_vb_partial g R C s HR HC Hs HsL Gr Gz ps (everyone R C ps) j _ S Fj F0 (Permutation_refl _) L Lo D) as (j' & J' & E' & EJ & F' & FJ' & Vrz & _).
  assert (Lg : Forall (lands g) (everyone R C ps)) by (eapply Forall_impl; [|exact G]; intros p Hp; apply Hp).
  destruct (zero_vb g (everyone R C ps) (uniform3 (R * s) (C * s) 0) S ltac:(now rewrite Gr, Gz) Lg) as (J2 & E2 & _ & _ & V2).
  rewrite EJ in E2. injection E2 as <-. specialize (V2 Lo).
  set (J := mkGrid3 (c_r J') (mk_grid (R * s) (C * s) (fun X Y => glued s j' Cphi X Y)) (c_z J')).
  exists j', J. split; [exact E'|]. split; [split; [|split; [exact F'|]]|].
  - intros []; [apply (FJ' Cr)|apply mk_grid_fits; lia|apply (FJ' Cz)].
  - intros i k c x y Hi Hk Hx Hy. destruct c; [apply Vrz; auto; discriminate| |apply Vrz; auto; discriminate].
    cbn [getc c_phi J]. unfold J. cbn [c_phi]. rewrite mk_grid_lv. unfold glued.
    replace ((i * s + x) / s) with i by (rewrite Z.add_comm, Z.div_add, Z.div_small; lia).
    replace ((k * s + y) / s) with k by (rewrite Z.add_comm, Z.div_add, Z.div_small; lia).
    replace ((i * s + x) mod s) with x by (rewrite Z.add_comm, Z.mod_add, Z.mod_small; lia).
    replace ((k * s + y) mod s) with y by (rewrite Z.add_comm, Z.mod_add, Z.mod_small; lia). reflexivity.
  - intros i k Nd. rewrite (deposits_leave g (everyone R C ps) J' Cl D1 S G V2 i k Nd). reflexivity.
Qed.

Theorem C123_gauss_partial : forall ev pss start m y j m' j',
  (forall i k, 0 <= i < g_nr g -> 0 <= k < g_nz g -> (0 < lv Eps i k)%R /\ (0 <= lv Sg i k)%R) ->
  same_fields g R C s m y -> all_fit R C s j -> linked_doms R C start pss -> Forall gauss_round pss ->
  smb_gauss mu g R C s eps sg pss m j = Ok (m', j') ->
  forall i k, node g i k -> (i, k) <> (0, 1) -> vacuum g Eps Sg ev i k ->
  (ev * glued_flux g s (fun p => y_e (m' p)) i k - charge g (arrived_doms R C start pss) i k =
   ev * glued_flux g s (fun p => y_e (m p)) i k - charge g start i k)%R.
Proof using HR HC Hs HsL Gr Gz GrL GzL Heps Hsg Cl D1 Pt.
  intros ev pss start m y j m' j' Q. revert start m y j. induction pss as [|ps pss IH]; intros start m y j SF Fj L G E i k Nd Nc V.
  - cbn [smb_gauss arrived_doms] in *. injection E as <- _. reflexivity.
  - cbn [smb_gauss linked_doms arrived_doms] in *. destruct L as (L0 & L1). inversion G as [|? ? G1 G2]; subst.
    destruct (round_current ps j Fj G1) as (j1 & J & Ej & SJ & Fl). rewrite Ej in E. cbn [bind] in E.
    destruct (C65_step mu g R C s HR HC Hs HsL Gr Gz ltac:(lia) ltac:(lia) eps sg Eps Sg Heps Hsg j1 J m y SF SJ) as (m1 & y1 & Em & Ey & S1).
    rewrite Em in E. cbn [bind] in E.
    rewrite (IH (where_to (everyone R C ps)) m1 y1 j1 S1 (proj1 (proj2 SJ)) L1 G2 E i k Nd Nc V).
    rewrite (glued_flux_agrees g R C s _ (y_e y1) i k ltac:(lia) Gr Gz) by (auto; apply S1).
    rewrite (glued_flux_agrees g R C s _ (y_e y) i k ltac:(lia) Gr Gz) by (auto; apply SF).
    apply yee_step_e in Ey. destruct SF as ((Fe & Fh & Ft) & _).
    assert (B := C119_flux_partial g (y_t y) J Eps Sg ev (y_e y) (y_e y1) Cl Ft ltac:(rewrite Gr, Gz; apply SJ) ltac:(rewrite Gr, Gz; apply Heps) ltac:(rewrite Gr, Gz; apply Hsg) Fe).
    specialize (B ltac:(intros a b Ha Hb; destruct (Q a b Ha Hb); assert (0 <= lv Sg a b * g_dt g)%R by (apply Rmult_le_pos; lra); lra) Ey i k Nd Nc V).
    specialize (Fl i k Nd).
    assert (X : charge g (where_to (everyone R C ps)) i k = charge_after g (everyone R C ps) i k) by (unfold charge, where_to; now rewrite sum_over_map).
    assert (Y : charge g start i k = charge_before g (everyone R C ps) i k).
    { unfold charge. rewrite <- (sum_over_perm _ _ _ L0). unfold where_from. now rewrite sum_over_map. }
    rewrite X, Y, Fl. lra.
Qed.
(** the run gets to its end *)
Theorem C123_runs : forall pss m y j, same_fields g R C s m y -> all_fit R C s j -> Forall gauss_round pss ->
  exists m' j', smb_gauss mu g R C s eps sg pss m j = Ok (m', j').
Proof using HR HC Hs HsL Gr Gz GrL GzL Heps Hsg Cl D1 Pt.
  intros pss. induction pss as [|ps pss IH]; intros m y j SF Fj G; cbn [smb_gauss]; [eauto|].
  inversion G as [|? ? G1 G2]; subst. destruct (round_current ps j Fj G1) as (j1 & J & Ej & SJ & _). rewrite Ej. cbn [bind].
  destruct (C65_step mu g R C s HR HC Hs HsL Gr Gz ltac:(lia) ltac:(lia) eps sg Eps Sg Heps Hsg j1 J m y SF SJ) as (m1 & y1 & Em & _ & S1).
  rewrite Em. cbn [bind]. apply (IH m1 y1); auto. apply SJ.
Qed.
End C123.

(** a charge that goes from one domain to the next in fields at rest *)
Lemma passing_legs : legs_of geo48 passing = [(3/2, 4, 5/4, 15/4, 1%Z, 3%Z); (7/4, 17/4, 3/2, 4, 1%Z, 4%Z)]%R.
Proof.
  unfold legs_of, old_r, old_z. cbn [m_r m_ro m_z m_zo m_cr m_cz m_q passing g_dr g_dz geo48]. cells4.
  unfold legs. cbn [g_dr g_dz geo48].
  change (Z.abs (1 - 1) + Z.abs (4 - 3) =? 0) with false. change (Z.abs (1 - 1) + Z.abs (4 - 3) =? 1) with true.
  change (negb (1 =? 1) && (4 =? 3)) with false. change ((1 =? 1) && negb (4 =? 3)) with true. change (4 - 1) with 3. cbv iota zeta. rlts.
  replace (5 / 4 + (7 / 4 - 5 / 4) / (17 / 4 - 15 / 4) * (4 * 1 - 15 / 4))%R with (3 / 2)%R by lra.
  replace (4 * 1)%R with 4%R by lra. reflexivity.
Qed.
Definition flat (v : R) : grid3 R := uniform3 4 8 v.
Example C123_ex : gauss_round geo48 1 2 4 (at_dom (0, 1) [passing]) /\
  linked_doms 1 2 [(1, 5/4, 15/4)%R] [at_dom (0, 1) [passing]] /\ arrived_doms 1 2 [(1, 5/4, 15/4)%R] [at_dom (0, 1) [passing]] = [(1, 7/4, 17/4)%R] /\
  closed geo48 /\ inner2 1 2 4 (fun _ => sz 4 1) (uniform 4 8 1) /\ inner2 1 2 4 (fun _ => sz 4 0) (uniform 4 8 0) /\
  same_fields geo48 1 2 4 (fun _ => mkYee (sz3 4 0) (sz3 4 0) (sz3 4 0)) (mkYee (flat 0) (flat 0) (flat 0)) /\
  all_fit 1 2 4 (fun _ => sz3 4 0) /\ node geo48 1 4 /\ vacuum geo48 (uniform 4 8 1) (uniform 4 8 0) 1 1 4 /\
  exists m' j', smb_gauss 1 geo48 1 2 4 (fun _ => sz 4 1) (fun _ => sz 4 0) [at_dom (0, 1) [passing]]
    (fun _ => mkYee (sz3 4 0) (sz3 4 0) (sz3 4 0)) (fun _ => sz3 4 0) = Ok (m', j') /\ glued_flux geo48 4 (fun p => y_e (m' p)) 1 3 <> 0%R.
Proof.
  assert (M := mnzl_small).
  assert (S : sizes geo48) by (unfold sizes, geo48; cbn; lra).
  assert (G : gauss_round geo48 1 2 4 (at_dom (0, 1) [passing])).
  { split; [apply C122_vb_ex|]. split; [|now left]. change (everyone 1 2 (at_dom (0, 1) [passing])) with [passing]. constructor; [|constructor].
    assert (B : bound geo48 passing) by (unfold bound; cbn [m_r m_ro m_cr m_cz m_z passing g_dr g_dz geo48]; cells4; repeat split; lra).
    split; [split; [exact B|cbn; lia]|]. left. split.
    { unfold step_at_most_one, old_r, old_z; cbn [m_ro m_zo m_cr m_cz passing g_dr g_dz geo48]; cells4; lia. }
    split; [unfold oblique; cbn [m_r m_ro m_z m_zo passing]; split; eapply Rle_trans; try exact M; absolve|].
    assert (E : m_cr passing = old_r geo48 passing) by (unfold old_r; cbn [m_cr m_ro passing g_dr geo48]; cells4; reflexivity).
    split; [lia|]. split; [lia|].
    rewrite passing_legs. repeat apply Forall_cons; try apply Forall_nil; cbn [leg_long]; right; split; eapply Rle_trans; try exact M; absolve. }
  assert (Li : linked_doms 1 2 [(1, 5/4, 15/4)%R] [at_dom (0, 1) [passing]]) by (split; [apply Permutation_refl|exact I]).
  assert (Ar : arrived_doms 1 2 [(1, 5/4, 15/4)%R] [at_dom (0, 1) [passing]] = [(1, 7/4, 17/4)%R]) by reflexivity.
  assert (Cl : closed geo48) by (unfold closed, geo48; cbn; repeat split; lia || lra).
  assert (I1 : inner2 1 2 4 (fun _ => sz 4 1) (uniform 4 8 1)) by (split; [apply mk_grid_fits; lia|]; intros; split; [apply sz_fits; lia|reflexivity]).
  assert (I2 : inner2 1 2 4 (fun _ => sz 4 0) (uniform 4 8 0)) by (split; [apply mk_grid_fits; lia|]; intros; split; [apply sz_fits; lia|reflexivity]).
  assert (F4 : all_fit 1 2 4 (fun _ => sz3 4 0)) by (intros i j _ _ []; apply sz_fits; lia).
  assert (F8 : fits3 4 8 (flat 0)) by (apply mk_grid3_fits; lia).
  assert (A : agrees 1 2 4 (fun _ => sz3 4 0) (flat 0)) by (intros i j [] x y _ _ _; reflexivity).
  assert (SF : same_fields geo48 1 2 4 (fun _ => mkYee (sz3 4 0) (sz3 4 0) (sz3 4 0)) (mkYee (flat 0) (flat 0) (flat 0))).
  { exact (conj (conj F8 (conj F8 F8)) (conj F4 (conj F4 (conj F4 (conj A (conj A A)))))). }
  assert (Nd : forall k, 1 <= k < 7 -> node geo48 1 k) by (intros k Hk; unfold node; cbn; lia).
  assert (V : forall k, vacuum geo48 (uniform 4 8 1) (uniform 4 8 0) 1 1 k) by (intros k a b _ _ _; split; reflexivity).
  split; [exact G|]. split; [exact Li|]. split; [exact Ar|]. split; [exact Cl|]. split; [exact I1|]. split; [exact I2|]. split; [exact SF|]. split; [exact F4|].
  split; [apply Nd; lia|]. split; [apply V|].
  destruct (C123_runs 1 geo48 1 2 4 ltac:(lia) ltac:(lia) ltac:(lia) ltac:(lia) eq_refl eq_refl ltac:(cbn; lia) ltac:(cbn; lia) _ _ _ _ I1 I2 Cl eq_refl ltac:(cbn; lra)
    [at_dom (0, 1) [passing]] _ _ _ SF F4 ltac:(constructor; [exact G|constructor])) as (m' & j' & E). exists m', j'. split; [exact E|].
  assert (T := C123_gauss_partial 1 geo48 1 2 4 ltac:(lia) ltac:(lia) ltac:(lia) ltac:(lia) eq_refl eq_refl ltac:(cbn; lia) ltac:(cbn; lia) _ _ _ _ I1 I2 Cl eq_refl ltac:(cbn; lra)
    1 [at_dom (0, 1) [passing]] [(1, 5/4, 15/4)%R] _ _ _ m' j' ltac:(intros; change (lv (uniform 4 8 1) i k) with 1%R; change (lv (uniform 4 8 0) i k) with 0%R; lra)
    SF F4 Li ltac:(constructor; [exact G|constructor]) E 1 3 (Nd 3 ltac:(lia)) ltac:(discriminate) (V 3)).
  rewrite Ar in T. unfold charge in T. cbn [sum_over] in T.
  rewrite (share_r_in geo48 ltac:(cbn; lra) 1 1 (7/4)), (share_r_in geo48 ltac:(cbn; lra) 1 1 (5/4)) in T by (cbn; lra).
  rewrite (share_z_in geo48 ltac:(cbn; lra) 4 3 (17/4)), (share_z_in geo48 ltac:(cbn; lra) 3 3 (15/4)) in T by (cbn; lra).
  assert (Z0 : glued_flux geo48 4 (fun p => y_e (mkYee (sz3 4 0) (sz3 4 0) (sz3 4 0))) 1 3 = 0%R).
  { unfold glued_flux. change (1 =? 0) with false. cbv iota. unfold glued. cbn [y_e getc c_r c_z sz3]. unfold lv, sz, new_grid. cbn. lra. }
  cbv beta in T. rewrite Z0 in T. intros Z. rewrite Z in T. revert T. bools. cbn [geo48 g_dr g_dz]. lra.
Qed.

Print Assumptions C123_gauss_partial.
Print Assumptions C123_runs.
