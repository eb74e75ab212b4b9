(** Theorem about the field solver on several domains: property C65. *)
From Coq Require Import ZifyBool Reals Lra Permutation.
From Verif Require Import Base GridModel GridProofs CollectorModel OverlayModel OverlayConc OverlaySum OverlayPass ThmOverlay YeeModel YeeProofs ThmYee YeeSmb.
Open Scope Z_scope.

(** where a border lies, in local and in global coordinates *)
Lemma first_cell i s x (w : bool) : 0 <= i -> 1 <= s -> 0 <= x ->
  (((if (i =? 0) && w then 1 else 0) <=? x) = ((if w then 1 else 0) <=? i * s + x)) /\ (((i =? 0) && w && (x =? 0)) = (w && (i * s + x =? 0))).
Proof. intros Hi Hs Hx. assert (B : i = 0 \/ s <= i * s) by nia. destruct w; destruct (i =? 0) eqn:I; cbn [andb]; split; lia. Qed.
Lemma last_cell i s x n (w : bool) : 0 <= i < n -> 1 <= s -> 0 <= x < s ->
  (x <? (if (i =? n - 1) && w then s - 1 else s)) = (i * s + x <? (if w then n * s - 1 else n * s)) /\ ((i =? n - 1) && w && (x =? s - 1)) = (w && (i * s + x =? n * s - 1)).
Proof.
  intros Hi Hs Hx. destruct (Z.eq_dec i (n - 1)) as [E|E].
  - assert (B : n * s = i * s + s) by nia. rewrite B. replace (i =? n - 1) with true by lia. clear B E. set (u := i * s). clearbody u. destruct w; cbn [andb]; split; lia.
  - assert (B : i * s + s <= n * s - s) by nia. replace (i =? n - 1) with false by lia. cbn [andb]. set (u := i * s) in *. set (v := n * s) in *. clearbody u v. destruct w; split; lia.
Qed.

Section C65.
Variable mu : R.
Variable g : geo.
Variables R C s : Z.
Hypothesis HR : 1 <= R.
Hypothesis HC : 1 <= C.
Hypothesis Hs : 4 <= s.
Hypothesis HsL : s + 4 < 2 ^ 32.
Hypothesis Gr : g_nr g = R * s.
Hypothesis Gz : g_nz g = C * s.
Hypothesis GrL : g_nr g < 2 ^ 32.
Hypothesis GzL : g_nz g < 2 ^ 32.
Variables eps sg : doms (grid Rdefinitions.R).
Variables Eps Sg : grid Rdefinitions.R.
(** the dielectric constant and the conductivity of the domains are those of the whole area *)
Definition inner2 (a : doms (grid Rdefinitions.R)) (A : grid Rdefinitions.R) : Prop :=
  fits2 (R * s) (C * s) A /\ forall i j, 0 <= i < R -> 0 <= j < C -> fits2 s s (a (i, j)) /\
  forall x y, 0 <= x < s -> 0 <= y < s -> lv (a (i, j)) x y = lv A (i * s + x) (j * s + y).
Hypothesis Heps : inner2 eps Eps.
Hypothesis Hsg : inner2 sg Sg.

(** the fields of the domains are those of the whole area, ghost cells included *)
Definition same_fields (m : doms yee) (y : yee) : Prop :=
  yee_fits g y /\ all_fit R C s (fun p => y_e (m p)) /\ all_fit R C s (fun p => y_h (m p)) /\ all_fit R C s (fun p => y_t (m p)) /\
  agrees R C s (fun p => y_e (m p)) (y_e y) /\ agrees R C s (fun p => y_h (m p)) (y_h y) /\ agrees R C s (fun p => y_t (m p)) (y_t y).
Definition same_current (j : doms (grid3 Rdefinitions.R)) (J : grid3 Rdefinitions.R) : Prop :=
  fits3 (R * s) (C * s) J /\ all_fit R C s j /\ inner_agrees R C s j J.

Lemma geo_glob : geo_ok g.
Proof using HR HC Hs Gr Gz GrL GzL. split; nia. Qed.

Lemma cell_e i j x y t T jj J e E c : 0 <= i < R -> 0 <= j < C -> 0 <= x < s -> 0 <= y < s ->
  agrees R C s t T -> inner_agrees R C s jj J ->
  (forall c, lv (getc c (e (i, j))) x y = lv (getc c E) (i * s + x) (j * s + y)) ->
  e_cell (dom_geo g R C s (i, j)) (t (i, j)) (jj (i, j)) (eps (i, j)) (sg (i, j)) x y (fun z => lv (getc z (e (i, j))) x y) c =
  e_cell g T J Eps Sg (i * s + x) (j * s + y) (fun z => lv (getc z E) (i * s + x) (j * s + y)) c.
Proof using Gr Gz GrL GzL HC HR Hs HsL Heps Hsg.
  intros Hi Hj Hx Hy At Aj Ae.
  assert (Ar := At i j Cr). assert (Ap := At i j Cphi). assert (Az := At i j Cz). cbn [getc] in Ar, Ap, Az.
  assert (Jr := Aj i j Cr x y Hi Hj Hx Hy). assert (Jp := Aj i j Cphi x y Hi Hj Hx Hy). assert (Jz := Aj i j Cz x y Hi Hj Hx Hy). cbn [getc] in Jr, Jp, Jz.
  assert (Er := Ae Cr). assert (Ep := Ae Cphi). assert (Ez := Ae Cz). cbn [getc] in Er, Ep, Ez.
  destruct Heps as (_ & Q). destruct (Q i j Hi Hj) as (_ & Qe). clear Q.
  destruct Hsg as (_ & Q). destruct (Q i j Hi Hj) as (_ & Qs). clear Q.
  assert (Xk : i * s + x - 1 = i * s + (x - 1)) by lia. assert (Yk : j * s + y - 1 = j * s + (y - 1)) by lia.
  assert (Ke : ke (dom_geo g R C s (i, j)) (eps (i, j)) (sg (i, j)) x y = ke g Eps Sg (i * s + x) (j * s + y)).
  { unfold ke. rewrite Qe, Qs by lia. reflexivity. }
  assert (Kh : kh (dom_geo g R C s (i, j)) (eps (i, j)) (sg (i, j)) x y = kh g Eps Sg (i * s + x) (j * s + y)).
  { unfold kh. rewrite Qe, Qs by lia. reflexivity. }
  assert (Rr : rot_r (dom_geo g R C s (i, j)) (t (i, j)) x y = rot_r g T (i * s + x) (j * s + y)).
  { unfold rot_r. rewrite Yk, !Ap by lia. reflexivity. }
  assert (Rp : rot_phi (dom_geo g R C s (i, j)) (t (i, j)) x y = rot_phi g T (i * s + x) (j * s + y)).
  { unfold rot_phi. rewrite Xk, Yk, !Ar, !Az by lia. reflexivity. }
  assert (Rz : rot_z (dom_geo g R C s (i, j)) (t (i, j)) x y = rot_z g T (i * s + x) (j * s + y)).
  { unfold rot_z. rewrite Xk, !Ap by lia. cbn [dom_geo g_d0 g_dr fst snd]. now replace (x + (i * s + g_d0 g)) with (i * s + x + g_d0 g) by lia. }
  assert (Rx : rot_z_axis (dom_geo g R C s (i, j)) (t (i, j)) x y = rot_z_axis g T (i * s + x) (j * s + y)).
  { unfold rot_z_axis. rewrite !Ap by lia. reflexivity. }
  unfold e_cell.
  assert (Lr : (lo_r (dom_geo g R C s (i, j)) <=? x) = (lo_r g <=? i * s + x)).
  { unfold lo_r. cbn [dom_geo g_w0 fst snd]. apply first_cell; lia. }
  assert (Hr : (x <? hi_r (dom_geo g R C s (i, j))) = (i * s + x <? hi_r g)).
  { unfold hi_r. cbn [dom_geo g_w2 g_nr fst snd]. rewrite Gr. apply last_cell; lia. }
  assert (Lz : (lo_z (dom_geo g R C s (i, j)) <=? y) = (lo_z g <=? j * s + y)).
  { unfold lo_z. cbn [dom_geo g_w1 fst snd]. apply first_cell; lia. }
  assert (Hz : (y <? hi_z (dom_geo g R C s (i, j))) = (j * s + y <? hi_z g)).
  { unfold hi_z. cbn [dom_geo g_w3 g_nz fst snd]. rewrite Gz. apply last_cell; lia. }
  assert (W0 : g_w0 (dom_geo g R C s (i, j)) && (x =? 0) = g_w0 g && (i * s + x =? 0)).
  { cbn [dom_geo g_w0 fst snd]. apply first_cell; lia. }
  assert (W1 : g_w1 (dom_geo g R C s (i, j)) && (y =? 0) = g_w1 g && (j * s + y =? 0)).
  { cbn [dom_geo g_w1 fst snd]. apply first_cell; lia. }
  rewrite Lr, Hr, Lz, Hz, W0, W1.
  destruct (_ && _ && _ && _); [|destruct (_ && _ && _ && _); [|destruct (_ && _ && _ && _)]]; destruct c; cbn [new_reg new_left new_axis getc];
    unfold e_upd; rewrite ?Ke, ?Kh, ?Rr, ?Rp, ?Rz, ?Rx, ?Jr, ?Jp, ?Jz, ?Er, ?Ep, ?Ez; reflexivity.
Qed.

Theorem C65_step : forall j J m y, same_fields m y -> same_current j J ->
  exists m' y', smb_step mu g R C s eps sg j m = Ok m' /\ yee_step mu g Eps Sg J y = Ok y' /\ same_fields m' y'.
Proof using Gr Gz GrL GzL HC HR Hs HsL Heps Hsg.
  intros j J m y ((Fe & Fh & Ft) & Le & Lh & Lt & Ae & Ah & At) (FJ & Lj & AJ).
  destruct geo_glob as (G1 & G2).
  destruct Heps as (FE & QE). destruct Hsg as (FS & QS).
  destruct (calc_field_e_spec g (y_t y) J Eps Sg) with (e := y_e y) as (E' & EE & FE' & VE & OE); auto; try (rewrite Gr, Gz; assumption).
  unfold smb_step, yee_step. rewrite EE. cbn [bind].
  destruct (each_dom_spec R C (fun p z =>
     do e <- calc_field_e (dom_geo g R C s p) (y_t z) (j p) (eps p) (sg p) (y_e z); Ok (mkYee e (y_h z) (y_t z))) m
     (fun p z => y_h z = y_h (m p) /\ y_t z = y_t (m p) /\ fits3 s s (y_e z) /\ ghost0 s s (y_e z) /\
        forall c a b, 0 <= a < s -> 0 <= b < s -> lv (getc c (y_e z)) a b = lv (getc c E') (fst p * s + a) (snd p * s + b)))
     as (m1 & Em1 & P1); [lia|lia| |].
  { intros i k Hi Hk.
    destruct (calc_field_e_spec (dom_geo g R C s (i, k)) (y_t (m (i, k))) (j (i, k)) (eps (i, k)) (sg (i, k))
                (Lt i k Hi Hk) (Lj i k Hi Hk) (proj1 (QE i k Hi Hk)) (proj1 (QS i k Hi Hk)) (y_e (m (i, k))) (Le i k Hi Hk)) as (e' & Ee & Fe' & Ve & Oe);
      [cbn [dom_geo g_nr]; lia|cbn [dom_geo g_nz]; lia|].
    rewrite Ee. cbn [bind]. eexists. split; [reflexivity|]. cbn [y_e y_h y_t]. cbn [dom_geo g_nr g_nz] in Fe', Ve, Oe.
    refine (conj eq_refl (conj eq_refl (conj Fe' (conj Oe _)))).
    intros c a b Ha Hb. cbn [fst snd]. rewrite Ve by lia.
    rewrite VE by nia. change (y_t (m (i, k))) with ((fun p => y_t (m p)) (i, k)).
    apply (cell_e i k a b (fun p => y_t (m p)) (y_t y) j J (fun p => y_e (m p)) (y_e y) c); auto.
    intros c'. apply Ae; auto. lia. }
  rewrite Em1. cbn [bind].
  destruct (stitch R C s HR HC Hs HsL (fun p => y_e (m1 p)) E') as (e2 & Ee2 & Le2 & Ae2).
  { intros i k Hi Hk. now apply P1. }
  { rewrite <- Gr, <- Gz. exact FE'. }
  { intros i k c a b Hi Hk Ha Hb. cbn beta. destruct (P1 i k Hi Hk) as (_ & _ & _ & _ & V). now rewrite V. }
  { intros i k Hi Hk. now apply P1. }
  { rewrite <- Gr, <- Gz. exact OE. }
  rewrite Ee2. cbn [bind].
  destruct (calc_field_h_spec mu g E' FE' (y_h y) (y_t y) Fh Ft G1) as (H' & T' & EH & FH' & FT' & VH & OH). rewrite EH. cbn [bind].
  destruct (each_dom_spec R C (fun p z =>
     do (h, t) <- calc_field_h mu (dom_geo g R C s p) (y_e z) (y_h z) (y_t z); Ok (mkYee (y_e z) h t)) (fun p => mkYee (e2 p) (y_h (m1 p)) (y_t (m1 p)))
     (fun p z => y_e z = e2 p /\ fits3 s s (y_h z) /\ fits3 s s (y_t z) /\ ghost0 s s (y_h z) /\ ghost0 s s (y_t z) /\
        forall c a b, 0 <= a < s -> 0 <= b < s -> lv (getc c (y_h z)) a b = lv (getc c H') (fst p * s + a) (snd p * s + b) /\
           lv (getc c (y_t z)) a b = lv (getc c T') (fst p * s + a) (snd p * s + b)))
     as (m3 & Em3 & P3); [lia|lia| |].
  { intros i k Hi Hk. cbn [y_e y_h y_t]. destruct (P1 i k Hi Hk) as (P1h & P1t & _).
    destruct (calc_field_h_spec mu (dom_geo g R C s (i, k)) (e2 (i, k)) (Le2 i k Hi Hk) (y_h (m1 (i, k))) (y_t (m1 (i, k)))) as (h' & t' & Eh & Fh' & Ft' & Vh & Oh).
    { rewrite P1h. exact (Lh i k Hi Hk). } { rewrite P1t. exact (Lt i k Hi Hk). } { cbn [dom_geo g_nr]; lia. }
    rewrite Eh. cbn [bind]. eexists. split; [reflexivity|]. cbn [y_e y_h y_t]. cbn [dom_geo g_nr g_nz] in Fh', Ft', Oh, Vh.
    refine (conj eq_refl (conj Fh' (conj Ft' (conj (fun c a b I N => proj1 (Oh c a b I N)) (conj (fun c a b I N => proj2 (Oh c a b I N)) _))))).
    intros c a b Ha Hb. cbn [fst snd].
    specialize (Vh a b Ha Hb). specialize (VH (i * s + a) (k * s + b) ltac:(nia) ltac:(nia)).
    rewrite P1t in Vh.
    assert (Tr := At i k Cr a b Hi Hk ltac:(lia)). assert (Tp := At i k Cphi a b Hi Hk ltac:(lia)). assert (Tz := At i k Cz a b Hi Hk ltac:(lia)).
    cbn [getc] in Tr, Tp, Tz.
    assert (Ar := fun x y => Ae2 i k Cr x y Hi Hk). assert (Ap := fun x y => Ae2 i k Cphi x y Hi Hk). assert (Az := fun x y => Ae2 i k Cz x y Hi Hk).
    cbn [getc] in Ar, Ap, Az.
    assert (Xk : i * s + a + 1 = i * s + (a + 1)) by lia. assert (Yk : k * s + b + 1 = k * s + (b + 1)) by lia.
    assert (Kr : alpha_r mu (dom_geo g R C s (i, k)) (e2 (i, k)) a b = alpha_r mu g E' (i * s + a) (k * s + b)).
    { unfold alpha_r. rewrite Yk, !Ap by lia. reflexivity. }
    assert (Kp : alpha_phi mu (dom_geo g R C s (i, k)) (e2 (i, k)) a b = alpha_phi mu g E' (i * s + a) (k * s + b)).
    { unfold alpha_phi. rewrite Xk, Yk, !Ar, !Az by lia. reflexivity. }
    assert (Kz : alpha_z mu (dom_geo g R C s (i, k)) (e2 (i, k)) a b = alpha_z mu g E' (i * s + a) (k * s + b)).
    { unfold alpha_z. rewrite Xk, !Ap by lia. cbn [dom_geo g_d0 g_dr g_dt fst snd].
      replace (IZR a + / 2 + IZR (i * s + g_d0 g))%R with (IZR (i * s + a) + / 2 + IZR (g_d0 g))%R by (rewrite !plus_IZR; ring). reflexivity. }
    assert (Kw : wall_times (dom_geo g R C s (i, k)) a = wall_times g (i * s + a)).
    { unfold wall_times. cbn [dom_geo g_w2 g_nr fst snd]. rewrite Gr.
      destruct (last_cell i s a R (g_w2 g) Hi ltac:(lia) Ha) as [_ ->]. reflexivity. }
    rewrite Kr, Kp, Kz, Kw, Tr, Tp, Tz in Vh.
    destruct Vh as (V1 & V2 & V3 & V4 & V5 & V6). destruct VH as (U1 & U2 & U3 & U4 & U5 & U6).
    destruct c; cbn [getc]; split; congruence. }
  rewrite Em3. cbn [bind].
  destruct (stitch R C s HR HC Hs HsL (fun p => y_h (m3 p)) H') as (h4 & Eh4 & Lh4 & Ah4).
  { intros i k Hi Hk. now apply P3. }
  { rewrite <- Gr, <- Gz. exact FH'. }
  { intros i k c a b Hi Hk Ha Hb. cbn beta. destruct (P3 i k Hi Hk) as (_ & _ & _ & _ & _ & V). now destruct (V c a b Ha Hb) as [-> _]. }
  { intros i k Hi Hk. now apply P3. }
  { rewrite <- Gr, <- Gz. intros c a b I N. now apply OH. }
  destruct (stitch R C s HR HC Hs HsL (fun p => y_t (m3 p)) T') as (t4 & Et4 & Lt4 & At4).
  { intros i k Hi Hk. now apply P3. }
  { rewrite <- Gr, <- Gz. exact FT'. }
  { intros i k c a b Hi Hk Ha Hb. cbn beta. destruct (P3 i k Hi Hk) as (_ & _ & _ & _ & _ & V). now destruct (V c a b Ha Hb) as [_ ->]. }
  { intros i k Hi Hk. now apply P3. }
  { rewrite <- Gr, <- Gz. intros c a b I N. now apply OH. }
  rewrite Eh4. cbn [bind]. rewrite Et4. cbn [bind].
  eexists. eexists. split; [reflexivity|]. split; [reflexivity|].
  unfold same_fields. cbn [y_e y_h y_t].
  refine (conj (conj FE' (conj FH' FT')) (conj _ (conj Lh4 (conj Lt4 (conj _ (conj Ah4 At4)))))).
  - intros i k Hi Hk. cbn beta. destruct (P3 i k Hi Hk) as (-> & _). now apply Le2.
  - intros i k c a b Hi Hk. cbn beta. destruct (P3 i k Hi Hk) as (-> & _). now apply Ae2.
Qed.

(** any number of steps *)
Theorem C65_for_ever : forall js Js m y, same_fields m y -> Forall2 same_current js Js ->
  exists m' y', smb_run mu g R C s eps sg js m = Ok m' /\ yee_run mu g Eps Sg Js y = Ok y' /\ same_fields m' y'.
Proof using Gr Gz GrL GzL HC HR Hs HsL Heps Hsg.
  intros js Js m y S F. revert m y S. induction F as [|j J js Js HJ F IH]; intros m y S; cbn [smb_run yee_run].
  - exists m, y. auto.
  - destruct (C65_step j J m y S HJ) as (m1 & y1 & E1 & E2 & S1). rewrite E1, E2. cbn [bind]. apply IH, S1.
Qed.
End C65.

(** specification: the value at cell (X, Y) of the whole area, read from the domain that owns the cell *)
Definition glued (s : Z) (m : doms (grid3 R)) (c : comp) (X Y : Z) : R :=
  lv (getc c (m (X / s, Y / s))) (X mod s) (Y mod s).
Lemma glued_agrees R C s m G c X Y : 1 <= s -> agrees R C s m G -> 0 <= X < R * s -> 0 <= Y < C * s ->
  glued s m c X Y = lv (getc c G) X Y.
Proof.
  intros Hs A HX HY. unfold glued.
  pose proof (Z.mod_pos_bound X s ltac:(lia)). pose proof (Z.mod_pos_bound Y s ltac:(lia)).
  pose proof (Z.div_mod X s ltac:(lia)) as DX. pose proof (Z.div_mod Y s ltac:(lia)) as DY.
  assert (0 <= X / s < R) by (split; [apply Z.div_pos; lia|apply Z.div_lt_upper_bound; lia]).
  assert (0 <= Y / s < C) by (split; [apply Z.div_pos; lia|apply Z.div_lt_upper_bound; lia]).
  rewrite A by lia. f_equal; lia.
Qed.
(** divergence of the magnetic field of the whole area; the ring (X, Y) may have its faces in different domains *)
Definition glued_divergence (g : geo) (s : Z) (m : doms (grid3 R)) (X Y : Z) : R :=
  let I := IZR (X + g_d0 g) in
  (((I + 1) * glued s m Cr (X + 1) Y - I * glued s m Cr X Y) / ((I + /2) * g_dr g)
   + (glued s m Cz X (Y + 1) - glued s m Cz X Y) / g_dz g)%R.

(** C36 and C37 for the divided area *)
Theorem C65_divergence : forall mu g R C s eps sg Eps Sg js Js m y m' X Y, 1 <= R -> 1 <= C -> 4 <= s -> s + 4 < 2 ^ 32 ->
  g_nr g = R * s -> g_nz g = C * s -> g_nr g < 2 ^ 32 -> g_nz g < 2 ^ 32 -> (0 < mu)%R -> (0 < g_dr g)%R -> (0 < g_dz g)%R -> 0 <= g_d0 g ->
  inner2 R C s eps Eps -> inner2 R C s sg Sg -> same_fields g R C s m y -> Forall2 (same_current R C s) js Js ->
  conducting g (y_e y) -> smb_run mu g R C s eps sg js m = Ok m' ->
  0 <= X -> X + 1 < R * s -> 0 <= Y -> Y + 1 < C * s ->
  glued_divergence g s (fun p => y_t (m' p)) X Y = glued_divergence g s (fun p => y_t (m p)) X Y.
Proof.
  intros mu g R C s eps sg Eps Sg js Js m y m' X Y HR HC Hs HsL Gr Gz GrL GzL Hmu Hdr Hdz Hd0 He Hsg S F Cd E HX HX1 HY HY1.
  destruct (C65_for_ever mu g R C s HR HC Hs HsL Gr Gz GrL GzL eps sg Eps Sg He Hsg js Js m y S F) as (m1 & y1 & E1 & E2 & S1).
  rewrite E in E1. injection E1 as <-.
  assert (D : divergence g (y_t y1) X Y = divergence g (y_t y) X Y).
  { eapply (C36_for_ever mu g Eps Sg Js y y1 X Y); eauto; try lia.
    - apply (geo_glob g R C s); auto.
    - rewrite Gr, Gz. apply He.
    - rewrite Gr, Gz. apply Hsg.
    - rewrite Gr, Gz. clear - F. induction F as [|j J js Js HJ F IH]; constructor; [apply HJ|exact IH].
    - apply S. }
  assert (A : forall m y, same_fields g R C s m y -> glued_divergence g s (fun p => y_t (m p)) X Y = divergence g (y_t y) X Y).
  { intros m0 y0 (_ & _ & _ & _ & _ & _ & At). unfold glued_divergence, divergence. cbv zeta.
    rewrite !(glued_agrees R C s _ _ _ _ _ ltac:(lia) At) by lia. reflexivity. }
  rewrite (A m' y1 S1), (A m y S). exact D.
Qed.
Theorem C65_walls : forall mu g R C s eps sg Eps Sg js Js m y m' X Y, 1 <= R -> 1 <= C -> 4 <= s -> s + 4 < 2 ^ 32 ->
  g_nr g = R * s -> g_nz g = C * s -> g_nr g < 2 ^ 32 -> g_nz g < 2 ^ 32 ->
  inner2 R C s eps Eps -> inner2 R C s sg Sg -> same_fields g R C s m y -> Forall2 (same_current R C s) js Js ->
  conducting g (y_e y) -> smb_run mu g R C s eps sg js m = Ok m' -> 0 <= X < R * s -> 0 <= Y < C * s ->
  (g_w1 g = true -> Y = 0 -> glued s (fun p => y_e (m' p)) Cr X Y = 0%R /\ glued s (fun p => y_e (m' p)) Cphi X Y = 0%R) /\
  (g_w2 g = true -> X = R * s - 1 -> glued s (fun p => y_e (m' p)) Cphi X Y = 0%R /\ glued s (fun p => y_e (m' p)) Cz X Y = 0%R) /\
  (g_w3 g = true -> Y = C * s - 1 -> glued s (fun p => y_e (m' p)) Cr X Y = 0%R /\ glued s (fun p => y_e (m' p)) Cphi X Y = 0%R).
Proof.
  intros mu g R C s eps sg Eps Sg js Js m y m' X Y HR HC Hs HsL Gr Gz GrL GzL He Hsg S F Cd E HX HY.
  destruct (C65_for_ever mu g R C s HR HC Hs HsL Gr Gz GrL GzL eps sg Eps Sg He Hsg js Js m y S F) as (m1 & y1 & E1 & E2 & S1).
  rewrite E in E1. injection E1 as <-.
  assert (D : conducting g (y_e y1)).
  { assert (2 <= R * s) by (clear - HR Hs; nia). eapply (C37_for_ever mu g Eps Sg Js y y1); eauto; try lia.
    - apply (geo_glob g R C s); auto.
    - rewrite Gr, Gz. apply He.
    - rewrite Gr, Gz. apply Hsg.
    - rewrite Gr, Gz. clear - F. induction F as [|j J js Js HJ F IH]; constructor; [apply HJ|exact IH].
    - apply S. }
  destruct S1 as (_ & _ & _ & _ & Ae & _). rewrite !(glued_agrees R C s _ _ _ _ _ ltac:(lia) Ae) by lia.
  destruct D as (D1 & D2 & D3). cbn [getc]. rewrite Gr, Gz in *.
  split; [|split]; intros W ->; [apply (D1 W X HX)|apply (D2 W Y HY)|apply (D3 W X HX)].
Qed.

(** four domains of 4 x 4 cells with a current everywhere, from empty space *)
Definition sz (n : Z) (v : R) : grid R := new_grid n n 2 (fun _ _ => v).
Definition sz3 (n : Z) (v : R) : grid3 R := mkGrid3 (sz n v) (sz n v) (sz n v).
Definition geo8 : geo := mkGeo 8 8 0 0 1 1 true true true true 1.
Lemma sz_fits n v : 0 <= n < 1000 -> fits2 n n (sz n v).
Proof. intros Hn. split; [apply new_grid_wf; lia|]. repeat split. Qed.
Lemma lv_sz n v x y : 4 <= n -> -2 <= x < n + 2 -> -2 <= y < n + 2 -> lv (sz n v) x y = v.
Proof. intros. reflexivity. Qed.
Lemma run_one mu g eps sg J y y' : yee_run mu g eps sg [J] y = Ok y' -> calc_field_e g (y_t y) J eps sg (y_e y) = Ok (y_e y').
Proof.
  cbn [yee_run]. unfold yee_step. destruct (calc_field_e _ _ _ _ _ _) as [e| |]; cbn [bind]; try discriminate.
  destruct (calc_field_h _ _ _ _ _) as [[h t]| |]; cbn [bind]; try discriminate. now intros [= <-].
Qed.
Lemma e_value g t j eps sg e e' c i k : fits3 (g_nr g) (g_nz g) t -> fits3 (g_nr g) (g_nz g) j -> fits2 (g_nr g) (g_nz g) eps -> fits2 (g_nr g) (g_nz g) sg ->
  fits3 (g_nr g) (g_nz g) e -> geo_ok g -> calc_field_e g t j eps sg e = Ok e' -> 0 <= i < g_nr g -> 0 <= k < g_nz g ->
  lv (getc c e') i k = e_cell g t j eps sg i k (fun y => lv (getc y e) i k) c.
Proof.
  intros Ft Fj F1 F2 Fe (G1 & G2) E Hi Hk. destruct (calc_field_e_spec g t j eps sg Ft Fj F1 F2 e Fe G1 G2) as (e1 & E1 & _ & V & _).
  rewrite E in E1. injection E1 as <-. now apply V.
Qed.
Example C65_example :
  inner2 2 2 4 (fun _ => sz 4 1) (sz 8 1) /\ inner2 2 2 4 (fun _ => sz 4 0) (sz 8 0) /\
  same_fields geo8 2 2 4 (fun _ => mkYee (sz3 4 0) (sz3 4 0) (sz3 4 0)) (mkYee (sz3 8 0) (sz3 8 0) (sz3 8 0)) /\
  same_current 2 2 4 (fun _ => sz3 4 1) (sz3 8 1) /\ conducting geo8 (sz3 8 0) /\
  exists m', smb_run 1 geo8 2 2 4 (fun _ => sz 4 1) (fun _ => sz 4 0) [fun _ => sz3 4 1] (fun _ => mkYee (sz3 4 0) (sz3 4 0) (sz3 4 0)) = Ok m' /\
    glued 4 (fun p => y_e (m' p)) Cz 4 4 = (-1)%R /\ lv (c_z (y_e (m' (0, 1)))) 4 0 = (-1)%R.
Proof.
  assert (I1 : inner2 2 2 4 (fun _ => sz 4 1) (sz 8 1)) by (split; [apply sz_fits; lia|]; intros; split; [apply sz_fits; lia|reflexivity]).
  assert (I2 : inner2 2 2 4 (fun _ => sz 4 0) (sz 8 0)) by (split; [apply sz_fits; lia|]; intros; split; [apply sz_fits; lia|reflexivity]).
  assert (F4 : forall v, all_fit 2 2 4 (fun _ => sz3 4 v)) by (intros v i j _ _ []; apply sz_fits; lia).
  assert (F8 : forall v, fits3 8 8 (sz3 8 v)) by (intros v []; apply sz_fits; lia).
  assert (A : agrees 2 2 4 (fun _ => sz3 4 0) (sz3 8 0)) by (intros i j [] x y _ _ _; reflexivity).
  assert (S : same_fields geo8 2 2 4 (fun _ => mkYee (sz3 4 0) (sz3 4 0) (sz3 4 0)) (mkYee (sz3 8 0) (sz3 8 0) (sz3 8 0))).
  { exact (conj (conj (F8 0%R) (conj (F8 0%R) (F8 0%R))) (conj (F4 0%R) (conj (F4 0%R) (conj (F4 0%R) (conj A (conj A A)))))). }
  assert (SJ : same_current 2 2 4 (fun _ => sz3 4 1) (sz3 8 1)).
  { refine (conj (F8 1%R) (conj (F4 1%R) _)). intros i j [] x y _ _ _ _; reflexivity. }
  split; [exact I1|]. split; [exact I2|]. split; [exact S|]. split; [exact SJ|].
  split; [repeat split; intros; reflexivity|].
  destruct (C65_for_ever 1 geo8 2 2 4 ltac:(lia) ltac:(lia) ltac:(lia) ltac:(lia) eq_refl eq_refl ltac:(cbn; lia) ltac:(cbn; lia)
     (fun _ => sz 4 1) (fun _ => sz 4 0) (sz 8 1) (sz 8 0) I1 I2 [fun _ => sz3 4 1] [sz3 8 1] _ _ S ltac:(constructor; [exact SJ|constructor])) as (m' & y' & E1 & E2 & S').
  exists m'. split; [exact E1|].
  apply run_one in E2.
  destruct S' as (_ & _ & _ & _ & Ae & _).
  assert (V := e_value geo8 _ _ _ _ _ _ Cz 4 4 (F8 0%R) (F8 1%R) (sz_fits 8 1 ltac:(lia)) (sz_fits 8 0 ltac:(lia)) (F8 0%R) ltac:(split; cbn; lia) E2 ltac:(cbn; lia) ltac:(cbn; lia)).
  assert (V' : lv (getc Cz (y_e y')) 4 4 = (-1)%R).
  { rewrite V. unfold e_cell, lo_r, lo_z, hi_r, hi_z, geo8. cbn [g_w0 g_w1 g_w2 g_w3 g_nr g_nz].
    change ((1 <=? 4) && (4 <? 8 - 1) && (1 <=? 4) && (4 <? 8 - 1)) with true. cbn [new_reg].
    unfold e_upd, ke, kh, rot_z. cbn [y_t y_e getc c_r c_phi c_z sz3 g_dt g_dr g_d0]. rewrite !lv_sz by lia. change (4 + 0) with 4. lra. }
  split.
  - rewrite (glued_agrees 2 2 4 _ _ _ _ _ ltac:(lia) Ae) by lia. exact V'.
  - change (c_z (y_e (m' (0, 1)))) with (getc Cz ((fun p => y_e (m' p)) (0, 1))). rewrite Ae by lia. exact V'.
Qed.

Print Assumptions C65_step.
Print Assumptions C65_for_ever.
Print Assumptions C65_divergence.
Print Assumptions C65_walls.
