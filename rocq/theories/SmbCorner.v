(** The corner blocks of the ghost cells after the exchange between domains (src/SMB.cpp:569-603, see OverlayModel.v): those of the main diagonal are refreshed, those of the other diagonal are not touched. *)
From Coq Require Import ZifyBool Reals Lra Permutation.
From Verif Require Import Base GridModel GridProofs CollectorModel OverlayModel OverlayConc OverlaySum OverlayPass ThmOverlay YeeModel YeeProofs ThmYee YeeSmb ThmYeeSmb.
Open Scope Z_scope.

(** ** one component *)
Section HaloCorners.
Context {T : Type}.
Variable add : T -> T -> T.
Variable zero : T.
Hypothesis add_comm : forall x y, add x y = add y x.
Hypothesis add_assoc : forall x y z, add x (add y z) = add (add x y) z.
Hypothesis add_zero : forall x, add x zero = x.
Variables R C n o : Z.
Hypothesis HR : 0 <= R.
Hypothesis HC : 0 <= C.
Hypothesis Hn4 : 4 * o <= n.

Theorem halo_corners m l : uniform R C n o m -> ghosts_zero zero R C n o m -> Permutation l (pass_ops R C) ->
  exists m', run1 add l m = Ok m' /\
    forall i j a b, 0 <= i < R - 1 -> 0 <= j < C - 1 -> 0 <= a < o -> 0 <= b < o ->
       cell (m' (i, j)) (n - o + a) (n - o + b) = cell (m (i + 1, j + 1)) (o + a) (o + b) /\
       cell (m' (i + 1, j + 1)) a b = cell (m (i, j)) (n - 2 * o + a) (n - 2 * o + b).
Proof.
  intros U G Pl.
  assert (Nd : NoDup l) by (eapply Permutation_NoDup; [symmetry; exact Pl|now apply NoDup_pass_ops]).
  assert (Inl : forall q, In q l <-> valid R C q).
  { intros q. rewrite <- In_pass_ops by lia. split; apply Permutation_in; [exact Pl|now symmetry]. }
  assert (Va : Forall (valid R C) l) by (apply Forall_forall; intros q; apply Inl).
  destruct (halo_interior add zero add_comm add_assoc add_zero R C n o Hn4 m l U G Nd Va) as (m' & E & S & I). exists m'. split; [exact E|].
  assert (Sizes : forall q, valid R C q -> os (m (src q)) = o /\ xr (m (src q)) = n /\ yr (m (src q)) = n).
  { intros q V. now apply (valid_fits R C n o m) in V. }
  intros i j a b Hi Hj Ha Hb. set (q := mkOp KXY i j).
  assert (Vq : valid R C q) by (unfold valid, q; cbn [okind orow ocol]; lia). split.
  - destruct (halo_ghost add zero add_comm add_assoc add_zero R C n o Hn4 m l q (o + a) (o + b) U G Nd Va) as (m2 & E2 & _ & H); [now apply Inl|unfold q, strip, diag_block; cbn [okind]; lia|].
    rewrite E in E2. injection E2 as <-. unfold q, src, dst in H; cbn [okind orow ocol shr shc] in H.
    replace (n - o + a) with (o + a + (n - 2 * o)) by lia. replace (n - o + b) with (o + b + (n - 2 * o)) by lia. apply H.
    + unfold interior; lia.
    + unfold interior; lia.
    + intros q' V' Hne Ht. unfold touches in Ht. destruct (Sizes q' V') as (Z1 & Z2 & Z3). rewrite Z1, Z2, Z3 in Ht.
      destruct q' as [kd i' j']. unfold src, dst in Ht; cbn [okind orow ocol] in Ht.
      destruct Ht as [[Ep Ht]|[Ep Ht]]; destruct kd; unfold strip, diag_block in Ht; cbn [shr shc] in Ht; try lia.
      injection Ep as -> ->. now apply Hne.
  - destruct (halo_ghost add zero add_comm add_assoc add_zero R C n o Hn4 m l q a b U G Nd Va) as (m2 & E2 & H & _); [now apply Inl|unfold q, strip, diag_block; cbn [okind]; lia|].
    rewrite E in E2. injection E2 as <-. unfold q, src, dst in H; cbn [okind orow ocol shr shc] in H.
    replace (n - 2 * o + a) with (a + (n - 2 * o)) by lia. replace (n - 2 * o + b) with (b + (n - 2 * o)) by lia. apply H.
    + unfold interior; lia.
    + unfold interior; lia.
    + intros q' V' Hne Ht. unfold touches in Ht. destruct (Sizes q' V') as (Z1 & Z2 & Z3). rewrite Z1, Z2, Z3 in Ht.
      destruct q' as [kd i' j']. unfold src, dst in Ht; cbn [okind orow ocol] in Ht.
      destruct Ht as [[Ep Ht]|[Ep Ht]]; destruct kd; unfold strip, diag_block in Ht; cbn [shr shc] in Ht; try lia.
      injection Ep as ? ?. apply Hne. unfold q. f_equal; lia.
Qed.
End HaloCorners.

(** ** specification *)
(** local cell (x, y) of domain (i, j) stands for a cell of the lower right or of the upper left neighbour *)
Definition skew (R C s i j x y : Z) : Prop := (x < 0 /\ 0 < i /\ s <= y /\ j < C - 1) \/ (s <= x /\ i < R - 1 /\ y < 0 /\ 0 < j).
(** all cells of the domains hold what the big grid holds, except these, which hold zero *)
Definition matches (R C s : Z) (m : doms (grid3 Rdefinitions.R)) (G : grid3 Rdefinitions.R) : Prop :=
  forall i j c x y, 0 <= i < R -> 0 <= j < C -> inw s s x y ->
  (~ skew R C s i j x y -> lv (getc c (m (i, j))) x y = lv (getc c G) (i * s + x) (j * s + y)) /\
  (skew R C s i j x y -> lv (getc c (m (i, j))) x y = 0%R).

Section Glue.
Variables R C s : Z.
Hypothesis HR : 1 <= R.
Hypothesis HC : 1 <= C.
Hypothesis Hs : 4 <= s.
Hypothesis HsL : s + 4 < 2 ^ 32.

Lemma stitch_corners m G m' : all_fit R C s m -> fits3 (R * s) (C * s) G -> inner_agrees R C s m G ->
  (forall i j, 0 <= i < R -> 0 <= j < C -> ghost0 s s (m (i, j))) -> ghost0 (R * s) (C * s) G ->
  pass3 Rplus R C m = Ok m' -> all_fit R C s m' -> agrees R C s m' G -> matches R C s m' G.
Proof using HR HC Hs HsL.
  intros Fm FG A Gm GG E Fit' Ag i j c x y Hi Hj Hw.
  destruct (Z_le_dec 0 x) as [X0|X0]; [destruct (Z_lt_dec x s) as [X1|X1]|].
  1: { split; [intros _; apply Ag; auto; unfold inw in Hw; lia|unfold skew; lia]. }
  all: destruct (Z_le_dec 0 y) as [Y0|Y0]; [destruct (Z_lt_dec y s) as [Y1|Y1]|];
    try (split; [intros _; apply Ag; auto; unfold inw in Hw; lia|unfold skew; lia]).
  all: assert (Va : Forall (valid R C) (pass_ops R C)) by (apply Forall_forall; intros q; apply In_pass_ops; lia).
  all: destruct (run3_comps Rplus (pass_ops R C) m) as (m2 & E2 & Hc);
    [intros c' q Hq; rewrite Forall_forall in Va; apply (valid_fits R C (s + 4) 2); [apply uniform_comp; assumption|auto]|].
  all: change (run3 Rplus (pass_ops R C) m = Ok m') in E; rewrite E in E2; injection E2 as <-.
  all: destruct (Hc c) as (mc & Ec & Ep); clear Hc.
  all: assert (U := uniform_comp R C s m c Fm).
  all: assert (GZ : ghosts_zero 0%R R C (s + 4) 2 (comp_of c m)) by
    (intros i' j' r k Hi' Hj' Hr Hk NI; unfold interior in NI;
     pose proof (Gm i' j' Hi' Hj' c (r - 2) (k - 2)) as Z; unfold lv in Z; unfold comp_of;
     destruct (Fm i' j' Hi' Hj' c) as (_ & Eo & _); rewrite Eo in Z;
     replace (r - 2 + 2) with r in Z by lia; replace (k - 2 + 2) with k in Z by lia; apply Z; unfold inw; lia).
  all: assert (Eo' : os (getc c (m' (i, j))) = 2) by apply (Fit' i j Hi Hj c).
  all: assert (Eo : forall i j, 0 <= i < R -> 0 <= j < C -> os (getc c (m (i, j))) = 2) by (intros a b Ha Hb; apply (Fm a b Ha Hb c)).
  all: assert (Rd : forall a b u v, 0 <= a < R -> 0 <= b < C -> 0 <= u < s -> 0 <= v < s ->
     cell (getc c (m (a, b))) (u + 2) (v + 2) = lv (getc c G) (a * s + u) (b * s + v)) by
     (intros a b u v Ha Hb Hu Hv; rewrite <- A by assumption; unfold lv; now rewrite Eo).
  all: assert (Gh : ~ (0 <= i * s + x < R * s /\ 0 <= j * s + y < C * s) -> lv (getc c G) (i * s + x) (j * s + y) = 0%R) by
    (intros N; apply GG; [|exact N]; unfold inw in *; nia).
  all: assert (Fits : forall q, In q (pass_ops R C) -> fits (okind q) (comp_of c m (src q)) (comp_of c m (dst q))) by
    (intros q Hq; rewrite Forall_forall in Va; apply (valid_fits R C (s + 4) 2); [exact U|auto]).
  all: destruct (run1_frame Rplus (pass_ops R C) (comp_of c m) Fits) as (mc'' & Ec'' & _ & Fr).
  all: rewrite Ec in Ec''; injection Ec'' as <-.
  all: assert (Sizes : forall q, valid R C q -> os (comp_of c m (src q)) = 2 /\ xr (comp_of c m (src q)) = s + 4 /\ yr (comp_of c m (src q)) = s + 4) by
    (intros q V; now apply (valid_fits R C (s + 4) 2 (comp_of c m) q U) in V).
  all: assert (Un : (forall q, valid R C q -> ~ touches (comp_of c m) q (i, j) (x + 2) (y + 2)) -> lv (getc c (m' (i, j))) x y = 0%R) by
    (intros N; unfold lv; rewrite Eo'; change (getc c (m' (i, j))) with (comp_of c m' (i, j)); rewrite <- Ep, Fr;
     [specialize (Gm i j Hi Hj c x y Hw ltac:(lia)); unfold lv in Gm; now rewrite Eo in Gm|intros q Hq; apply N; rewrite Forall_forall in Va; auto]).
  all: assert (NT : skew R C s i j x y \/ (x < 0 /\ i = 0) \/ (s <= x /\ i = R - 1) \/ (y < 0 /\ j = 0) \/ (s <= y /\ j = C - 1) ->
     forall q, valid R C q -> ~ touches (comp_of c m) q (i, j) (x + 2) (y + 2)) by
    (intros B q V Tc; unfold touches in Tc; destruct (Sizes q V) as (Z1 & Z2 & Z3); rewrite Z1, Z2, Z3 in Tc; unfold skew in B;
     destruct q as [kd i' j']; destruct kd; unfold src, dst, valid in *; cbn [okind orow ocol] in *;
     destruct Tc as [[Eq Tc]|[Eq Tc]]; injection Eq as Ei Ej; unfold strip, diag_block in Tc; cbn [shr shc] in Tc; lia).
  all: destruct (halo_corners Rplus 0%R ltac:(apply Rplus_comm) ltac:(intros; ring) ltac:(intros; ring) R C (s + 4) 2 ltac:(lia) ltac:(lia) ltac:(lia)
                (comp_of c m) (pass_ops R C) U GZ ltac:(reflexivity)) as (mc' & Ec' & K).
  all: rewrite Ec in Ec'; injection Ec' as <-.
  all: (split; [intros N|intros S; apply Un; apply NT; now left]).
  all: unfold inw in Hw.
  (* x >= s *)
  - destruct (Z.eq_dec i (R - 1)) as [Ei|Ei]; [rewrite Gh by nia; apply Un, NT; lia|].
    destruct (Z.eq_dec j (C - 1)) as [Ej|Ej]; [rewrite Gh by nia; apply Un, NT; lia|].
    destruct (K i j (x - s) (y - s)) as [Q _]; try lia. unfold lv at 1. rewrite Eo'. change (getc c (m' (i, j))) with (comp_of c m' (i, j)). rewrite <- Ep.
    replace (s + 4 - 2 + (x - s)) with (x + 2) in Q by lia. replace (s + 4 - 2 + (y - s)) with (y + 2) in Q by lia. rewrite Q. unfold comp_of.
    replace (2 + (x - s)) with (x - s + 2) by lia. replace (2 + (y - s)) with (y - s + 2) by lia. rewrite Rd by lia. f_equal; nia.
  - destruct (Z.eq_dec i (R - 1)) as [Ei|Ei]; [rewrite Gh by nia; apply Un, NT; lia|].
    destruct (Z.eq_dec j 0) as [Ej|Ej]; [rewrite Gh by nia; apply Un, NT; lia|].
    exfalso. apply N. unfold skew. lia.
  - destruct (Z.eq_dec i 0) as [Ei|Ei]; [rewrite Gh by nia; apply Un, NT; lia|].
    destruct (Z.eq_dec j (C - 1)) as [Ej|Ej]; [rewrite Gh by nia; apply Un, NT; lia|].
    exfalso. apply N. unfold skew. lia.
  - destruct (Z.eq_dec i 0) as [Ei|Ei]; [rewrite Gh by nia; apply Un, NT; lia|].
    destruct (Z.eq_dec j 0) as [Ej|Ej]; [rewrite Gh by nia; apply Un, NT; lia|].
    destruct (K (i - 1) (j - 1) (x + 2) (y + 2)) as [_ Q]; try lia. unfold lv at 1. rewrite Eo'. change (getc c (m' (i, j))) with (comp_of c m' (i, j)). rewrite <- Ep.
    replace (i - 1 + 1) with i in Q by lia. replace (j - 1 + 1) with j in Q by lia. rewrite Q. unfold comp_of.
    replace (s + 4 - 2 * 2 + (x + 2)) with (s + x + 2) by lia. replace (s + 4 - 2 * 2 + (y + 2)) with (s + y + 2) by lia. rewrite Rd by lia. f_equal; nia.
Qed.
(** with ghost cells zero the exchange leaves the inner cells as they are *)
Lemma pass_inner m m' : all_fit R C s m -> (forall i j, 0 <= i < R -> 0 <= j < C -> ghost0 s s (m (i, j))) -> pass3 Rplus R C m = Ok m' ->
  forall i j c x y, 0 <= i < R -> 0 <= j < C -> 0 <= x < s -> 0 <= y < s -> lv (getc c (m (i, j))) x y = lv (getc c (m' (i, j))) x y.
Proof using HR HC Hs HsL.
  intros Fm Gm E i j c x y Hi Hj Hx Hy.
  assert (Va : Forall (valid R C) (pass_ops R C)) by (apply Forall_forall; intros q; apply In_pass_ops; lia).
  destruct (run3_comps Rplus (pass_ops R C) m) as (m2 & E2 & Hc).
  { intros c' q Hq. rewrite Forall_forall in Va. apply (valid_fits R C (s + 4) 2); [apply uniform_comp; assumption|auto]. }
  change (run3 Rplus (pass_ops R C) m = Ok m') in E. rewrite E in E2. injection E2 as <-. destruct (Hc c) as (mc & Ec & Ep).
  assert (GZ : ghosts_zero 0%R R C (s + 4) 2 (comp_of c m)).
  { intros i' j' r k Hi' Hj' Hr Hk NI. unfold interior in NI.
    pose proof (Gm i' j' Hi' Hj' c (r - 2) (k - 2)) as Z. unfold lv in Z. unfold comp_of.
    destruct (Fm i' j' Hi' Hj' c) as (_ & Eo & _). rewrite Eo in Z.
    replace (r - 2 + 2) with r in Z by lia. replace (k - 2 + 2) with k in Z by lia. apply Z; unfold inw; lia. }
  destruct (halo_interior Rplus 0%R ltac:(apply Rplus_comm) ltac:(intros; ring) ltac:(intros; ring) R C (s + 4) 2 ltac:(lia)
              (comp_of c m) (pass_ops R C) (uniform_comp R C s m c Fm) GZ ltac:(apply NoDup_pass_ops; lia) Va) as (mc' & Ec' & Sh & I).
  rewrite Ec in Ec'. injection Ec' as <-.
  assert (Eo : os (getc c (m (i, j))) = 2) by apply (Fm i j Hi Hj c).
  assert (Eo' : os (getc c (m' (i, j))) = 2).
  { specialize (Sh (i, j)). rewrite Ep in Sh. destruct Sh as (_ & _ & _ & _ & Q). unfold comp_of in Q. congruence. }
  unfold lv. rewrite Eo, Eo'. specialize (I (i, j) (x + 2) (y + 2) ltac:(unfold interior; lia)). rewrite Ep in I. unfold comp_of in I. now symmetry.
Qed.
End Glue.

(** ** the field solver *)
Section Step.
Variable mu : R.
Variable g : geo.
Variables R C s : Z.
Hypothesis HR : 1 <= R.
Hypothesis HC : 1 <= C.
Hypothesis Hs : 4 <= s.
Hypothesis HsL : s + 4 < 2 ^ 32.
Hypothesis Gr : g_nr g = R * s.
Hypothesis Gz : g_nz g = C * s.
Hypothesis GrL : g_nr g < 2 ^ 32.
Hypothesis GzL : g_nz g < 2 ^ 32.
Variables eps sg : doms (grid Rdefinitions.R).
Variables Eps Sg : grid Rdefinitions.R.
Hypothesis Heps : inner2 R C s eps Eps.
Hypothesis Hsg : inner2 R C s sg Sg.

Lemma agrees_inner m G : agrees R C s m G -> inner_agrees R C s m G.
Proof using. intros A i j c x y Hi Hj Hx Hy. apply A; auto. lia. Qed.
Lemma pass_matches m m' G : all_fit R C s m -> (forall i j, 0 <= i < R -> 0 <= j < C -> ghost0 s s (m (i, j))) -> pass3 Rplus R C m = Ok m' ->
  fits3 (R * s) (C * s) G -> ghost0 (R * s) (C * s) G -> all_fit R C s m' -> agrees R C s m' G -> matches R C s m' G.
Proof using HR HC Hs HsL.
  intros Fm Gm E FG GG Fm' A. apply (stitch_corners R C s HR HC Hs HsL m G m'); auto.
  intros i j c x y Hi Hj Hx Hy. rewrite (pass_inner R C s HR HC Hs HsL m m' Fm Gm E) by auto. now apply agrees_inner.
Qed.
Theorem step_corners j J m y m' y' : same_fields g R C s m y -> same_current R C s j J ->
  smb_step mu g R C s eps sg j m = Ok m' -> yee_step mu g Eps Sg J y = Ok y' ->
  matches R C s (fun p => y_e (m' p)) (y_e y') /\ matches R C s (fun p => y_h (m' p)) (y_h y') /\ matches R C s (fun p => y_t (m' p)) (y_t y').
Proof using Gr Gz GrL GzL HC HR Hs HsL Heps Hsg.
  intros SF SJ E1 E2.
  destruct (C65_step mu g R C s HR HC Hs HsL Gr Gz GrL GzL eps sg Eps Sg Heps Hsg j J m y SF SJ) as (m2 & y2 & E1' & E2' & SF').
  rewrite E1 in E1'. injection E1' as <-. rewrite E2 in E2'. injection E2' as <-.
  destruct SF' as ((Fe' & Fh' & Ft') & Le' & Lh' & Lt' & Ae' & Ah' & At').
  destruct SF as ((Fe & Fh & Ft) & Le & Lh & Lt & _). destruct SJ as (FJ & Lj & _). rewrite Gr, Gz in Fe', Fh', Ft'.
  destruct Heps as (FE & QE). destruct Hsg as (FS & QS).
  assert (G1 : 1 <= g_nr g < 2 ^ 32) by nia. assert (G2 : 1 <= g_nz g < 2 ^ 32) by nia.
  (* the undivided area *)
  destruct (calc_field_e_spec g (y_t y) J Eps Sg) with (e := y_e y) as (E' & EE & FE' & _ & OE); auto; try (rewrite Gr, Gz; assumption).
  destruct (calc_field_h_spec mu g E' FE' (y_h y) (y_t y) Fh Ft G1) as (H' & T' & EH & FH' & FT' & _ & OH).
  unfold yee_step in E2. rewrite EE in E2. cbn [bind] in E2. rewrite EH in E2. cbn [bind] in E2. injection E2 as <-. cbn [y_e y_h y_t] in *.
  rewrite Gr, Gz in OE. rewrite Gr, Gz in OH.
  (* the domains *)
  unfold smb_step in E1.
  destruct (each_dom_spec R C (fun p z =>
     do e <- calc_field_e (dom_geo g R C s p) (y_t z) (j p) (eps p) (sg p) (y_e z); Ok (mkYee e (y_h z) (y_t z))) m
     (fun p z => y_h z = y_h (m p) /\ y_t z = y_t (m p) /\ fits3 s s (y_e z) /\ ghost0 s s (y_e z)))
     as (m1 & Em1 & P1); [lia|lia| |].
  { intros i k Hi Hk.
    destruct (calc_field_e_spec (dom_geo g R C s (i, k)) (y_t (m (i, k))) (j (i, k)) (eps (i, k)) (sg (i, k))
                (Lt i k Hi Hk) (Lj i k Hi Hk) (proj1 (QE i k Hi Hk)) (proj1 (QS i k Hi Hk)) (y_e (m (i, k))) (Le i k Hi Hk)) as (e' & Ee & Fe1 & Ve & Oe);
      [cbn [dom_geo g_nr]; lia|cbn [dom_geo g_nz]; lia|].
    rewrite Ee. cbn [bind]. eexists. split; [reflexivity|]. cbn [y_e y_h y_t]. cbn [dom_geo g_nr g_nz] in Fe1, Oe. auto. }
  rewrite Em1 in E1. cbn [bind] in E1.
  destruct (pass3 Rplus R C (fun p => y_e (m1 p))) as [e2| |] eqn:Ee2; try discriminate. cbn [bind] in E1.
  assert (Le2 : all_fit R C s e2).
  { destruct (run3_comps Rplus (pass_ops R C) (fun p => y_e (m1 p))) as (e2' & E2' & Hc).
    { intros c q Hq. apply (valid_fits R C (s + 4) 2); [apply uniform_comp; intros i k Hi Hk; now apply P1|apply In_pass_ops; auto; lia]. }
    change (run3 Rplus (pass_ops R C) (fun p => y_e (m1 p)) = Ok e2) in Ee2. rewrite Ee2 in E2'. injection E2' as <-.
    intros i k Hi Hk c. destruct (Hc c) as (mc & Ec & Ep). destruct (run1_frame Rplus (pass_ops R C) (comp_of c (fun p => y_e (m1 p)))) as (mc' & Ec' & Sh & _).
    { intros q Hq. apply (valid_fits R C (s + 4) 2); [apply uniform_comp; intros i' k' Hi' Hk'; now apply P1|apply In_pass_ops; auto; lia]. }
    rewrite Ec in Ec'. injection Ec' as <-. specialize (Sh (i, k)). rewrite Ep in Sh. unfold comp_of in Sh. pose proof Sh as (S1 & S2 & S3 & S4 & S5).
    destruct (P1 i k Hi Hk) as (_ & _ & F & _). destruct (F c) as (W & Wo & Wx & Wy). split; [eapply same_shape_wf; eauto|]. repeat split; congruence. }
  destruct (each_dom_spec R C (fun p z =>
     do (h, t) <- calc_field_h mu (dom_geo g R C s p) (y_e z) (y_h z) (y_t z); Ok (mkYee (y_e z) h t)) (fun p => mkYee (e2 p) (y_h (m1 p)) (y_t (m1 p)))
     (fun p z => y_e z = e2 p /\ fits3 s s (y_h z) /\ fits3 s s (y_t z) /\ ghost0 s s (y_h z) /\ ghost0 s s (y_t z)))
     as (m3 & Em3 & P3); [lia|lia| |].
  { intros i k Hi Hk. cbn [y_e y_h y_t]. destruct (P1 i k Hi Hk) as (P1h & P1t & _).
    destruct (calc_field_h_spec mu (dom_geo g R C s (i, k)) (e2 (i, k)) (Le2 i k Hi Hk) (y_h (m1 (i, k))) (y_t (m1 (i, k)))) as (h' & t' & Eh & Fh1 & Ft1 & Vh & Oh).
    { rewrite P1h. exact (Lh i k Hi Hk). } { rewrite P1t. exact (Lt i k Hi Hk). } { cbn [dom_geo g_nr]; lia. }
    rewrite Eh. cbn [bind]. eexists. split; [reflexivity|]. cbn [y_e y_h y_t]. cbn [dom_geo g_nr g_nz] in Fh1, Ft1, Oh.
    refine (conj eq_refl (conj Fh1 (conj Ft1 (conj (fun c a b I N => proj1 (Oh c a b I N)) (fun c a b I N => proj2 (Oh c a b I N)))))). }
  rewrite Em3 in E1. cbn [bind] in E1.
  destruct (pass3 Rplus R C (fun p => y_h (m3 p))) as [h4| |] eqn:Eh4; try discriminate. cbn [bind] in E1.
  destruct (pass3 Rplus R C (fun p => y_t (m3 p))) as [t4| |] eqn:Et4; try discriminate. cbn [bind] in E1.
  injection E1 as <-. cbn [y_e y_h y_t] in *.
  split; [|split].
  - assert (M : matches R C s e2 E').
    { apply (pass_matches (fun p => y_e (m1 p))); auto.
      - intros i k Hi Hk. now apply P1.
      - intros i k Hi Hk. now apply P1.
      - intros i k c a b Hi Hk Hab. rewrite <- Ae' by auto. now destruct (P3 i k Hi Hk) as (-> & _). }
    intros i k c a b Hi Hk. destruct (P3 i k Hi Hk) as (-> & _). now apply M.
  - apply (pass_matches (fun p => y_h (m3 p))); auto.
    + intros i k Hi Hk. now apply P3.
    + intros i k Hi Hk. now apply P3.
    + intros c a b I N. now apply OH.
  - apply (pass_matches (fun p => y_t (m3 p))); auto.
    + intros i k Hi Hk. now apply P3.
    + intros i k Hi Hk. now apply P3.
    + intros c a b I N. now apply OH.
Qed.
End Step.
