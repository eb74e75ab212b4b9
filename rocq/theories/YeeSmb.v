(** The field solver on several domains: [SMB::solve_maxvell] (src/SMB.cpp:1231-1252) without external fields, and the
    proof that the domains together compute what one big domain computes. *)
From Coq Require Import ZifyBool Reals Lra Permutation.
From Verif Require Import Base GridModel GridProofs CollectorModel OverlayModel OverlayConc OverlaySum OverlayPass ThmOverlay YeeModel YeeProofs.
Open Scope Z_scope.

(** SMB.cpp:1233-1240, 1243-1251: the same call for every domain (the iterations touch different domains only) *)
Definition each_dom {S} (R C : Z) (f : Z * Z -> S -> outcome S) (m : doms S) : outcome (doms S) :=
  for_to 0 R (fun i => for_to 0 C (fun j m' => do y <- f (i, j) (m' (i, j)); Ok (updp m' (i, j) y))) m.

(** SMB.cpp:49-122: the geometry of domain (i, j) of a division of [g] into R x C domains of s x s cells *)
Definition dom_geo (g : geo) (R C s : Z) (p : Z * Z) : geo :=
  mkGeo s s (fst p * s + g_d0 g) (snd p * s + g_d1 g) (g_dr g) (g_dz g)
    ((fst p =? 0) && g_w0 g) ((snd p =? 0) && g_w1 g) ((fst p =? R - 1) && g_w2 g) ((snd p =? C - 1) && g_w3 g) (g_dt g).

Section Smb.
Variable mu : R.
Variable g : geo.
Variables R C s : Z.
Variables eps sg : doms (grid Rdefinitions.R).

(** SMB.cpp:1231-1252; [field_h_overlay] stitches field_h and field_h_at_et in the same loop, they are different grids *)
Definition smb_step (j : doms (grid3 Rdefinitions.R)) (m : doms yee) : outcome (doms yee) :=
  do m1 <- each_dom R C (fun p y =>
     do e <- calc_field_e (dom_geo g R C s p) (y_t y) (j p) (eps p) (sg p) (y_e y); Ok (mkYee e (y_h y) (y_t y))) m;
  do e2 <- pass3 Rplus R C (fun p => y_e (m1 p));
  do m3 <- each_dom R C (fun p y =>
     do (h, t) <- calc_field_h mu (dom_geo g R C s p) (y_e y) (y_h y) (y_t y); Ok (mkYee (y_e y) h t))
     (fun p => mkYee (e2 p) (y_h (m1 p)) (y_t (m1 p)));
  do h4 <- pass3 Rplus R C (fun p => y_h (m3 p));
  do t4 <- pass3 Rplus R C (fun p => y_t (m3 p));
  Ok (fun p => mkYee (y_e (m3 p)) (h4 p) (t4 p)).
Fixpoint smb_run (js : list (doms (grid3 Rdefinitions.R))) (m : doms yee) : outcome (doms yee) :=
  match js with [] => Ok m | j :: js' => do m' <- smb_step j m; smb_run js' m' end.
End Smb.

(** ** every domain is visited once *)
Lemma each_dom_spec {S} R C (f : Z * Z -> S -> outcome S) (m : doms S) (P : Z * Z -> S -> Prop) : 0 <= R -> 0 <= C ->
  (forall i j, 0 <= i < R -> 0 <= j < C -> exists y, f (i, j) (m (i, j)) = Ok y /\ P (i, j) y) ->
  exists m', each_dom R C f m = Ok m' /\ forall i j, 0 <= i < R -> 0 <= j < C -> P (i, j) (m' (i, j)).
Proof.
  intros HR HC Hf. unfold each_dom.
  destruct (for_inv (fun i0 m' => (forall i j, 0 <= i < i0 -> 0 <= j < C -> P (i, j) (m' (i, j))) /\
      (forall i j, i0 <= i -> m' (i, j) = m (i, j))) 0 R
      (fun i => for_to 0 C (fun j m' => do y <- f (i, j) (m' (i, j)); Ok (updp m' (i, j) y))) m HR) as (m' & E & Hm & _).
  - split; [lia|auto].
  - intros i m1 Hi [A B].
    destruct (for_inv (fun j0 m' => (forall i' j, 0 <= i' < i -> 0 <= j < C -> P (i', j) (m' (i', j))) /\
      (forall j, 0 <= j < j0 -> P (i, j) (m' (i, j))) /\ (forall j, j0 <= j -> m' (i, j) = m (i, j)) /\
      (forall i' j, i + 1 <= i' -> m' (i', j) = m (i', j))) 0 C
      (fun j m' => do y <- f (i, j) (m' (i, j)); Ok (updp m' (i, j) y)) m1 HC) as (m2 & E2 & K1 & K2 & K3 & K4).
    + split; [exact A|]. split; [lia|]. split; [intros; apply B; lia|intros; apply B; lia].
    + intros j m2 Hj (K1 & K2 & K3 & K4). rewrite K3 by lia. destruct (Hf i j Hi Hj) as (y & Ey & Py). rewrite Ey. cbn [bind].
      eexists. split; [reflexivity|]. repeat split.
      * intros i' j' Hi' Hj'. rewrite updp_ne by congruence || (intros [=]; lia). auto.
      * intros j' Hj'. destruct (Z.eq_dec j' j) as [->|N]; [now rewrite updp_eq|]. rewrite updp_ne by (intros [=]; lia). apply K2; lia.
      * intros j' Hj'. rewrite updp_ne by (intros [=]; lia). apply K3; lia.
      * intros i' j' Hi'. rewrite updp_ne by (intros [=]; lia). apply K4; lia.
    + exists m2. split; [exact E2|]. split.
      * intros i' j' Hi' Hj'. destruct (Z.eq_dec i' i) as [->|N]; [apply K2; lia|apply K1; lia].
      * intros i' j' Hi'. apply K4; lia.
  - exists m'. split; [exact E|]. intros; apply Hm; lia.
Qed.

(** ** agreement with one big grid *)
Section Glue.
Variables R C s : Z.
Hypothesis HR : 1 <= R.
Hypothesis HC : 1 <= C.
Hypothesis Hs : 4 <= s.
Hypothesis HsL : s + 4 < 2 ^ 32.

(** specification: the inner cells of the domains are the cells of the big grid *)
Definition inner_agrees (m : doms (grid3 Rdefinitions.R)) (G : grid3 Rdefinitions.R) : Prop :=
  forall i j c x y, 0 <= i < R -> 0 <= j < C -> 0 <= x < s -> 0 <= y < s ->
  lv (getc c (m (i, j))) x y = lv (getc c G) (i * s + x) (j * s + y).
(** ... and so are the ghost cells, except the corner blocks *)
Definition agrees (m : doms (grid3 Rdefinitions.R)) (G : grid3 Rdefinitions.R) : Prop :=
  forall i j c x y, 0 <= i < R -> 0 <= j < C ->
  (0 <= x < s /\ -2 <= y < s + 2) \/ (-2 <= x < s + 2 /\ 0 <= y < s) ->
  lv (getc c (m (i, j))) x y = lv (getc c G) (i * s + x) (j * s + y).
Definition all_fit (m : doms (grid3 Rdefinitions.R)) : Prop := forall i j, 0 <= i < R -> 0 <= j < C -> fits3 s s (m (i, j)).
Definition ghost0 (nr nz : Z) (f : grid3 Rdefinitions.R) : Prop :=
  forall c i k, inw nr nz i k -> ~ (0 <= i < nr /\ 0 <= k < nz) -> lv (getc c f) i k = 0%R.

Lemma uniform_comp m c : all_fit m -> uniform R C (s + 4) 2 (comp_of c m).
Proof.
  intros F i j Hi Hj. unfold comp_of. destruct (F i j Hi Hj c) as (W & Eo & Ex & Ey).
  pose proof W as (? & ? & ? & Wx & Wy & ? & ?). split; [exact W|]. repeat split; lia.
Qed.

Lemma stitch m G : all_fit m -> fits3 (R * s) (C * s) G -> inner_agrees m G ->
  (forall i j, 0 <= i < R -> 0 <= j < C -> ghost0 s s (m (i, j))) -> ghost0 (R * s) (C * s) G ->
  exists m', pass3 Rplus R C m = Ok m' /\ all_fit m' /\ agrees m' G.
Proof.
  intros Fm FG A Gm GG.
  assert (Va : Forall (valid R C) (pass_ops R C)) by (apply Forall_forall; intros q; apply In_pass_ops; lia).
  destruct (run3_comps Rplus (pass_ops R C) m) as (m' & E & Hc).
  { intros c q Hq. rewrite Forall_forall in Va. apply (valid_fits R C (s + 4) 2); [apply uniform_comp; exact Fm|auto]. }
  exists m'. split; [exact E|].
  assert (K : forall c, shape_of (comp_of c m) (comp_of c m') /\
    (forall i j r k, 0 <= i < R -> 0 <= j < C -> interior (s + 4) 2 r k -> cell (comp_of c m' (i, j)) r k = cell (comp_of c m (i, j)) r k) /\
    (forall i j h k, 0 <= i < R - 1 -> 0 <= j < C -> 2 <= k < s + 4 - 2 -> 0 <= h < 2 ->
       cell (comp_of c m' (i, j)) (s + 4 - 2 + h) k = cell (comp_of c m (i + 1, j)) (2 + h) k /\
       cell (comp_of c m' (i + 1, j)) h k = cell (comp_of c m (i, j)) (s + 4 - 2 * 2 + h) k) /\
    (forall i j r h, 0 <= i < R -> 0 <= j < C - 1 -> 2 <= r < s + 4 - 2 -> 0 <= h < 2 ->
       cell (comp_of c m' (i, j)) r (s + 4 - 2 + h) = cell (comp_of c m (i, j + 1)) r (2 + h) /\
       cell (comp_of c m' (i, j + 1)) r h = cell (comp_of c m (i, j)) r (s + 4 - 2 * 2 + h)) /\
    (forall p r k, (forall q, valid R C q -> ~ touches (comp_of c m) q p r k) -> cell (comp_of c m' p) r k = cell (comp_of c m p) r k)).
  { intros c. destruct (Hc c) as (mc & Ec & Ep).
    assert (U := uniform_comp m c Fm).
    assert (GZ : ghosts_zero 0%R R C (s + 4) 2 (comp_of c m)).
    { intros i j r k Hi Hj Hr Hk NI. unfold interior in NI.
      pose proof (Gm i j Hi Hj c (r - 2) (k - 2)) as Z. unfold lv in Z. unfold comp_of.
      destruct (Fm i j Hi Hj c) as (_ & Eo & _). rewrite Eo in Z.
      replace (r - 2 + 2) with r in Z by lia. replace (k - 2 + 2) with k in Z by lia. apply Z; unfold inw; lia. }
    destruct (halo_refresh Rplus 0%R ltac:(apply Rplus_comm) ltac:(intros; ring) ltac:(intros; ring) R C (s + 4) 2 ltac:(lia) ltac:(lia) ltac:(lia)
                (comp_of c m) (pass_ops R C) U GZ ltac:(reflexivity)) as (mc' & Ec' & Sh & I1 & I2 & I3).
    rewrite Ec in Ec'. injection Ec' as <-.
    assert (Fits : forall q, In q (pass_ops R C) -> fits (okind q) (comp_of c m (src q)) (comp_of c m (dst q))).
    { intros q Hq. rewrite Forall_forall in Va. apply (valid_fits R C (s + 4) 2); [exact U|auto]. }
    destruct (run1_frame Rplus (pass_ops R C) (comp_of c m) Fits) as (mc'' & Ec'' & _ & Fr).
    rewrite Ec in Ec''. injection Ec'' as <-.
    split; [intros p; rewrite <- Ep; apply Sh|].
    split; [intros; rewrite <- Ep; now apply I1|].
    split; [intros; rewrite <- !Ep; now apply I2|].
    split; [intros; rewrite <- !Ep; now apply I3|].
    intros p r k Hp. rewrite <- Ep. apply Fr. intros q Hq. apply Hp. rewrite Forall_forall in Va. auto. }
  assert (Fit' : all_fit m').
  { intros i j Hi Hj c. destruct (Fm i j Hi Hj c) as (W & Eo & Ex & Ey). destruct (K c) as (Sh & _). specialize (Sh (i, j)). unfold comp_of in Sh.
    pose proof Sh as (S1 & S2 & S3 & S4 & S5). split; [eapply same_shape_wf; eauto|]. repeat split; congruence. }
  split; [exact Fit'|].
  intros i j c x y Hi Hj Hxy. destruct (K c) as (_ & I1 & I2 & I3 & Fr).
  assert (Eo' : os (getc c (m' (i, j))) = 2) by apply (Fit' i j Hi Hj c).
  assert (Eo : forall i j, 0 <= i < R -> 0 <= j < C -> os (getc c (m (i, j))) = 2) by (intros a b Ha Hb; apply (Fm a b Ha Hb c)).
  assert (EG : os (getc c G) = 2) by apply (FG c).
  assert (Rd : forall a b u v, 0 <= a < R -> 0 <= b < C -> 0 <= u < s -> 0 <= v < s ->
     cell (getc c (m (a, b))) (u + 2) (v + 2) = lv (getc c G) (a * s + u) (b * s + v)).
  { intros a b u v Ha Hb Hu Hv. rewrite <- A by assumption. unfold lv. now rewrite Eo. }
  unfold lv at 1. rewrite Eo'. unfold comp_of in *.
  assert (Gh : ~ (0 <= i * s + x < R * s /\ 0 <= j * s + y < C * s) -> lv (getc c G) (i * s + x) (j * s + y) = 0%R).
  { intros N. apply GG; [|exact N]. unfold inw. nia. }
  assert (Fr' : (forall q, valid R C q -> ~ touches (comp_of c m) q (i, j) (x + 2) (y + 2)) -> ~ (0 <= x < s /\ 0 <= y < s) ->
     cell (getc c (m' (i, j))) (x + 2) (y + 2) = 0%R).
  { intros T N. rewrite Fr by exact T. specialize (Gm i j Hi Hj c x y ltac:(unfold inw; lia) N). unfold lv in Gm. now rewrite Eo in Gm. }
  assert (Sizes : forall q, valid R C q -> os (comp_of c m (src q)) = 2 /\ xr (comp_of c m (src q)) = s + 4 /\ yr (comp_of c m (src q)) = s + 4).
  { intros q V. now apply (valid_fits R C (s + 4) 2 (comp_of c m) q (uniform_comp m c Fm)) in V. }
  assert (NT : (x < 0 /\ i = 0) \/ (s <= x /\ i = R - 1) \/ (y < 0 /\ j = 0) \/ (s <= y /\ j = C - 1) ->
     forall q, valid R C q -> ~ touches (comp_of c m) q (i, j) (x + 2) (y + 2)).
  { intros B q V T. unfold touches in T. destruct (Sizes q V) as (Z1 & Z2 & Z3). rewrite Z1, Z2, Z3 in T.
    destruct q as [kd i' j']. destruct kd; unfold src, dst, valid in *; cbn [okind orow ocol] in *;
    destruct T as [[Ep T]|[Ep T]]; injection Ep as Ei Ej; unfold strip, diag_block in T; cbn [shr shc] in T; lia. }
  destruct (Z_lt_dec x 0) as [X0|X0].
  { destruct (Z.eq_dec i 0) as [->|I0].
    - rewrite Gh by nia. apply Fr'; [apply NT; lia|lia].
    - destruct (I2 (i - 1) j (x + 2) (y + 2)) as [_ Q]; try lia. replace (i - 1 + 1) with i in Q by lia. rewrite Q.
      replace (s + 4 - 2 * 2 + (x + 2)) with (s + x + 2) by lia. rewrite Rd by lia. f_equal; nia. }
  destruct (Z_le_dec s x) as [X1|X1].
  { destruct (Z.eq_dec i (R - 1)) as [Ei|I0].
    - rewrite Gh by nia. apply Fr'; [apply NT; lia|lia].
    - destruct (I2 i j (x - s) (y + 2)) as [Q _]; try lia. replace (s + 4 - 2 + (x - s)) with (x + 2) in Q by lia. rewrite Q.
      replace (2 + (x - s)) with (x - s + 2) by lia. rewrite Rd by lia. f_equal; nia. }
  destruct (Z_lt_dec y 0) as [Y0|Y0].
  { destruct (Z.eq_dec j 0) as [->|J0].
    - rewrite Gh by nia. apply Fr'; [apply NT; lia|lia].
    - destruct (I3 i (j - 1) (x + 2) (y + 2)) as [_ Q]; try lia. replace (j - 1 + 1) with j in Q by lia. rewrite Q.
      replace (s + 4 - 2 * 2 + (y + 2)) with (s + y + 2) by lia. rewrite Rd by lia. f_equal; nia. }
  destruct (Z_le_dec s y) as [Y1|Y1].
  { destruct (Z.eq_dec j (C - 1)) as [Ej|J0].
    - rewrite Gh by nia. apply Fr'; [apply NT; lia|lia].
    - destruct (I3 i j (x + 2) (y - s)) as [Q _]; try lia. replace (s + 4 - 2 + (y - s)) with (y + 2) in Q by lia. rewrite Q.
      replace (2 + (y - s)) with (y - s + 2) by lia. rewrite Rd by lia. f_equal; nia. }
  rewrite I1 by (unfold interior; lia). apply Rd; lia.
Qed.
End Glue.
