(** Closed form of the two halves of a step of the field solver. *)
From Coq Require Import ZifyBool Reals Lra.
From Verif Require Import Base GridModel GridProofs OverlayModel YeeModel.
Open Scope Z_scope.

(** ** nested loops that visit every site once *)
Section Nest.
Context {S I : Type}.
Variable view : S -> I -> Z -> Z -> R.
Variable inv : S -> Prop.
Variable new : Z -> Z -> (I -> R) -> I -> R.
Hypothesis new_ext : forall i k f f' x, (forall y, f y = f' y) -> new i k f x = new i k f' x.
Variable body : Z -> Z -> S -> outcome S.
Variables r0 r1 c0 c1 : Z.
Hypothesis step : forall i k s, r0 <= i < r1 -> c0 <= k < c1 -> inv s ->
  exists s', body i k s = Ok s' /\ inv s' /\
  forall x a b, view s' x a b = if (a =? i) && (b =? k) then new i k (fun y => view s y i k) x else view s x a b.

Lemma nest_row i s : r0 <= i < r1 -> inv s ->
  exists s', for_to c0 c1 (body i) s = Ok s' /\ inv s' /\
  forall x a b, view s' x a b = if (a =? i) && (c0 <=? b) && (b <? c1) then new a b (fun y => view s y a b) x else view s x a b.
Proof.
  intros Hi Hs. destruct (Z_le_gt_dec c0 c1) as [Hc|Hc].
  2:{ rewrite for_empty by lia. exists s. split; [reflexivity|]. split; [exact Hs|].
      intros x a b. now replace (_ && _ && _) with false by lia. }
  destruct (for_inv (fun k t => inv t /\ forall x a b, view t x a b =
      if (a =? i) && (c0 <=? b) && (b <? k) then new a b (fun y => view s y a b) x else view s x a b) c0 c1 (body i) s Hc) as (s' & E & P).
  - split; [exact Hs|]. intros x a b. now replace (_ && _ && _) with false by lia.
  - intros k t Hk [It Vt]. destruct (step i k t Hi Hk It) as (t' & E & It' & Vt').
    exists t'. split; [exact E|]. split; [exact It'|]. intros x a b. rewrite Vt'.
    destruct ((a =? i) && (b =? k)) eqn:B.
    + assert (a = i) by lia. assert (b = k) by lia. subst a b.
      replace (_ && _ && _) with true by lia. apply new_ext. intros y. rewrite Vt.
      now replace (_ && _ && _) with false by lia.
    + rewrite Vt. destruct ((a =? i) && (c0 <=? b) && (b <? k)) eqn:B1.
      * now replace (_ && _ && _) with true by lia.
      * now replace (_ && _ && _) with false by lia.
  - exists s'. tauto.
Qed.
Lemma nest s : inv s ->
  exists s', for_to r0 r1 (fun i => for_to c0 c1 (body i)) s = Ok s' /\ inv s' /\
  forall x a b, view s' x a b =
    if (r0 <=? a) && (a <? r1) && (c0 <=? b) && (b <? c1) then new a b (fun y => view s y a b) x else view s x a b.
Proof.
  intros Hs. destruct (Z_le_gt_dec r0 r1) as [Hc|Hc].
  2:{ rewrite for_empty by lia. exists s. split; [reflexivity|]. split; [exact Hs|].
      intros x a b. now replace (_ && _ && _ && _) with false by lia. }
  destruct (for_inv (fun i t => inv t /\ forall x a b, view t x a b =
      if (r0 <=? a) && (a <? i) && (c0 <=? b) && (b <? c1) then new a b (fun y => view s y a b) x else view s x a b)
      r0 r1 (fun i => for_to c0 c1 (body i)) s Hc) as (s' & E & P).
  - split; [exact Hs|]. intros x a b. now replace (_ && _ && _ && _) with false by lia.
  - intros i t Hi [It Vt]. destruct (nest_row i t Hi It) as (t' & E & It' & Vt').
    exists t'. split; [exact E|]. split; [exact It'|]. intros x a b. rewrite Vt'.
    destruct ((a =? i) && (c0 <=? b) && (b <? c1)) eqn:B.
    + replace (_ && _ && _ && _) with true by lia. apply new_ext. intros y. rewrite Vt.
      now replace (_ && _ && _ && _) with false by lia.
    + rewrite Vt. destruct ((r0 <=? a) && (a <? i) && (c0 <=? b) && (b <? c1)) eqn:B1.
      * now replace (_ && _ && _ && _) with true by lia.
      * now replace (_ && _ && _ && _) with false by lia.
  - exists s'. tauto.
Qed.
End Nest.

(** ** access to a grid by logical coordinates *)
Definition lv (f : grid R) (x y : Z) : R := cell f (x + os f) (y + os f).
(** a grid of nr x nz cells with two layers of ghost cells *)
Definition fits2 (nr nz : Z) (f : grid R) : Prop := wf f /\ os f = 2 /\ xs f = nr /\ ys f = nz.
Definition setl (f : grid R) (x y : Z) (v : R) : grid R := setc f (upd (cell f) (x + os f) (y + os f) v).
Definition inw (nr nz x y : Z) : Prop := -2 <= x < nr + 2 /\ -2 <= y < nz + 2.
Definition fits3 (nr nz : Z) (f : grid3 R) : Prop := forall c, fits2 nr nz (getc c f).

Section Access.
Variables nr nz : Z.
Lemma rget_eq f x y : fits2 nr nz f -> inw nr nz x y -> rget f x y = Ok (lv f x y).
Proof. intros (W & Eo & Ex & Ey) [Hx Hy]. unfold rget, lv. apply get_spec; auto; lia. Qed.
Lemma rset_eq f x y v : fits2 nr nz f -> inw nr nz x y -> rset f x y v = Ok (setl f x y v).
Proof.
  intros (W & Eo & Ex & Ey) [Hx Hy]. unfold rset, set. pose proof W as (? & ? & ? & ? & ? & ? & ?).
  rewrite (raw_index f x (xr f)), (raw_index f y (yr f)) by (auto; lia). apply wr_in; lia.
Qed.
Lemma rop_eq op f x y v : fits2 nr nz f -> inw nr nz x y ->
  op_assign op f (u32 x) (u32 y) v = Ok (setl f x y (op (lv f x y) v)).
Proof.
  intros (W & Eo & Ex & Ey) [Hx Hy]. unfold op_assign. pose proof W as (? & ? & ? & ? & ? & ? & ?).
  rewrite (raw_index f x (xr f)), (raw_index f y (yr f)) by (auto; lia). rewrite rd_in by lia. cbn [bind].
  apply wr_in; lia.
Qed.
Lemma setl_fits f x y v : fits2 nr nz f -> fits2 nr nz (setl f x y v).
Proof. intros H. exact H. Qed.
Lemma lv_setl f x y v a b : lv (setl f x y v) a b = if (a =? x) && (b =? y) then v else lv f a b.
Proof.
  unfold lv, setl, setc; cbn [cell os]. unfold upd.
  now replace ((a + os f =? x + os f) && (b + os f =? y + os f)) with ((a =? x) && (b =? y)) by lia.
Qed.
Lemma overlay_set3_eq f : fits3 nr nz f ->
  exists f', overlay_set3 0%R f = Ok f' /\ fits3 nr nz f' /\
  forall c x y, inw nr nz x y -> lv (getc c f') x y =
    if (0 <=? x) && (x <? nr) && (0 <=? y) && (y <? nz) then lv (getc c f) x y else 0%R.
Proof.
  intros F.
  assert (G : forall h, fits2 nr nz h -> exists h', overlay_set 0%R h = Ok h' /\ fits2 nr nz h' /\
     forall x y, inw nr nz x y -> lv h' x y = if (0 <=? x) && (x <? nr) && (0 <=? y) && (y <? nz) then lv h x y else 0%R).
  { intros h (W & Eo & Ex & Ey). destruct (overlay_set_spec 0%R h W) as (h' & E & S & V).
    exists h'. split; [exact E|]. pose proof S as (S1 & S2 & S3 & S4 & S5). split.
    - split; [eapply same_shape_wf; eauto|]. repeat split; congruence.
    - pose proof W as (? & ? & ? & ? & ? & ? & ?). intros x y [Hx Hy]. unfold lv. rewrite S5, Eo. rewrite V by lia. rewrite Eo.
      replace ((2 <=? x + 2) && (x + 2 <? xr h - 2) && (2 <=? y + 2) && (y + 2 <? yr h - 2))
        with ((0 <=? x) && (x <? nr) && (0 <=? y) && (y <? nz)) by lia. reflexivity. }
  destruct (G _ (F Cr)) as (a & Ea & Fa & Va). destruct (G _ (F Cphi)) as (b & Eb & Fb & Vb). destruct (G _ (F Cz)) as (c & Ec & Fc & Vc).
  cbn [getc] in *. exists (mkGrid3 a b c). unfold overlay_set3, lift3. rewrite Ea, Eb, Ec. cbn [bind].
  split; [reflexivity|]. split; [intros []; assumption|]. intros [] x y Hw; cbn [getc c_r c_phi c_z]; auto.
Qed.
End Access.

(** ** calc_field_h *)
Section H.
Variable mu : R.
Variable g : geo.
Let nr := g_nr g.
Let nz := g_nz g.
Variable e : grid3 R.
Hypothesis Fe : fits3 nr nz e.

Definition alpha_r (i k : Z) : R := (g_dt g * (lv (c_phi e) i (k + 1) - lv (c_phi e) i k) / (g_dz g * mu))%R.
Definition alpha_phi (i k : Z) : R :=
  (g_dt g * ((lv (c_z e) (i + 1) k - lv (c_z e) i k) / g_dr g - (lv (c_r e) i (k + 1) - lv (c_r e) i k) / g_dz g) / mu)%R.
Definition alpha_z (i k : Z) : R :=
  (g_dt g * ((lv (c_phi e) (i + 1) k + lv (c_phi e) i k) / (2 * g_dr g * (IZR i + /2 + IZR (g_d0 g)))
             + (lv (c_phi e) (i + 1) k - lv (c_phi e) i k) / g_dr g) / mu)%R.

Definition hview (s : hstate) (x : bool * comp) (a b : Z) : R :=
  lv (getc (snd x) (if fst x then fst s else snd s)) a b.
Definition hinv (s : hstate) : Prop := fits3 nr nz (fst s) /\ fits3 nr nz (snd s).
Definition h_new_r (i k : Z) (old : bool * comp -> R) (x : bool * comp) : R :=
  match x with
  | (true, Cr) => (old (false, Cr) + alpha_r i k / 2)%R
  | (false, Cr) => (old (false, Cr) + alpha_r i k)%R
  | _ => old x end.
Definition h_new (i k : Z) (old : bool * comp -> R) (x : bool * comp) : R :=
  match x with
  | (true, Cr) => (old (false, Cr) + alpha_r i k / 2)%R
  | (false, Cr) => (old (false, Cr) + alpha_r i k)%R
  | (true, Cphi) => (old (false, Cphi) + alpha_phi i k / 2)%R
  | (false, Cphi) => (old (false, Cphi) + alpha_phi i k)%R
  | (true, Cz) => (old (false, Cz) - alpha_z i k / 2)%R
  | (false, Cz) => (old (false, Cz) - alpha_z i k)%R
  end.

Ltac sep H := let A := fresh "F" in let B := fresh "F" in let C := fresh "F" in
  pose proof (H Cr) as A; pose proof (H Cphi) as B; pose proof (H Cz) as C; cbn [getc] in A, B, C.
Ltac win := unfold inw; lia.

Lemma h_r_step i k s : 0 <= i < nr -> 0 <= k < nz -> hinv s ->
  exists s', h_r_at mu g e i k s = Ok s' /\ hinv s' /\
  forall x a b, hview s' x a b = if (a =? i) && (b =? k) then h_new_r i k (fun y => hview s y i k) x else hview s x a b.
Proof.
  intros Hi Hk [Fh Ft]. destruct s as [h t]. cbn [fst snd] in *. sep Fe. sep Fh. sep Ft.
  unfold h_r_at. rewrite !(rget_eq nr nz) by (auto; win). cbn [bind]. rewrite (rset_eq nr nz) by (auto; win). cbn [bind].
  unfold rinc. rewrite (rop_eq nr nz) by (auto; win). cbn [bind]. eexists. split; [reflexivity|]. split.
  - split; intros []; cbn [fst snd getc c_r c_phi c_z]; first [assumption|now apply setl_fits].
  - intros [[] []] a b; unfold hview; cbn [fst snd getc c_r c_phi c_z h_new_r]; rewrite ?lv_setl;
      try (destruct ((a =? i) && (b =? k)) eqn:B; [|reflexivity]);
      try (replace a with i by lia; replace b with k by lia); reflexivity.
Qed.
Lemma h_step i k s : 0 <= i < nr -> 0 <= k < nz -> hinv s ->
  exists s', h_at mu g e i k s = Ok s' /\ hinv s' /\
  forall x a b, hview s' x a b = if (a =? i) && (b =? k) then h_new i k (fun y => hview s y i k) x else hview s x a b.
Proof.
  intros Hi Hk Is. destruct (h_r_step i k s Hi Hk Is) as (s1 & E1 & I1 & V1).
  unfold h_at. rewrite E1. cbn [bind]. destruct s1 as [h t]. destruct I1 as [Fh Ft]. cbn [fst snd] in *. sep Fe. sep Fh. sep Ft.
  unfold h_phi_at. rewrite !(rget_eq nr nz) by (auto; win). cbn [bind]. rewrite (rset_eq nr nz) by (auto; win). cbn [bind].
  unfold rinc. rewrite (rop_eq nr nz) by (auto; win). cbn [bind].
  unfold h_z_at. cbn [c_r c_phi c_z]. rewrite !(rget_eq nr nz) by (auto; win). cbn [bind]. rewrite (rset_eq nr nz) by (auto; win). cbn [bind].
  unfold rdec. rewrite (rop_eq nr nz) by (auto; win). cbn [bind]. eexists. split; [reflexivity|]. split.
  - split; intros []; cbn [fst snd getc c_r c_phi c_z]; first [assumption|now apply setl_fits].
  - intros x a b.
    assert (V : forall y, hview (h, t) y a b = if (a =? i) && (b =? k) then h_new_r i k (fun y => hview s y i k) y else hview s y a b)
      by (intros; apply V1).
    destruct ((a =? i) && (b =? k)) eqn:B.
    + assert (a = i) by lia. assert (b = k) by lia. subst a b.
      pose proof (V (true, Cr)) as P1. pose proof (V (false, Cr)) as P2. pose proof (V (false, Cphi)) as P3. pose proof (V (false, Cz)) as P4.
      unfold hview in P1, P2, P3, P4; cbn [fst snd getc h_new_r] in P1, P2, P3, P4.
      destruct x as [[] []]; unfold hview; cbn [fst snd getc c_r c_phi c_z h_new]; rewrite ?lv_setl, ?B;
        rewrite ?P1, ?P2, ?P3, ?P4; reflexivity.
    + rewrite <- V. destruct x as [[] []]; unfold hview; cbn [fst snd getc c_r c_phi c_z]; rewrite ?lv_setl, ?B; reflexivity.
Qed.

(** how often H_r of row [a] is updated *)
Definition wall_times (a : Z) : R := if g_w2 g && (a =? nr - 1) then 2%R else 1%R.
Lemma calc_field_h_spec h t : fits3 nr nz h -> fits3 nr nz t -> 1 <= nr < 2 ^ 32 ->
  exists h' t', calc_field_h mu g e h t = Ok (h', t') /\ fits3 nr nz h' /\ fits3 nr nz t' /\
  (forall i k, 0 <= i < nr -> 0 <= k < nz ->
     lv (c_r t') i k = (lv (c_r t) i k + wall_times i * alpha_r i k)%R /\
     lv (c_phi t') i k = (lv (c_phi t) i k + alpha_phi i k)%R /\
     lv (c_z t') i k = (lv (c_z t) i k - alpha_z i k)%R /\
     lv (c_r h') i k = (lv (c_r t) i k + (wall_times i - /2) * alpha_r i k)%R /\
     lv (c_phi h') i k = (lv (c_phi t) i k + alpha_phi i k / 2)%R /\
     lv (c_z h') i k = (lv (c_z t) i k - alpha_z i k / 2)%R) /\
  (forall c i k, inw nr nz i k -> ~ (0 <= i < nr /\ 0 <= k < nz) -> lv (getc c h') i k = 0%R /\ lv (getc c t') i k = 0%R).
Proof.
  intros Fh Ft Hnr. destruct (overlay_set3_eq nr nz h Fh) as (h0 & E0 & Fh0 & V0).
  destruct (overlay_set3_eq nr nz t Ft) as (t0 & E1 & Ft0 & V1).
  unfold calc_field_h. rewrite E0, E1. cbn [bind].
  assert (W : exists s1, (if g_w2 g then for_to 0 (g_nz g) (fun k => h_r_at mu g e (u32 (g_nr g - 1)) k) (h0, t0) else Ok (h0, t0)) = Ok s1 /\
    hinv s1 /\ forall x a b, hview s1 x a b =
      if (g_w2 g && (a =? nr - 1)) && (0 <=? b) && (b <? nz) then h_new_r a b (fun y => hview (h0, t0) y a b) x else hview (h0, t0) x a b).
  { destruct (g_w2 g) eqn:W2.
    - change (g_nr g) with nr. rewrite (u32_small (nr - 1)) by lia. cbn [andb].
      apply (nest_row hview hinv h_new_r) with (r0 := 0) (r1 := nr) (body := h_r_at mu g e).
      + intros i k f f' [[] []] Hf; cbn [h_new_r]; now rewrite ?Hf.
      + intros; now apply h_r_step.
      + lia.
      + split; assumption.
    - exists (h0, t0). split; [reflexivity|]. split; [split; assumption|]. reflexivity. }
  destruct W as (s1 & E2 & I1 & V2). rewrite E2. cbn [bind].
  destruct (nest hview hinv h_new) with (r0 := 0) (r1 := nr) (c0 := 0) (c1 := nz) (body := h_at mu g e) (s := s1) as (s2 & E3 & I2 & V3).
  { intros i k f f' [[] []] Hf; cbn [h_new]; now rewrite ?Hf. }
  { intros; now apply h_step. }
  { exact I1. }
  destruct s2 as [h' t']. exists h', t'. split; [exact E3|]. destruct I2 as [Fh' Ft']. split; [exact Fh'|]. split; [exact Ft'|]. split.
  - intros i k Hi Hk.
    assert (Bi : (0 <=? i) && (i <? nr) && (0 <=? k) && (k <? nz) = true) by lia.
    assert (Q : forall x, hview (h', t') x i k = h_new i k (fun y => hview s1 y i k) x) by (intros x; rewrite V3, Bi; reflexivity).
    assert (T0 : forall c, lv (getc c t0) i k = lv (getc c t) i k) by (intros c; rewrite V1 by (unfold inw; lia); now rewrite Bi).
    assert (Q1 : forall x, hview s1 x i k = if g_w2 g && (i =? nr - 1) then h_new_r i k (fun y => hview (h0, t0) y i k) x else hview (h0, t0) x i k).
    { intros x. rewrite V2. replace ((0 <=? k)) with true by lia. replace (k <? nz) with true by lia. now rewrite !andb_true_r. }
    pose proof (T0 Cr) as TR. pose proof (T0 Cphi) as TP. pose proof (T0 Cz) as TZ. cbn [getc] in TR, TP, TZ.
    pose proof (Q (false, Cr)) as A1. pose proof (Q (false, Cphi)) as A2. pose proof (Q (false, Cz)) as A3.
    pose proof (Q (true, Cr)) as A4. pose proof (Q (true, Cphi)) as A5. pose proof (Q (true, Cz)) as A6.
    cbn [h_new] in A1, A2, A3, A4, A5, A6. rewrite Q1 in A1, A2, A3, A4, A5, A6.
    cbn [h_new_r] in A1, A2, A3, A4, A5, A6. unfold hview in A1, A2, A3, A4, A5, A6. cbn [fst snd getc] in A1, A2, A3, A4, A5, A6.
    rewrite A1, A2, A3, A4, A5, A6, TR, TP, TZ. unfold wall_times.
    destruct (g_w2 g && (i =? nr - 1)); repeat split; lra.
  - intros c i k Hw Hn. assert (Bi : (0 <=? i) && (i <? nr) && (0 <=? k) && (k <? nz) = false) by lia.
    assert (K : forall x, hview (h', t') x i k = hview (h0, t0) x i k).
    { intros x. rewrite V3, Bi, V2. replace (g_w2 g && (i =? nr - 1) && (0 <=? k) && (k <? nz)) with false by lia. reflexivity. }
    pose proof (K (true, c)) as K1. pose proof (K (false, c)) as K2. unfold hview in K1, K2. cbn [fst snd] in K1, K2.
    rewrite K1, K2, V0, V1 by assumption. now rewrite Bi.
Qed.
End H.

(** ** calc_field_e *)
Section E.
Variable g : geo.
Let nr := g_nr g.
Let nz := g_nz g.
Variables (t j : grid3 R) (eps sg : grid R).
Hypothesis Ft : fits3 nr nz t.
Hypothesis Fj : fits3 nr nz j.
Hypothesis Feps : fits2 nr nz eps.
Hypothesis Fsg : fits2 nr nz sg.

Definition ke (i k : Z) : R := ((2 * lv eps i k - lv sg i k * g_dt g) / (2 * lv eps i k + lv sg i k * g_dt g))%R.
Definition kh (i k : Z) : R := (2 * g_dt g / (2 * lv eps i k + lv sg i k * g_dt g))%R.
Definition rot_r (i k : Z) : R := ((lv (c_phi t) i k - lv (c_phi t) i (k - 1)) / g_dz g)%R.
Definition rot_z_axis (i k : Z) : R := (- (lv (c_phi t) i k * 4 / g_dr g))%R.
Definition rot_z (i k : Z) : R :=
  (- ((lv (c_phi t) i k - lv (c_phi t) (i - 1) k) / g_dr g)
   - (lv (c_phi t) i k + lv (c_phi t) (i - 1) k) / (2 * g_dr g * IZR (i + g_d0 g)))%R.
Definition rot_phi (i k : Z) : R :=
  (- ((lv (c_r t) i k - lv (c_r t) i (k - 1)) / g_dz g) + (lv (c_z t) i k - lv (c_z t) (i - 1) k) / g_dr g)%R.
Definition e_upd (i k : Z) (old jc rot : R) : R := (old * ke i k - (jc + rot) * kh i k)%R.

Definition eview (s : grid3 R) (x : comp) (a b : Z) : R := lv (getc x s) a b.
Definition einv (s : grid3 R) : Prop := fits3 nr nz s.
Definition new_axis (i k : Z) (old : comp -> R) (x : comp) : R :=
  match x with
  | Cr => e_upd i k (old Cr) (lv (c_r j) i k) (rot_r i k)
  | Cphi => old Cphi
  | Cz => e_upd i k (old Cz) (lv (c_z j) i k) (rot_z_axis i k) end.
Definition new_left (i k : Z) (old : comp -> R) (x : comp) : R :=
  match x with
  | Cz => e_upd i k (old Cz) (lv (c_z j) i k) (rot_z i k)
  | _ => old x end.
Definition new_reg (i k : Z) (old : comp -> R) (x : comp) : R :=
  match x with
  | Cr => e_upd i k (old Cr) (lv (c_r j) i k) (rot_r i k)
  | Cphi => e_upd i k (old Cphi) (lv (c_phi j) i k) (rot_phi i k)
  | Cz => e_upd i k (old Cz) (lv (c_z j) i k) (rot_z i k) end.

Ltac sep H := let A := fresh "F" in let B := fresh "F" in let C := fresh "F" in
  pose proof (H Cr) as A; pose proof (H Cphi) as B; pose proof (H Cz) as C; cbn [getc] in A, B, C.
Ltac win := unfold inw; lia.
Lemma koefs_eq i k : 0 <= i < nr -> 0 <= k < nz -> koefs g eps sg i k = Ok (ke i k, kh i k).
Proof. intros Hi Hk. unfold koefs. rewrite !(rget_eq nr nz) by (auto; win). reflexivity. Qed.

Ltac run := repeat first [ rewrite (rget_eq nr nz) by (auto using setl_fits; win)
  | unfold rmul; rewrite (rop_eq nr nz) by (auto using setl_fits; win)
  | unfold rdec; rewrite (rop_eq nr nz) by (auto using setl_fits; win) | progress cbn [bind c_r c_phi c_z] ].
Ltac fin i k := eexists; split; [reflexivity|]; split;
  [ intros []; cbn [getc c_r c_phi c_z]; first [assumption|now repeat apply setl_fits]
  | intros [] a b; unfold eview; cbn [getc c_r c_phi c_z new_axis new_left new_reg]; rewrite ?lv_setl;
    try (destruct ((a =? i) && (b =? k)) eqn:B; [|reflexivity]);
    try (replace a with i by lia; replace b with k by lia); rewrite ?Z.eqb_refl; cbn [andb];
    unfold e_upd, rot_r, rot_z_axis, rot_z, rot_phi; try reflexivity; unfold Rdiv; ring ].

Lemma axis_step i k s : 0 <= i < nr -> 0 <= k < nz -> einv s ->
  exists s', e_axis g t j eps sg i k s = Ok s' /\ einv s' /\
  forall x a b, eview s' x a b = if (a =? i) && (b =? k) then new_axis i k (fun y => eview s y i k) x else eview s x a b.
Proof.
  intros Hi Hk Is. pose proof Is as Is'. unfold einv in Is'. sep Ft. sep Fj. sep Is'. unfold e_axis. rewrite koefs_eq by assumption. cbn [bind].
  unfold e_r_at, e_z_axis_at. run. fin i k.
Qed.
Lemma left_step i k s : 0 <= i < nr -> 0 <= k < nz -> einv s ->
  exists s', e_left g t j eps sg i k s = Ok s' /\ einv s' /\
  forall x a b, eview s' x a b = if (a =? i) && (b =? k) then new_left i k (fun y => eview s y i k) x else eview s x a b.
Proof.
  intros Hi Hk Is. pose proof Is as Is'. unfold einv in Is'. sep Ft. sep Fj. sep Is'. unfold e_left. rewrite koefs_eq by assumption. cbn [bind].
  unfold e_z_at. run. fin i k.
Qed.
Lemma reg_step i k s : 0 <= i < nr -> 0 <= k < nz -> einv s ->
  exists s', e_regular g t j eps sg i k s = Ok s' /\ einv s' /\
  forall x a b, eview s' x a b = if (a =? i) && (b =? k) then new_reg i k (fun y => eview s y i k) x else eview s x a b.
Proof.
  intros Hi Hk Is. pose proof Is as Is'. unfold einv in Is'. sep Ft. sep Fj. sep Is'. unfold e_regular. rewrite koefs_eq by assumption. cbn [bind].
  unfold e_r_at, e_phi_at, e_z_at. run. fin i k.
Qed.

(** which formula a cell gets *)
Definition lo_r : Z := if g_w0 g then 1 else 0.
Definition lo_z : Z := if g_w1 g then 1 else 0.
Definition hi_r : Z := if g_w2 g then nr - 1 else nr.
Definition hi_z : Z := if g_w3 g then nz - 1 else nz.
Definition e_cell (i k : Z) (old : comp -> R) (x : comp) : R :=
  if (lo_r <=? i) && (i <? hi_r) && (lo_z <=? k) && (k <? hi_z) then new_reg i k old x
  else if g_w1 g && (k =? 0) && (lo_r <=? i) && (i <? hi_r) then new_left i k old x
  else if g_w0 g && (i =? 0) && (lo_z <=? k) && (k <? hi_z) then new_axis i k old x
  else old x.
Lemma calc_field_e_spec e : fits3 nr nz e -> 1 <= nr < 2 ^ 32 -> 1 <= nz < 2 ^ 32 ->
  exists e', calc_field_e g t j eps sg e = Ok e' /\ fits3 nr nz e' /\
  (forall c i k, 0 <= i < nr -> 0 <= k < nz -> lv (getc c e') i k = e_cell i k (fun y => lv (getc y e) i k) c) /\
  (forall c i k, inw nr nz i k -> ~ (0 <= i < nr /\ 0 <= k < nz) -> lv (getc c e') i k = 0%R).
Proof.
  intros Fe Hnr Hnz. destruct (overlay_set3_eq nr nz e Fe) as (e0 & E0 & Fe0 & V0).
  unfold calc_field_e. rewrite E0. cbn [bind].
  assert (Br : r_begin g = lo_r /\ r_end g = hi_r /\ z_begin g = lo_z /\ z_end g = hi_z).
  { unfold r_begin, r_end, z_begin, z_end, lo_r, hi_r, lo_z, hi_z. change (g_nr g) with nr. change (g_nz g) with nz.
    rewrite !u32_small by lia. tauto. }
  destruct Br as (-> & -> & -> & ->).
  assert (Lr : 0 <= lo_r) by (unfold lo_r; destruct (g_w0 g); lia).
  assert (Lz : 0 <= lo_z) by (unfold lo_z; destruct (g_w1 g); lia).
  assert (Ur : hi_r <= nr) by (unfold hi_r; destruct (g_w2 g); lia).
  assert (Uz : hi_z <= nz) by (unfold hi_z; destruct (g_w3 g); lia).
  assert (A : exists e1, (if g_w0 g then for_to lo_z hi_z (fun k => e_axis g t j eps sg 0 k) e0 else Ok e0) = Ok e1 /\ einv e1 /\
    forall x a b, eview e1 x a b = if g_w0 g && (a =? 0) && (lo_z <=? b) && (b <? hi_z) then new_axis a b (fun y => eview e0 y a b) x else eview e0 x a b).
  { destruct (g_w0 g).
    - cbn [andb]. apply (nest_row eview einv new_axis) with (r0 := 0) (r1 := nr) (body := e_axis g t j eps sg).
      + intros i k f f' [] Hf; cbn [new_axis]; now rewrite ?Hf.
      + intros; apply axis_step; auto; lia.
      + lia.
      + assumption.
    - exists e0. split; [reflexivity|]. split; [assumption|]. reflexivity. }
  destruct A as (e1 & E1 & I1 & V1). rewrite E1. cbn [bind].
  assert (A : exists e2, (if g_w1 g then for_to lo_r hi_r (fun i => e_left g t j eps sg i 0) e1 else Ok e1) = Ok e2 /\ einv e2 /\
    forall x a b, eview e2 x a b = if g_w1 g && (b =? 0) && (lo_r <=? a) && (a <? hi_r) then new_left a b (fun y => eview e1 y a b) x else eview e1 x a b).
  { destruct (g_w1 g).
    - cbn [andb].
      destruct (nest_row (fun s x a b => eview s x b a) einv (fun i k => new_left k i)) with (r0 := 0) (r1 := nz) (c0 := lo_r) (c1 := hi_r)
        (body := fun k i => e_left g t j eps sg i k) (i := 0) (s := e1) as (e2 & E2 & I2 & V2).
      + intros i k f f' [] Hf; cbn [new_left]; now rewrite ?Hf.
      + intros i k s Hi Hk Is. destruct (left_step k i s ltac:(lia) ltac:(lia) Is) as (s' & Es & Is' & Vs). exists s'. split; [exact Es|]. split; [exact Is'|].
        intros x a b. rewrite Vs. now rewrite andb_comm.
      + lia.
      + exact I1.
      + exists e2. split; [exact E2|]. split; [exact I2|]. intros x a b. apply V2.
    - exists e1. split; [reflexivity|]. split; [assumption|]. reflexivity. }
  destruct A as (e2 & E2 & I2 & V2). rewrite E2. cbn [bind].
  destruct (nest eview einv new_reg) with (r0 := lo_r) (r1 := hi_r) (c0 := lo_z) (c1 := hi_z) (body := e_regular g t j eps sg) (s := e2) as (e3 & E3 & I3 & V3).
  { intros i k f f' [] Hf; cbn [new_reg]; now rewrite ?Hf. }
  { intros; apply reg_step; auto; lia. }
  { exact I2. }
  exists e3. split; [exact E3|]. split; [exact I3|].
  assert (NE : (forall i k f f' x, (forall y, f y = f' y) -> new_reg i k f x = new_reg i k f' x) /\
               (forall i k f f' x, (forall y, f y = f' y) -> new_left i k f x = new_left i k f' x) /\
               (forall i k f f' x, (forall y, f y = f' y) -> new_axis i k f x = new_axis i k f' x)).
  { repeat split; intros i k f f' [] Hf; cbn [new_reg new_left new_axis]; now rewrite ?Hf. }
  destruct NE as (N1 & N2 & N3).
  assert (D1 : g_w0 g = true -> lo_r = 1) by (intros Hq; unfold lo_r; now rewrite Hq).
  assert (D2 : g_w1 g = true -> lo_z = 1) by (intros Hq; unfold lo_z; now rewrite Hq).
  split.
  - intros c i k Hi Hk. change (lv (getc c e3) i k) with (eview e3 c i k).
    assert (O : forall y, eview e0 y i k = lv (getc y e) i k).
    { intros y. unfold eview. rewrite V0 by (unfold inw; lia). now replace (_ && _ && _ && _) with true by lia. }
    unfold e_cell. rewrite V3. destruct ((lo_r <=? i) && (i <? hi_r) && (lo_z <=? k) && (k <? hi_z)) eqn:B1.
    + apply N1. intros y. rewrite V2. replace (g_w1 g && (k =? 0) && (lo_r <=? i) && (i <? hi_r)) with false by lia.
      rewrite V1. replace (g_w0 g && (i =? 0) && (lo_z <=? k) && (k <? hi_z)) with false by lia. apply O.
    + rewrite V2. destruct (g_w1 g && (k =? 0) && (lo_r <=? i) && (i <? hi_r)) eqn:B2.
      * apply N2. intros y. rewrite V1. replace (g_w0 g && (i =? 0) && (lo_z <=? k) && (k <? hi_z)) with false by lia. apply O.
      * rewrite V1. destruct (g_w0 g && (i =? 0) && (lo_z <=? k) && (k <? hi_z)); [apply N3; exact O|apply O].
  - intros c i k Hw Hn. change (lv (getc c e3) i k) with (eview e3 c i k).
    rewrite V3. replace ((lo_r <=? i) && (i <? hi_r) && (lo_z <=? k) && (k <? hi_z)) with false by lia.
    rewrite V2. replace (g_w1 g && (k =? 0) && (lo_r <=? i) && (i <? hi_r)) with false by lia.
    rewrite V1. replace (g_w0 g && (i =? 0) && (lo_z <=? k) && (k <? hi_z)) with false by lia.
    unfold eview. rewrite V0 by exact Hw. now replace (_ && _ && _ && _) with false by lia.
Qed.
End E.
