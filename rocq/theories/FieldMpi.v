(** Proofs about the field solver on several ranks. *)
From Coq Require Import ZifyBool Reals Lra Permutation.
From Verif Require Import Base GridModel GridProofs CollectorModel OverlayModel OverlayConc OverlaySum OverlayPass ThmOverlay YeeModel YeeProofs ThmYee YeeSmb ThmYeeSmb SmbCorner
  MpiModel MpiNet MpiData MpiExchange ThmMpi FieldMpiModel.
Open Scope Z_scope.

(** ** the exchange keeps the sizes of the grids *)
Section Shape.
Context {T : Type}.
Variable add : T -> T -> T.
Variable zero : T.
Lemma op_assign_shape (a b : grid T) x y v : op_assign add a x y v = Ok b -> same_shape a b.
Proof using.
  unfold op_assign, rd, wr. destruct (inb _ _ _); cbn [bind]; [|discriminate]. intros [= <-]. now repeat split.
Qed.
Lemma put_shape (g h : grid3 T) k hk hk' : 0 <= k < 3 -> shape3 g h -> component h k = Ok hk -> same_shape hk hk' -> shape3 g (put_comp h k hk').
Proof using.
  intros Hk S E S' k' Hk'. rewrite compk_put by auto. rewrite component_compk in E by auto. injection E as <-.
  destruct (k' =? k) eqn:Ek; [|now apply S]. assert (k' = k) by lia. subst k'. eapply same_shape_trans; [apply S; auto|exact S'].
Qed.
Lemma unpack_minus_shape m g h : unpack_minus add m g = Ok h -> shape3 g h.
Proof using.
  unfold unpack_minus. apply (for_partial (fun x => shape3 g x)); [|apply shape3_refl].
  intros j t t' _ Ht. apply (for_partial (fun x => shape3 g x)); [|exact Ht].
  intros c u u' _ Hu. apply (for_partial (fun x => shape3 g x)); [|exact Hu].
  intros k w w' Hk Hw. destruct (take m c k (j + os (c_r g))) as [v| |]; cbn [bind]; try discriminate.
  destruct (component w k) as [hk| |] eqn:Ec; cbn [bind]; try discriminate.
  destruct (op_assign add hk _ _ v) as [hk'| |] eqn:Eo; cbn [bind]; try discriminate. intros [= <-].
  eapply put_shape; eauto. eapply op_assign_shape; eauto.
Qed.
Lemma unpack_plus_shape m g h : unpack_plus add m g = Ok h -> shape3 g h.
Proof using.
  unfold unpack_plus. apply (for_partial (fun x => shape3 g x)); [|apply shape3_refl].
  intros j t t' _ Ht. apply (for_partial (fun x => shape3 g x)); [|exact Ht].
  intros c u u' _ Hu. apply (for_partial (fun x => shape3 g x)); [|exact Hu].
  intros k w w' Hk Hw. destruct (take m (3 - c) k (j + os (c_r g))) as [v| |]; cbn [bind]; try discriminate.
  destruct (component w k) as [hk| |] eqn:Ec; cbn [bind]; try discriminate.
  destruct (op_assign add hk _ _ v) as [hk'| |] eqn:Eo; cbn [bind]; try discriminate. intros [= <-].
  eapply put_shape; eauto. eapply op_assign_shape; eauto.
Qed.
Lemma shape3_trans (a b c : grid3 T) : shape3 a b -> shape3 b c -> shape3 a c.
Proof using. intros H1 H2 k Hk. eapply same_shape_trans; [apply H1|apply H2]; auto. Qed.
Lemma unpack_all_shape f col l : (forall m g h, f m g = Ok h -> shape3 g h) ->
  forall (m m' : doms (grid3 T)), unpack_all f col l m = Ok m' -> forall q, shape3 (m q) (m' q).
Proof using.
  intros Hf. induction l as [|a l IH]; intros m m'; cbn [unpack_all].
  - intros [= <-] q. apply shape3_refl.
  - destruct (f a (m (mdst a, col))) as [h| |] eqn:E; cbn [bind]; try discriminate. intros E' q.
    eapply shape3_trans; [|apply (IH _ _ E')]. assert (D : q = (mdst a, col) \/ q <> (mdst a, col)).
    { destruct q as [q1 q2]. destruct (Z.eq_dec q1 (mdst a)) as [->|N]; [destruct (Z.eq_dec q2 col) as [->|N]; [now left|]|]; right; congruence. }
    destruct D as [->|N].
    + rewrite updp_eq. eapply Hf; eauto.
    + rewrite updp_ne by auto. apply shape3_refl.
Qed.
Lemma exchanged_shape K W R C st st' : exchanged add zero K W R C st st' -> forall p q, 0 <= p < W -> shape3 (st p q) (st' p q).
Proof using.
  intros (plus & minus & _ & s & _ & _ & Hu) p q Hp. specialize (Hu p Hp).
  destruct (if 0 <? p then _ else _) as [a| |] eqn:E1; cbn [bind] in Hu; try discriminate.
  assert (S1 : shape3 (st p q) (a q)).
  { destruct (0 <? p); [|injection E1 as <-; apply shape3_refl]. eapply unpack_all_shape; [|exact E1]. apply unpack_minus_shape. }
  eapply shape3_trans; [exact S1|].
  destruct (p <? W - 1); [|injection Hu as <-; apply shape3_refl]. eapply unpack_all_shape; [|exact Hu]. apply unpack_plus_shape.
Qed.
End Shape.

(** ** the values after stitching between domains and between ranks *)
Section Ranks.
Variables W R C s : Z.
Hypothesis HW : 1 <= W.
Hypothesis HR : 1 <= R.
Hypothesis HC : 1 <= C.
Hypothesis Hs : 4 <= s.
Hypothesis HsL : s + 4 < 2 ^ 32.

(** specification: rank by rank, the cells of the domains are the cells of the big grid *)
Definition rank_fit (m : Z -> doms (grid3 Rdefinitions.R)) : Prop := forall p, 0 <= p < W -> all_fit R C s (m p).
Definition rank_inner (m : Z -> doms (grid3 Rdefinitions.R)) (G : grid3 Rdefinitions.R) : Prop :=
  forall p i j c x y, 0 <= p < W -> 0 <= i < R -> 0 <= j < C -> 0 <= x < s -> 0 <= y < s ->
  lv (getc c (m p (i, j))) x y = lv (getc c G) (i * s + x) ((p * C + j) * s + y).
(** ... and so are the ghost cells, except the corner blocks *)
Definition rank_agrees (m : Z -> doms (grid3 Rdefinitions.R)) (G : grid3 Rdefinitions.R) : Prop :=
  forall p i j c x y, 0 <= p < W -> 0 <= i < R -> 0 <= j < C ->
  (0 <= x < s /\ -2 <= y < s + 2) \/ (-2 <= x < s + 2 /\ 0 <= y < s) ->
  lv (getc c (m p (i, j))) x y = lv (getc c G) (i * s + x) ((p * C + j) * s + y).
(** the ghost column at a border between two ranks *)
Definition rank_border (p j y : Z) : Prop := (j = 0 /\ 0 < p /\ y < 0) \/ (j = C - 1 /\ p < W - 1 /\ s <= y).
(** ... except those at the borders between ranks, which hold zero *)
Definition rank_agrees_inside (m : Z -> doms (grid3 Rdefinitions.R)) (G : grid3 Rdefinitions.R) : Prop :=
  forall p i j c x y, 0 <= p < W -> 0 <= i < R -> 0 <= j < C ->
  (0 <= x < s /\ -2 <= y < s + 2) \/ (-2 <= x < s + 2 /\ 0 <= y < s) ->
  (~ rank_border p j y -> lv (getc c (m p (i, j))) x y = lv (getc c G) (i * s + x) ((p * C + j) * s + y)) /\
  (rank_border p j y -> lv (getc c (m p (i, j))) x y = 0%R).

(** the same with the corner blocks of the ghost cells, except those of the second diagonal between domains of one rank *)
Definition rank_all (m : Z -> doms (grid3 Rdefinitions.R)) (G : grid3 Rdefinitions.R) : Prop :=
  forall p i j c x y, 0 <= p < W -> 0 <= i < R -> 0 <= j < C -> inw s s x y -> ~ skew R C s i j x y ->
  lv (getc c (m p (i, j))) x y = lv (getc c G) (i * s + x) ((p * C + j) * s + y).
Definition rank_all_inside (m : Z -> doms (grid3 Rdefinitions.R)) (G : grid3 Rdefinitions.R) : Prop :=
  forall p i j c x y, 0 <= p < W -> 0 <= i < R -> 0 <= j < C -> inw s s x y -> ~ skew R C s i j x y -> ~ rank_border p j y ->
  lv (getc c (m p (i, j))) x y = lv (getc c G) (i * s + x) ((p * C + j) * s + y).

(** the part of rank [p] of the big grid *)
Definition part (p : Z) (G : grid3 Rdefinitions.R) : grid3 Rdefinitions.R :=
  let f c := new_grid (R * s) (C * s) 2 (fun a b =>
    if (2 <=? a) && (a <? R * s + 2) && (2 <=? b) && (b <? C * s + 2) then lv (getc c G) (a - 2) (p * C * s + (b - 2)) else 0%R) in
  mkGrid3 (f Cr) (f Cphi) (f Cz).
Lemma part_lv p G c x y : lv (getc c (part p G)) x y =
  if (0 <=? x) && (x <? R * s) && (0 <=? y) && (y <? C * s) then lv (getc c G) x (p * C * s + y) else 0%R.
Proof using.
  assert (E : lv (getc c (part p G)) x y = if (2 <=? x + 2) && (x + 2 <? R * s + 2) && (2 <=? y + 2) && (y + 2 <? C * s + 2)
    then lv (getc c G) (x + 2 - 2) (p * C * s + (y + 2 - 2)) else 0%R) by (destruct c; reflexivity).
  rewrite E. replace ((2 <=? x + 2) && (x + 2 <? R * s + 2) && (2 <=? y + 2) && (y + 2 <? C * s + 2)) with ((0 <=? x) && (x <? R * s) && (0 <=? y) && (y <? C * s)) by lia.
  now rewrite !Z.add_simpl_r.
Qed.
Lemma part_fits p G : R * s + 4 < 2 ^ 32 -> C * s + 4 < 2 ^ 32 -> fits3 (R * s) (C * s) (part p G).
Proof using HR HC Hs. intros H1 H2 c. destruct c; (split; [apply new_grid_wf; nia|repeat split]). Qed.

Variable G : grid3 Rdefinitions.R.
Hypothesis FG : fits3 (R * s) (W * C * s) G.
Hypothesis GG : ghost0 (R * s) (W * C * s) G.
Lemma sizes_G : R * s + 4 < 2 ^ 32 /\ C * s + 4 < 2 ^ 32.
Proof using FG HW HC Hs. destruct (FG Cr) as ((_ & _ & _ & E1 & E2 & L1 & L2) & Eo & Ex & Ey). rewrite Eo, Ex, Ey in *. clear - E1 E2 L1 L2 HW HC Hs. split; nia. Qed.

Variable m : Z -> doms (grid3 Rdefinitions.R).
Hypothesis Fm : rank_fit m.
Hypothesis Im : rank_inner m G.
Hypothesis Gm : forall p i j, 0 <= p < W -> 0 <= i < R -> 0 <= j < C -> ghost0 s s (m p (i, j)).

Lemma rank_stitch p : 0 <= p < W -> exists m', pass3 Rplus R C (m p) = Ok m' /\ all_fit R C s m' /\ agrees R C s m' (part p G) /\ matches R C s m' (part p G).
Proof using FG Fm Im Gm HW HR HC Hs HsL.
  intros Hp. destruct sizes_G as [Z1 Z2].
  assert (I : inner_agrees R C s (m p) (part p G)).
  { intros i j c x y Hi Hj Hx Hy. rewrite (Im p i j c x y Hp Hi Hj Hx Hy), part_lv.
    replace ((0 <=? i * s + x) && (i * s + x <? R * s) && (0 <=? j * s + y) && (j * s + y <? C * s)) with true.
    - f_equal; ring.
    - symmetry. assert (0 <= i * s + x < R * s) by nia. assert (0 <= j * s + y < C * s) by nia. lia. }
  assert (O : ghost0 (R * s) (C * s) (part p G)).
  { intros c x y _ N. rewrite part_lv. replace (_ && _) with false by lia. reflexivity. }
  destruct (stitch R C s HR HC Hs HsL (m p) (part p G) (Fm p Hp) (part_fits p G Z1 Z2) I (fun i j Hi Hj => Gm p i j Hp Hi Hj) O) as (m' & E & F' & A').
  exists m'. split; [exact E|]. split; [exact F'|]. split; [exact A'|].
  apply (stitch_corners R C s HR HC Hs HsL (m p)); auto. now apply part_fits.
Qed.

Lemma pass_rank_inside (m1 : Z -> doms (grid3 Rdefinitions.R)) : (forall p, 0 <= p < W -> pass3 Rplus R C (m p) = Ok (m1 p)) ->
  rank_fit m1 /\ rank_agrees_inside m1 G.
Proof using FG GG Fm Im Gm HW HR HC Hs HsL.
  intros E. split.
  - intros p Hp. destruct (rank_stitch p Hp) as (m' & E' & F' & _). rewrite (E p Hp) in E'. injection E' as ->. exact F'.
  - intros p i j c x y Hp Hi Hj Hxy. destruct (rank_stitch p Hp) as (m' & E' & _ & A' & _). rewrite (E p Hp) in E'. injection E' as ->.
    rewrite (A' i j c x y Hi Hj Hxy), part_lv. split.
    + intros N. destruct (_ && _) eqn:B.
      * f_equal; ring.
      * assert (Q1 : 0 <= i * s) by nia. assert (Q2 : i * s + s <= R * s) by nia. assert (Q3 : 0 <= p * C + j) by nia.
        assert (Q4 : p * C + j + 1 <= W * C) by nia. assert (Q5 : 0 <= (p * C + j) * s) by nia. assert (Q6 : (p * C + j) * s + s <= W * C * s) by nia.
        symmetry. apply GG; [unfold inw; lia|]. unfold rank_border in N. intros [B1 B2].
        assert (D : ~ (0 <= j * s + y < C * s)) by lia. apply D. clear B D.
        assert (K1 : 0 <= p * C) by nia.
        split.
        -- destruct (Z_lt_dec y 0) as [Y|Y]; [|nia]. destruct (Z.eq_dec j 0) as [->|J]; [|nia]. assert (p = 0) by lia. subst p. lia.
        -- destruct (Z_le_dec s y) as [Y|Y]; [|nia]. destruct (Z.eq_dec j (C - 1)) as [->|J]; [|nia]. assert (p = W - 1) by lia. subst p. nia.
    + intros N. destruct (_ && _) eqn:B; [|reflexivity]. exfalso. unfold rank_border in N. clear - N B Hs Hj. nia.
Qed.

Lemma pass_rank_all (m1 : Z -> doms (grid3 Rdefinitions.R)) : (forall p, 0 <= p < W -> pass3 Rplus R C (m p) = Ok (m1 p)) -> rank_all_inside m1 G.
Proof using FG GG Fm Im Gm HW HR HC Hs HsL.
  intros E p i j c x y Hp Hi Hj Hw Sk N. destruct (rank_stitch p Hp) as (m' & E' & _ & _ & M). rewrite (E p Hp) in E'. injection E' as ->.
  destruct (M i j c x y Hi Hj Hw) as [M1 _]. rewrite M1 by exact Sk. rewrite part_lv. unfold inw in Hw. destruct (_ && _) eqn:B; [f_equal; ring|].
  assert (Q1 : 0 <= i * s) by nia. assert (Q2 : i * s + s <= R * s) by nia. assert (Q3 : 0 <= p * C + j) by nia.
  assert (Q4 : p * C + j + 1 <= W * C) by nia. assert (Q5 : 0 <= (p * C + j) * s) by nia. assert (Q6 : (p * C + j) * s + s <= W * C * s) by nia.
  symmetry. apply GG; [unfold inw; lia|]. unfold rank_border in N. intros [B1 B2].
  assert (D : ~ (0 <= j * s + y < C * s)) by lia. apply D. clear B D M M1 Sk.
  assert (K1 : 0 <= p * C) by nia.
  split.
  - destruct (Z_lt_dec y 0) as [Y|Y]; [|nia]. destruct (Z.eq_dec j 0) as [->|J]; [|nia]. assert (p = 0) by lia. subst p. lia.
  - destruct (Z_le_dec s y) as [Y|Y]; [|nia]. destruct (Z.eq_dec j (C - 1)) as [->|J]; [|nia]. assert (p = W - 1) by lia. subst p. nia.
Qed.

Lemma compk_getc (f : grid3 Rdefinitions.R) c : getc c f = compk f (match c with Cr => 0 | Cphi => 1 | Cz => 2 end).
Proof using. now destruct c. Qed.

(** all the ghost cells at a border between ranks hold zero before the exchange, the corner blocks included *)
Lemma pass_border_zero m1 : (forall p, 0 <= p < W -> pass3 Rplus R C (m p) = Ok (m1 p)) ->
  forall p i j c x y, 0 <= p < W -> 0 <= i < R -> 0 <= j < C -> inw s s x y -> (j = 0 /\ y < 0) \/ (j = C - 1 /\ s <= y) -> lv (getc c (m1 p (i, j))) x y = 0%R.
Proof using FG Fm Im Gm HW HR HC Hs HsL.
  intros E p i j c x y Hp Hi Hj Hw B. destruct (rank_stitch p Hp) as (m' & E' & _ & _ & M). rewrite (E p Hp) in E'. injection E' as ->.
  destruct (M i j c x y Hi Hj Hw) as [M1 M2].
  assert (D : skew R C s i j x y \/ ~ skew R C s i j x y) by (unfold skew; lia). destruct D as [D|D]; [now apply M2|].
  rewrite M1 by exact D. rewrite part_lv. replace (_ && _) with false; [reflexivity|].
  symmetry. destruct B as [[-> B]|[-> B]]; [lia|]. assert ((C - 1) * s + y >= C * s) by nia. lia.
Qed.
Lemma exchange_agrees K (m1 m2 : Z -> doms (grid3 Rdefinitions.R)) : (forall p, 0 <= p < W -> pass3 Rplus R C (m p) = Ok (m1 p)) ->
  exchanged Rplus 0%R K W R C m1 m2 -> rank_fit m2 /\ rank_agrees m2 G.
Proof using FG GG Fm Im Gm HW HR HC Hs HsL.
  intros E X. destruct (pass_rank_inside m1 E) as [F1 A1]. assert (Z1 := pass_border_zero m1 E).
  assert (Rd : ready W R C (s + 4) (s + 4) m1).
  { intros p i j Hp Hi Hj. specialize (F1 p Hp i j Hi Hj).
    destruct (F1 Cr) as (Wr & Or & Xr & Yr). destruct (F1 Cphi) as (Wp & Op & Xp & Yp). destruct (F1 Cz) as (Wz & Oz & Xz & Yz). cbn [getc] in *.
    assert (Sz : forall f : grid Rdefinitions.R, wf f -> os f = 2 -> xs f = s -> ys f = s -> xr f = s + 4 /\ yr f = s + 4) by (intros f (_ & _ & _ & E1 & E2 & _) ? ? ?; lia).
    destruct (Sz _ Wr Or Xr Yr). destruct (Sz _ Wp Op Xp Yp). destruct (Sz _ Wz Oz Xz Yz).
    split; [|split; assumption]. split; [exact Wr|]. split; unfold same_shape; repeat split; congruence. }
  assert (F2 : rank_fit m2).
  { intros p Hp i j Hi Hj c. assert (Sh := exchanged_shape Rplus 0%R K W R C m1 m2 X p (i, j) Hp). specialize (F1 p Hp i j Hi Hj c). rewrite compk_getc in *.
    destruct F1 as (Wf & F1). set (k := match c with Cr => 0 | Cphi => 1 | Cz => 2 end) in *. assert (Hk : 0 <= k < 3) by (unfold k; destruct c; lia).
    specialize (Sh k Hk). split; [eapply same_shape_wf; eauto|]. destruct Sh as (S1 & S2 & S3 & S4 & S5). repeat split; lia. }
  split; [exact F2|]. intros p i j c x y Hp Hi Hj Hxy.
  assert (Hw : inw s s x y) by (unfold inw; lia).
  assert (V := exchanged_values Rplus 0%R W R C (s + 4) (s + 4) HC ltac:(lia) m1 Rd ltac:(lia) K m2 X p i j (match c with Cr => 0 | Cphi => 1 | Cz => 2 end) (x + 2) (y + 2) Hp ltac:(destruct c; lia)).
  assert (O1 : forall p i j, 0 <= p < W -> 0 <= i < R -> 0 <= j < C -> os (getc c (m1 p (i, j))) = 2) by (intros p' i' j' Hp' Hi' Hj'; apply (F1 p' Hp' i' j' Hi' Hj')).
  assert (Rv : forall p i j x y, 0 <= p < W -> 0 <= i < R -> 0 <= j < C -> cell (getc c (m1 p (i, j))) (x + 2) (y + 2) = lv (getc c (m1 p (i, j))) x y).
  { intros p' i' j' x' y' Hp' Hi' Hj'. unfold lv. now rewrite O1. }
  assert (L2 : lv (getc c (m2 p (i, j))) x y = cell (getc c (m2 p (i, j))) (x + 2) (y + 2)) by (unfold lv; now rewrite (proj1 (proj2 (F2 p Hp i j Hi Hj c)))).
  rewrite L2, compk_getc, V. unfold want. clear V L2 X.
  replace ((0 <=? i) && (i <? R) && (0 <=? x + 2) && (x + 2 <? s + 4)) with true by (unfold inw in Hw; lia).
  rewrite <- !compk_getc.
  destruct ((0 <? p) && (j =? 0) && (0 <=? y + 2) && (y + 2 <? 4)) eqn:B1.
  { assert (j = 0) by lia. subst j. rewrite Rv by auto. replace (s + 4 - 4 + (y + 2)) with (s + y + 2) by lia. rewrite Rv by lia.
    destruct (Z_lt_dec y 0) as [Y|Y].
    - rewrite (Z1 p i 0 c x y) by (auto; lia).
      destruct (A1 (p - 1) i (C - 1) c x (s + y)) as [A _]; try lia. rewrite A by (unfold rank_border; lia). rewrite Rplus_0_l. f_equal; ring.
    - rewrite (Z1 (p - 1) i (C - 1) c x (s + y)) by (unfold inw in *; auto; lia).
      destruct (A1 p i 0 c x y) as [A _]; try lia. rewrite A by (unfold rank_border; lia). apply Rplus_0_r. }
  destruct ((p <? W - 1) && (j =? C - 1) && (s + 4 - 4 <=? y + 2) && (y + 2 <? s + 4)) eqn:B2.
  { assert (j = C - 1) by lia. subst j. rewrite Rv by auto. replace (y + 2 - (s + 4 - 4)) with (y - s + 2) by lia. rewrite Rv by lia.
    destruct (Z_le_dec s y) as [Y|Y].
    - rewrite (Z1 p i (C - 1) c x y) by (auto; lia).
      destruct (A1 (p + 1) i 0 c x (y - s)) as [A _]; try lia. rewrite A by (unfold rank_border; lia). rewrite Rplus_0_l. f_equal; ring.
    - rewrite (Z1 (p + 1) i 0 c x (y - s)) by (unfold inw in *; auto; lia).
      destruct (A1 p i (C - 1) c x y) as [A _]; try lia. rewrite A by (unfold rank_border; lia). apply Rplus_0_r. }
  rewrite Rv by auto. destruct (A1 p i j c x y Hp Hi Hj Hxy) as [A _]. apply A. unfold rank_border, inw in *. lia.
Qed.
Lemma exchange_all K (m1 m2 : Z -> doms (grid3 Rdefinitions.R)) : (forall p, 0 <= p < W -> pass3 Rplus R C (m p) = Ok (m1 p)) ->
  exchanged Rplus 0%R K W R C m1 m2 -> rank_all m2 G.
Proof using FG GG Fm Im Gm HW HR HC Hs HsL.
  intros E X. destruct (pass_rank_inside m1 E) as [F1 _]. assert (Z1 := pass_border_zero m1 E). assert (A2 := pass_rank_all m1 E).
  assert (Rd : ready W R C (s + 4) (s + 4) m1).
  { intros p i j Hp Hi Hj. specialize (F1 p Hp i j Hi Hj).
    destruct (F1 Cr) as (Wr & Or & Xr & Yr). destruct (F1 Cphi) as (Wp & Op & Xp & Yp). destruct (F1 Cz) as (Wz & Oz & Xz & Yz). cbn [getc] in *.
    assert (Sz : forall f : grid Rdefinitions.R, wf f -> os f = 2 -> xs f = s -> ys f = s -> xr f = s + 4 /\ yr f = s + 4) by (intros f (_ & _ & _ & E1 & E2 & _) ? ? ?; lia).
    destruct (Sz _ Wr Or Xr Yr). destruct (Sz _ Wp Op Xp Yp). destruct (Sz _ Wz Oz Xz Yz).
    split; [|split; assumption]. split; [exact Wr|]. split; unfold same_shape; repeat split; congruence. }
  assert (F2 : rank_fit m2).
  { intros p Hp i j Hi Hj c. assert (Sh := exchanged_shape Rplus 0%R K W R C m1 m2 X p (i, j) Hp). specialize (F1 p Hp i j Hi Hj c). rewrite compk_getc in *.
    destruct F1 as (Wf & F1). set (k := match c with Cr => 0 | Cphi => 1 | Cz => 2 end) in *. assert (Hk : 0 <= k < 3) by (unfold k; destruct c; lia).
    specialize (Sh k Hk). split; [eapply same_shape_wf; eauto|]. destruct Sh as (S1 & S2 & S3 & S4 & S5). repeat split; lia. }
  intros p i j c x y Hp Hi Hj Hw Sk.
  assert (V := exchanged_values Rplus 0%R W R C (s + 4) (s + 4) HC ltac:(lia) m1 Rd ltac:(lia) K m2 X p i j (match c with Cr => 0 | Cphi => 1 | Cz => 2 end) (x + 2) (y + 2) Hp ltac:(destruct c; lia)).
  assert (O1 : forall p i j, 0 <= p < W -> 0 <= i < R -> 0 <= j < C -> os (getc c (m1 p (i, j))) = 2) by (intros p' i' j' Hp' Hi' Hj'; apply (F1 p' Hp' i' j' Hi' Hj')).
  assert (Rv : forall p i j x y, 0 <= p < W -> 0 <= i < R -> 0 <= j < C -> cell (getc c (m1 p (i, j))) (x + 2) (y + 2) = lv (getc c (m1 p (i, j))) x y).
  { intros p' i' j' x' y' Hp' Hi' Hj'. unfold lv. now rewrite O1. }
  assert (L2 : lv (getc c (m2 p (i, j))) x y = cell (getc c (m2 p (i, j))) (x + 2) (y + 2)) by (unfold lv; now rewrite (proj1 (proj2 (F2 p Hp i j Hi Hj c)))).
  rewrite L2, compk_getc, V. unfold want. clear V L2 X.
  replace ((0 <=? i) && (i <? R) && (0 <=? x + 2) && (x + 2 <? s + 4)) with true by (unfold inw in Hw; lia).
  rewrite <- !compk_getc.
  destruct ((0 <? p) && (j =? 0) && (0 <=? y + 2) && (y + 2 <? 4)) eqn:B1.
  { assert (j = 0) by lia. subst j. rewrite Rv by auto. replace (s + 4 - 4 + (y + 2)) with (s + y + 2) by lia. rewrite Rv by lia.
    destruct (Z_lt_dec y 0) as [Y|Y].
    - rewrite (Z1 p i 0 c x y) by (auto; lia).
      rewrite (A2 (p - 1) i (C - 1) c x (s + y)) by (unfold rank_border, skew, inw in *; lia). rewrite Rplus_0_l. f_equal; ring.
    - rewrite (Z1 (p - 1) i (C - 1) c x (s + y)) by (unfold inw in *; auto; lia).
      rewrite (A2 p i 0 c x y) by (unfold rank_border, skew, inw in *; lia). apply Rplus_0_r. }
  destruct ((p <? W - 1) && (j =? C - 1) && (s + 4 - 4 <=? y + 2) && (y + 2 <? s + 4)) eqn:B2.
  { assert (j = C - 1) by lia. subst j. rewrite Rv by auto. replace (y + 2 - (s + 4 - 4)) with (y - s + 2) by lia. rewrite Rv by lia.
    destruct (Z_le_dec s y) as [Y|Y].
    - rewrite (Z1 p i (C - 1) c x y) by (auto; lia).
      rewrite (A2 (p + 1) i 0 c x (y - s)) by (unfold rank_border, skew, inw in *; lia). rewrite Rplus_0_l. f_equal; ring.
    - rewrite (Z1 (p + 1) i 0 c x (y - s)) by (unfold inw in *; auto; lia).
      rewrite (A2 p i (C - 1) c x y) by (unfold rank_border, skew, inw in *; lia). apply Rplus_0_r. }
  rewrite Rv by auto. apply A2; auto. unfold rank_border, inw in *. lia.
Qed.
(** ... and the exchange can take place *)
Lemma exchange_possible K (m1 : Z -> doms (grid3 Rdefinitions.R)) : (forall p, 0 <= p < W -> pass3 Rplus R C (m p) = Ok (m1 p)) -> (Z.to_nat R <= K)%nat ->
  exists m2, exchanged Rplus 0%R K W R C m1 m2.
Proof using FG GG Fm Im Gm HW HR HC Hs HsL.
  intros E HK. destruct (pass_rank_inside m1 E) as [F1 _].
  apply (C13_takes_place Rdefinitions.R Rplus 0%R K W R C (s + 4) (s + 4)); try lia.
  intros p i j Hp Hi Hj. specialize (F1 p Hp i j Hi Hj).
  destruct (F1 Cr) as (Wr & Or & Xr & Yr). destruct (F1 Cphi) as (Wp & Op & Xp & Yp). destruct (F1 Cz) as (Wz & Oz & Xz & Yz). cbn [getc] in *.
  assert (Sz : forall f : grid Rdefinitions.R, wf f -> os f = 2 -> xs f = s -> ys f = s -> xr f = s + 4 /\ yr f = s + 4) by (intros f (_ & _ & _ & E1 & E2 & _) ? ? ?; lia).
  destruct (Sz _ Wr Or Xr Yr). destruct (Sz _ Wp Op Xp Yp). destruct (Sz _ Wz Oz Xz Yz).
  split; [|split; assumption]. split; [exact Wr|]. split; unfold same_shape; repeat split; congruence.
Qed.
End Ranks.

(** a value for every rank *)
Lemma choose_list {B} (P : Z -> B -> Prop) n : (exists b : B, True) -> (forall p, 0 <= p < Z.of_nat n -> exists b, P p b) -> exists f, forall p, 0 <= p < Z.of_nat n -> P p (f p).
Proof.
  intros [b0 _]. induction n as [|n IH]; intros H.
  - exists (fun _ => b0). lia.
  - destruct IH as [f Hf]; [intros p Hp; apply H; lia|]. destruct (H (Z.of_nat n) ltac:(lia)) as [b Hb].
    exists (fun p => if p =? Z.of_nat n then b else f p). intros p Hp. destruct (p =? Z.of_nat n) eqn:E; [assert (p = Z.of_nat n) by lia; subst p; exact Hb|apply Hf; lia].
Qed.
Lemma choose_fun W {B} (P : Z -> B -> Prop) : 1 <= W -> (forall p, 0 <= p < W -> exists b, P p b) -> exists f, forall p, 0 <= p < W -> P p (f p).
Proof.
  intros HW H. destruct (choose_list P (Z.to_nat W)) as [f Hf].
  - destruct (H 0 ltac:(lia)) as [b _]. now exists b.
  - intros p Hp. apply H; lia.
  - exists f. intros p Hp. apply Hf. lia.
Qed.

Lemma choose_fun2 W {A B} (P : Z -> A -> B -> Prop) : 1 <= W -> (forall p, 0 <= p < W -> exists a b, P p a b) -> exists f, forall p, 0 <= p < W -> exists a, P p a (f p).
Proof. intros HW H. apply (choose_fun W (fun p b => exists a, P p a b) HW). intros p Hp. destruct (H p Hp) as (a & b & Q). now exists b, a. Qed.

(** ** one step *)
Section Step.
Variable mu : R.
Variable g : geo.
Variables W R C s : Z.
Hypothesis HW : 1 <= W.
Hypothesis HR : 1 <= R.
Hypothesis HC : 1 <= C.
Hypothesis Hs : 4 <= s.
Hypothesis HsL : s + 4 < 2 ^ 32.
Hypothesis Gr : g_nr g = R * s.
Hypothesis Gz : g_nz g = W * C * s.
Hypothesis GrL : g_nr g < 2 ^ 32.
Hypothesis GzL : g_nz g < 2 ^ 32.
Hypothesis G0 : g_d1 g = 0.
Variables eps sg : Z -> doms (grid Rdefinitions.R).
Variables Eps Sg : grid Rdefinitions.R.

(** rank by rank, the dielectric constant, the conductivity and the current are those of the whole area *)
Definition rank_inner2 (a : Z -> doms (grid Rdefinitions.R)) (A : grid Rdefinitions.R) : Prop :=
  fits2 (R * s) (W * C * s) A /\ forall p i j, 0 <= p < W -> 0 <= i < R -> 0 <= j < C -> fits2 s s (a p (i, j)) /\
  forall x y, 0 <= x < s -> 0 <= y < s -> lv (a p (i, j)) x y = lv A (i * s + x) ((p * C + j) * s + y).
Hypothesis Heps : rank_inner2 eps Eps.
Hypothesis Hsg : rank_inner2 sg Sg.
Definition rank_current (j : Z -> doms (grid3 Rdefinitions.R)) (J : grid3 Rdefinitions.R) : Prop :=
  fits3 (R * s) (W * C * s) J /\ rank_fit W R C s j /\ rank_inner W R C s j J.
(** the fields of the ranks are those of the whole area; field_h is not at the borders between ranks *)
Definition rank_fields (st : Z -> doms yee) (y : yee) : Prop :=
  yee_fits g y /\ rank_fit W R C s (fun p q => y_e (st p q)) /\ rank_fit W R C s (fun p q => y_h (st p q)) /\ rank_fit W R C s (fun p q => y_t (st p q)) /\
  rank_agrees W R C s (fun p q => y_e (st p q)) (y_e y) /\ rank_agrees_inside W R C s (fun p q => y_h (st p q)) (y_h y) /\
  rank_agrees W R C s (fun p q => y_t (st p q)) (y_t y).

(** all ranks as one array of domains *)
Definition joined {S} (m : Z -> doms S) : doms S := fun q => m (snd q / C) (fst q, snd q mod C).
Lemma joined_at {S} (m : Z -> doms S) p i j : 0 <= j < C -> joined m (i, p * C + j) = m p (i, j).
Proof using HC.
  intros Hj. unfold joined. cbn [fst snd]. replace ((p * C + j) / C) with p.
  - replace ((p * C + j) mod C) with j; [reflexivity|]. rewrite Z.add_comm, Z.mod_add by lia. now rewrite Z.mod_small.
  - rewrite Z.add_comm, Z.div_add by lia. now rewrite Z.div_small.
Qed.
Lemma split_col j : 0 <= j < W * C -> exists p k, j = p * C + k /\ 0 <= p < W /\ 0 <= k < C.
Proof using HC.
  intros Hj. exists (j / C), (j mod C). assert (A := Z.mod_pos_bound j C ltac:(lia)). assert (B := Z.div_mod j C ltac:(lia)).
  assert (0 <= j / C) by (apply Z.div_pos; lia). assert (j / C < W) by (apply Z.div_lt_upper_bound; lia). lia.
Qed.
Lemma joined_agrees m G : rank_agrees W R C s m G -> agrees R (W * C) s (joined m) G.
Proof using HC.
  intros A i j c x y Hi Hj Hxy. destruct (split_col j Hj) as (p & k & -> & Hp & Hk). rewrite joined_at by auto. now apply A.
Qed.
Lemma joined_inner m G : rank_inner W R C s m G -> inner_agrees R (W * C) s (joined m) G.
Proof using HC.
  intros A i j c x y Hi Hj Hx Hy. destruct (split_col j Hj) as (p & k & -> & Hp & Hk). rewrite joined_at by auto. now apply A.
Qed.
Lemma joined_inner2 a A : rank_inner2 a A -> inner2 R (W * C) s (joined a) A.
Proof using HC.
  intros (F & Q). split; [exact F|]. intros i j Hi Hj. destruct (split_col j Hj) as (p & k & -> & Hp & Hk). rewrite joined_at by auto. now apply Q.
Qed.
(** the domains of a rank have the geometry they have in a run with one process *)
Lemma rank_geo_eq p : 0 <= p < W -> exists gr, rank_geo g W (W * C) p = Ok (gr, C) /\
  forall i j, 0 <= j < C -> dom_geo gr R C s (i, j) = dom_geo g R (W * C) s (i, p * C + j).
Proof using HW HC Hs Gz GzL G0.
  intros Hp. unfold rank_geo, split_geometry. replace (W =? 0) with false by lia. cbn [bind s_cells s_begin s_domains s_wall_l s_wall_r].
  replace (g_nz g / W) with (C * s) by (rewrite Gz; replace (W * C * s) with (C * s * W) by ring; now rewrite Z.div_mul by lia).
  replace (W * C / W) with C by (rewrite (Z.mul_comm W C); now rewrite Z.div_mul by lia).
  eexists. split; [reflexivity|]. intros i j Hj. unfold dom_geo. cbn [fst snd g_d0 g_d1 g_dr g_dz g_w0 g_w1 g_w2 g_w3 g_dt].
  assert (U : u64 (C * s * p) = C * s * p) by (apply u64_small; split; [nia|]; assert (C * s * p <= W * C * s) by nia; lia).
  rewrite U, G0. f_equal; [ring|..].
  - rewrite andb_assoc. f_equal. assert (K : p * C + j = 0 <-> p = 0 /\ j = 0) by nia. clear - K Hp. lia.
  - rewrite andb_assoc. f_equal. assert (K : p * C + j = W * C - 1 <-> p = W - 1 /\ j = C - 1) by nia. clear - K Hp. lia.
Qed.

(** E on the domains of a rank *)
Lemma first_phase j J st y E' : rank_fields st y -> rank_current j J -> calc_field_e g (y_t y) J Eps Sg (y_e y) = Ok E' ->
  (forall x z c, 0 <= x < g_nr g -> 0 <= z < g_nz g -> lv (getc c E') x z = e_cell g (y_t y) J Eps Sg x z (fun u => lv (getc u (y_e y)) x z) c) ->
  forall p, 0 <= p < W -> exists gr m1, rank_geo g W (W * C) p = Ok (gr, C) /\
    each_dom R C (fun q z => do e <- calc_field_e (dom_geo gr R C s q) (y_t z) (j p q) (eps p q) (sg p q) (y_e z); Ok (mkYee e (y_h z) (y_t z))) (st p) = Ok m1 /\
    forall i k, 0 <= i < R -> 0 <= k < C ->
      y_h (m1 (i, k)) = y_h (st p (i, k)) /\ y_t (m1 (i, k)) = y_t (st p (i, k)) /\ fits3 s s (y_e (m1 (i, k))) /\ ghost0 s s (y_e (m1 (i, k))) /\
      forall c a b, 0 <= a < s -> 0 <= b < s -> lv (getc c (y_e (m1 (i, k)))) a b = lv (getc c E') (i * s + a) ((p * C + k) * s + b).
Proof using Gr Gz GrL GzL G0 HW HC HR Hs HsL Heps Hsg.
  intros (_ & Le & Lh & Lt & Ae & _ & At) (FJ & Lj & AJ) EE VE p Hp.
  destruct (rank_geo_eq p Hp) as (gr & Eg & Dg). exists gr.
  destruct (each_dom_spec R C (fun q z => do e <- calc_field_e (dom_geo gr R C s q) (y_t z) (j p q) (eps p q) (sg p q) (y_e z); Ok (mkYee e (y_h z) (y_t z))) (st p)
     (fun q z => y_h z = y_h (st p q) /\ y_t z = y_t (st p q) /\ fits3 s s (y_e z) /\ ghost0 s s (y_e z) /\
        forall c a b, 0 <= a < s -> 0 <= b < s -> lv (getc c (y_e z)) a b = lv (getc c E') (fst q * s + a) ((p * C + snd q) * s + b)))
     as (m1 & Em1 & P1); [lia|lia| |].
  { intros i k Hi Hk. rewrite Dg by auto.
    destruct (calc_field_e_spec (dom_geo g R (W * C) s (i, p * C + k)) (y_t (st p (i, k))) (j p (i, k)) (eps p (i, k)) (sg p (i, k))
                (Lt p Hp i k Hi Hk) (Lj p Hp i k Hi Hk) (proj1 (proj2 Heps p i k Hp Hi Hk)) (proj1 (proj2 Hsg p i k Hp Hi Hk)) (y_e (st p (i, k))) (Le p Hp i k Hi Hk)) as (e' & Ee & Fe' & Ve & Oe);
      [cbn [dom_geo g_nr]; lia|cbn [dom_geo g_nz]; lia|].
    rewrite Ee. cbn [bind]. eexists. split; [reflexivity|]. cbn [y_e y_h y_t]. cbn [dom_geo g_nr g_nz] in Fe', Ve, Oe.
    refine (conj eq_refl (conj eq_refl (conj Fe' (conj Oe _)))).
    intros c a b Ha Hb. cbn [fst snd]. rewrite Ve by lia.
    assert (Q1 : 0 <= i * s + a < g_nr g) by (rewrite Gr; nia).
    assert (Q2 : 0 <= p * C + k < W * C) by nia. assert (Q3 : 0 <= (p * C + k) * s + b < g_nz g) by (rewrite Gz; nia).
    rewrite VE by assumption.
    assert (CE := cell_e g R (W * C) s HR ltac:(nia) Hs HsL Gr Gz GrL GzL (joined eps) (joined sg) Eps Sg (joined_inner2 eps Eps Heps) (joined_inner2 sg Sg Hsg)
      i (p * C + k) a b (joined (fun p q => y_t (st p q))) (y_t y) (joined j) J (joined (fun p q => y_e (st p q))) (y_e y) c Hi Q2 Ha Hb (joined_agrees _ _ At) (joined_inner _ _ AJ)).
    rewrite !joined_at in CE by auto. apply CE. intros c'. apply (Ae p i k c' a b Hp Hi Hk). lia. }
  exists m1. split; [exact Eg|]. split; [exact Em1|]. intros i k Hi Hk. exact (P1 i k Hi Hk).
Qed.

(** H on the domains of a rank *)
Lemma second_phase st y E' H' T' : fits3 (g_nr g) (g_nz g) E' -> calc_field_h mu g E' (y_h y) (y_t y) = Ok (H', T') ->
  yee_fits g y -> rank_fit W R C s (fun p q => y_e (st p q)) -> rank_fit W R C s (fun p q => y_h (st p q)) -> rank_fit W R C s (fun p q => y_t (st p q)) ->
  rank_agrees W R C s (fun p q => y_e (st p q)) E' -> rank_agrees W R C s (fun p q => y_t (st p q)) (y_t y) ->
  forall p, 0 <= p < W -> exists gr m3, rank_geo g W (W * C) p = Ok (gr, C) /\
    each_dom R C (fun q z => do (h, t) <- calc_field_h mu (dom_geo gr R C s q) (y_e z) (y_h z) (y_t z); Ok (mkYee (y_e z) h t)) (st p) = Ok m3 /\
    forall i k, 0 <= i < R -> 0 <= k < C -> y_e (m3 (i, k)) = y_e (st p (i, k)) /\ fits3 s s (y_h (m3 (i, k))) /\ fits3 s s (y_t (m3 (i, k))) /\
      ghost0 s s (y_h (m3 (i, k))) /\ ghost0 s s (y_t (m3 (i, k))) /\
      forall c a b, 0 <= a < s -> 0 <= b < s -> lv (getc c (y_h (m3 (i, k)))) a b = lv (getc c H') (i * s + a) ((p * C + k) * s + b) /\
           lv (getc c (y_t (m3 (i, k)))) a b = lv (getc c T') (i * s + a) ((p * C + k) * s + b).
Proof using Gr Gz GrL GzL G0 HW HC HR Hs HsL.
  intros FE' EH (Fe & Fh & Ft) Le Lh Lt Ae2 At p Hp.
  destruct (rank_geo_eq p Hp) as (gr & Eg & Dg). exists gr.
  assert (G1 : 1 <= g_nr g < 2 ^ 32) by nia.
  destruct (calc_field_h_spec mu g E' FE' (y_h y) (y_t y) Fh Ft ltac:(lia)) as (H1 & T1 & EH' & _ & _ & VH & _). rewrite EH in EH'. injection EH' as <- <-.
  destruct (each_dom_spec R C (fun q z => do (h, t) <- calc_field_h mu (dom_geo gr R C s q) (y_e z) (y_h z) (y_t z); Ok (mkYee (y_e z) h t)) (st p)
     (fun q z => y_e z = y_e (st p q) /\ fits3 s s (y_h z) /\ fits3 s s (y_t z) /\ ghost0 s s (y_h z) /\ ghost0 s s (y_t z) /\
        forall c a b, 0 <= a < s -> 0 <= b < s -> lv (getc c (y_h z)) a b = lv (getc c H') (fst q * s + a) ((p * C + snd q) * s + b) /\
           lv (getc c (y_t z)) a b = lv (getc c T') (fst q * s + a) ((p * C + snd q) * s + b)))
     as (m3 & Em3 & P3); [lia|lia| |].
  { intros i k Hi Hk. rewrite Dg by auto.
    destruct (calc_field_h_spec mu (dom_geo g R (W * C) s (i, p * C + k)) (y_e (st p (i, k))) (Le p Hp i k Hi Hk) (y_h (st p (i, k))) (y_t (st p (i, k)))) as (h' & t' & Eh & Fh' & Ft' & Vh & Oh).
    { exact (Lh p Hp i k Hi Hk). } { exact (Lt p Hp i k Hi Hk). } { cbn [dom_geo g_nr]; lia. }
    rewrite Eh. cbn [bind]. eexists. split; [reflexivity|]. cbn [y_e y_h y_t]. cbn [dom_geo g_nr g_nz] in Fh', Ft', Oh, Vh.
    refine (conj eq_refl (conj Fh' (conj Ft' (conj (fun c a b I N => proj1 (Oh c a b I N)) (conj (fun c a b I N => proj2 (Oh c a b I N)) _))))).
    intros c a b Ha Hb. cbn [fst snd]. set (K := p * C + k) in *.
    assert (Q1 : 0 <= i * s + a < g_nr g) by (rewrite Gr; nia).
    assert (Q2 : 0 <= K < W * C) by (unfold K; nia). assert (Q3 : 0 <= K * s + b < g_nz g) by (rewrite Gz; nia).
    specialize (Vh a b Ha Hb). specialize (VH (i * s + a) (K * s + b) Q1 Q3).
    assert (Tr := At p i k Cr a b Hp Hi Hk ltac:(lia)). assert (Tp := At p i k Cphi a b Hp Hi Hk ltac:(lia)). assert (Tz := At p i k Cz a b Hp Hi Hk ltac:(lia)).
    cbn [getc] in Tr, Tp, Tz.
    assert (Ar := fun x y => Ae2 p i k Cr x y Hp Hi Hk). assert (Ap := fun x y => Ae2 p i k Cphi x y Hp Hi Hk). assert (Az := fun x y => Ae2 p i k Cz x y Hp Hi Hk).
    cbn [getc] in Ar, Ap, Az. fold K in Tr, Tp, Tz, Ar, Ap, Az.
    assert (Xk : i * s + a + 1 = i * s + (a + 1)) by lia. assert (Yk : K * s + b + 1 = K * s + (b + 1)) by lia.
    assert (Kr : alpha_r mu (dom_geo g R (W * C) s (i, K)) (y_e (st p (i, k))) a b = alpha_r mu g E' (i * s + a) (K * s + b)).
    { unfold alpha_r. rewrite Yk, !Ap by lia. reflexivity. }
    assert (Kp : alpha_phi mu (dom_geo g R (W * C) s (i, K)) (y_e (st p (i, k))) a b = alpha_phi mu g E' (i * s + a) (K * s + b)).
    { unfold alpha_phi. rewrite Xk, Yk, !Ar, !Az by lia. reflexivity. }
    assert (Kz : alpha_z mu (dom_geo g R (W * C) s (i, K)) (y_e (st p (i, k))) a b = alpha_z mu g E' (i * s + a) (K * s + b)).
    { unfold alpha_z. rewrite Xk, !Ap by lia. cbn [dom_geo g_d0 g_dr g_dt fst snd].
      replace (IZR a + / 2 + IZR (i * s + g_d0 g))%R with (IZR (i * s + a) + / 2 + IZR (g_d0 g))%R by (rewrite !plus_IZR; ring). reflexivity. }
    assert (Kw : wall_times (dom_geo g R (W * C) s (i, K)) a = wall_times g (i * s + a)).
    { unfold wall_times. cbn [dom_geo g_w2 g_nr fst snd]. rewrite Gr.
      destruct (last_cell i s a R (g_w2 g) Hi ltac:(lia) Ha) as [_ ->]. reflexivity. }
    rewrite Kr, Kp, Kz, Kw, Tr, Tp, Tz in Vh.
    destruct Vh as (V1 & V2 & V3 & V4 & V5 & V6). destruct VH as (U1 & U2 & U3 & U4 & U5 & U6).
    destruct c; cbn [getc]; split; congruence. }
  exists m3. split; [exact Eg|]. split; [exact Em3|]. intros i k Hi Hk. exact (P3 i k Hi Hk).
Qed.

(** what one step of all ranks computes, whatever the schedule of the messages *)
Lemma mpi_step_full K j J st st' y : rank_fields st y -> rank_current j J -> mpi_step mu g W (W * C) R s eps sg K j st st' ->
  exists y', yee_step mu g Eps Sg J y = Ok y' /\ rank_fields st' y' /\
    rank_all W R C s (fun p q => y_e (st' p q)) (y_e y') /\ rank_all_inside W R C s (fun p q => y_h (st' p q)) (y_h y').
Proof using Gr Gz GrL GzL G0 HW HC HR Hs HsL Heps Hsg.
  intros S SJ (a & b & ea & tb & A1 & X1 & A2 & X2 & Q).
  assert (DW : W * C / W = C) by (rewrite (Z.mul_comm W C); now rewrite Z.div_mul by lia). rewrite DW in *.
  assert (S0 := S). destruct S0 as ((Fe & Fh & Ft) & Le & Lh & Lt & Ae & Ah & At).
  assert (G1 : 1 <= g_nr g < 2 ^ 32) by nia. assert (G2 : 1 <= g_nz g < 2 ^ 32) by nia.
  destruct (calc_field_e_spec g (y_t y) J Eps Sg) with (e := y_e y) as (E' & EE & FE' & VE & OE); auto; try lia.
  { rewrite Gr, Gz. apply SJ. } { rewrite Gr, Gz. apply Heps. } { rewrite Gr, Gz. apply Hsg. }
  unfold yee_step. rewrite EE. cbn [bind].
  destruct (calc_field_h_spec mu g E' FE' (y_h y) (y_t y) Fh Ft ltac:(lia)) as (H' & T' & EH & FH' & FT' & VH & OH). rewrite EH. cbn [bind].
  eexists. split; [reflexivity|].
  assert (VE' : forall x z c, 0 <= x < g_nr g -> 0 <= z < g_nz g -> lv (getc c E') x z = e_cell g (y_t y) J Eps Sg x z (fun u => lv (getc u (y_e y)) x z) c) by (intros; now apply VE).
  (* the first half *)
  assert (P1 : forall p, 0 <= p < W -> exists m1, pass3 Rplus R C (fun q => y_e (m1 q)) = Ok (fun q => y_e (a p q)) /\
    (forall q, y_h (a p q) = y_h (m1 q) /\ y_t (a p q) = y_t (m1 q)) /\
    forall i k, 0 <= i < R -> 0 <= k < C ->
      y_h (m1 (i, k)) = y_h (st p (i, k)) /\ y_t (m1 (i, k)) = y_t (st p (i, k)) /\ fits3 s s (y_e (m1 (i, k))) /\ ghost0 s s (y_e (m1 (i, k))) /\
      forall c x z, 0 <= x < s -> 0 <= z < s -> lv (getc c (y_e (m1 (i, k)))) x z = lv (getc c E') (i * s + x) ((p * C + k) * s + z)).
  { intros p Hp. destruct (first_phase j J st y E' S SJ EE VE' p Hp) as (gr & m1 & Eg & Em & V).
    specialize (A1 p Hp). unfold rank_first in A1. rewrite Eg in A1. cbn [bind] in A1. rewrite Em in A1. cbn [bind] in A1.
    destruct (pass3 Rplus R C (fun q => y_e (m1 q))) as [e2| |] eqn:Ep; cbn [bind] in A1; try discriminate.
    injection A1 as A1. exists m1. rewrite <- A1. cbn [y_e y_h y_t]. split; [exact Ep|]. split; [auto|exact V]. }
  destruct (choose_fun W _ HW P1) as (m1 & P1').
  assert (I1 : rank_fit W R C s ea /\ rank_agrees W R C s ea E').
  { apply (exchange_agrees W R C s HW HR HC Hs HsL E') with (K := K) (m := fun p q => y_e (m1 p q)) (m1 := fun p q => y_e (a p q)).
    - rewrite <- Gr, <- Gz. exact FE'.
    - rewrite <- Gr, <- Gz. exact OE.
    - intros p Hp i k Hi Hk. now apply (P1' p Hp).
    - intros p i k c x z Hp Hi Hk Hx Hz. now apply (P1' p Hp).
    - intros p i k Hp Hi Hk. now apply (P1' p Hp).
    - intros p Hp. now apply (P1' p Hp).
    - exact X1. }
  assert (I1a : rank_all W R C s ea E').
  { apply (exchange_all W R C s HW HR HC Hs HsL E') with (K := K) (m := fun p q => y_e (m1 p q)) (m1 := fun p q => y_e (a p q)).
    - rewrite <- Gr, <- Gz. exact FE'.
    - rewrite <- Gr, <- Gz. exact OE.
    - intros p Hp i k Hi Hk. now apply (P1' p Hp).
    - intros p i k c x z Hp Hi Hk Hx Hz. now apply (P1' p Hp).
    - intros p i k Hp Hi Hk. now apply (P1' p Hp).
    - intros p Hp. now apply (P1' p Hp).
    - exact X1. }
  destruct I1 as [Fea Aea].
  (* the second half *)
  set (st2 := fun p q => mkYee (ea p q) (y_h (a p q)) (y_t (a p q))) in *.
  assert (Th : forall p i k, 0 <= p < W -> 0 <= i < R -> 0 <= k < C -> y_h (a p (i, k)) = y_h (st p (i, k)) /\ y_t (a p (i, k)) = y_t (st p (i, k))).
  { intros p i k Hp Hi Hk. destruct (P1' p Hp) as (_ & Q1 & Q2). destruct (Q1 (i, k)) as [-> ->]. destruct (Q2 i k Hi Hk) as (-> & -> & _). auto. }
  assert (SP := second_phase st2 y E' H' T' FE' EH (conj Fe (conj Fh Ft)) Fea
    ltac:(intros p Hp i k Hi Hk; unfold st2; cbn [y_h]; rewrite (proj1 (Th p i k Hp Hi Hk)); exact (Lh p Hp i k Hi Hk))
    ltac:(intros p Hp i k Hi Hk; unfold st2; cbn [y_t]; rewrite (proj2 (Th p i k Hp Hi Hk)); exact (Lt p Hp i k Hi Hk)) Aea
    ltac:(intros p i k c x z Hp Hi Hk Hx; unfold st2; cbn [y_t]; rewrite (proj2 (Th p i k Hp Hi Hk)); exact (At p i k c x z Hp Hi Hk Hx))).
  assert (P2 : forall p, 0 <= p < W -> exists m3, pass3 Rplus R C (fun q => y_h (m3 q)) = Ok (fun q => y_h (b p q)) /\ pass3 Rplus R C (fun q => y_t (m3 q)) = Ok (fun q => y_t (b p q)) /\
    (forall q, y_e (b p q) = y_e (m3 q)) /\
    forall i k, 0 <= i < R -> 0 <= k < C -> y_e (m3 (i, k)) = ea p (i, k) /\ fits3 s s (y_h (m3 (i, k))) /\ fits3 s s (y_t (m3 (i, k))) /\
      ghost0 s s (y_h (m3 (i, k))) /\ ghost0 s s (y_t (m3 (i, k))) /\
      forall c x z, 0 <= x < s -> 0 <= z < s -> lv (getc c (y_h (m3 (i, k)))) x z = lv (getc c H') (i * s + x) ((p * C + k) * s + z) /\
           lv (getc c (y_t (m3 (i, k)))) x z = lv (getc c T') (i * s + x) ((p * C + k) * s + z)).
  { intros p Hp. destruct (SP p Hp) as (gr & m3 & Eg & Em & V).
    specialize (A2 p Hp). unfold rank_second in A2. rewrite Eg in A2. cbn [bind] in A2. change (fun q => mkYee (ea p q) (y_h (a p q)) (y_t (a p q))) with (st2 p) in A2. rewrite Em in A2. cbn [bind] in A2.
    destruct (pass3 Rplus R C (fun q => y_h (m3 q))) as [h4| |] eqn:Eh; cbn [bind] in A2; try discriminate.
    destruct (pass3 Rplus R C (fun q => y_t (m3 q))) as [t4| |] eqn:Et; cbn [bind] in A2; try discriminate.
    injection A2 as A2. exists m3. rewrite <- A2. cbn [y_e y_h y_t]. auto. }
  destruct (choose_fun W _ HW P2) as (m3 & P2').
  assert (I2 : rank_fit W R C s tb /\ rank_agrees W R C s tb T').
  { apply (exchange_agrees W R C s HW HR HC Hs HsL T') with (K := K) (m := fun p q => y_t (m3 p q)) (m1 := fun p q => y_t (b p q)).
    - rewrite <- Gr, <- Gz. exact FT'.
    - rewrite <- Gr, <- Gz. intros c x z Hw N. now apply OH.
    - intros p Hp i k Hi Hk. now apply (P2' p Hp).
    - intros p i k c x z Hp Hi Hk Hx Hz. destruct (P2' p Hp) as (_ & _ & _ & V). now apply (V i k Hi Hk).
    - intros p i k Hp Hi Hk. now apply (P2' p Hp).
    - intros p Hp. now apply (P2' p Hp).
    - exact X2. }
  assert (I3 : rank_fit W R C s (fun p q => y_h (b p q)) /\ rank_agrees_inside W R C s (fun p q => y_h (b p q)) H').
  { apply (pass_rank_inside W R C s HW HR HC Hs HsL H') with (m := fun p q => y_h (m3 p q)).
    - rewrite <- Gr, <- Gz. exact FH'.
    - rewrite <- Gr, <- Gz. intros c x z Hw N. now apply OH.
    - intros p Hp i k Hi Hk. now apply (P2' p Hp).
    - intros p i k c x z Hp Hi Hk Hx Hz. destruct (P2' p Hp) as (_ & _ & _ & V). now apply (V i k Hi Hk).
    - intros p i k Hp Hi Hk. now apply (P2' p Hp).
    - intros p Hp. now apply (P2' p Hp). }
  assert (I3a : rank_all_inside W R C s (fun p q => y_h (b p q)) H').
  { apply (pass_rank_all W R C s HW HR HC Hs HsL H') with (m := fun p q => y_h (m3 p q)).
    - rewrite <- Gr, <- Gz. exact FH'.
    - rewrite <- Gr, <- Gz. intros c x z Hw N. now apply OH.
    - intros p Hp i k Hi Hk. now apply (P2' p Hp).
    - intros p i k c x z Hp Hi Hk Hx Hz. destruct (P2' p Hp) as (_ & _ & _ & V). now apply (V i k Hi Hk).
    - intros p i k Hp Hi Hk. now apply (P2' p Hp).
    - intros p Hp. now apply (P2' p Hp). }
  assert (Ve : forall p i k, 0 <= p < W -> 0 <= i < R -> 0 <= k < C -> y_e (st' p (i, k)) = ea p (i, k)).
  { intros p i k Hp Hi Hk. rewrite (Q p Hp). cbn [y_e]. destruct (P2' p Hp) as (_ & _ & Qe & V). rewrite Qe. now apply V. }
  cbn [y_e y_h y_t]. split;
  [|split; [intros p i k c x z Hp Hi Hk Hw Sk; cbn beta; rewrite Ve by auto; now apply I1a|
    intros p i k c x z Hp Hi Hk Hw Sk Nb; cbn beta; rewrite (Q p Hp); cbn [y_h]; now apply I3a]].
  unfold rank_fields. cbn [y_e y_h y_t]. split; [exact (conj FE' (conj FH' FT'))|].
  split; [intros p Hp i k Hi Hk; cbn beta; rewrite Ve by auto; now apply Fea|].
  split; [intros p Hp i k Hi Hk; cbn beta; rewrite (Q p Hp); cbn [y_h]; now apply (proj1 I3)|].
  split; [intros p Hp i k Hi Hk; cbn beta; rewrite (Q p Hp); cbn [y_t]; now apply (proj1 I2)|].
  split; [intros p i k c x z Hp Hi Hk Hx; cbn beta; rewrite Ve by auto; now apply Aea|].
  split; [intros p i k c x z Hp Hi Hk Hx; cbn beta; rewrite (Q p Hp); cbn [y_h]; now apply (proj2 I3)|].
  intros p i k c x z Hp Hi Hk Hx. rewrite (Q p Hp). cbn [y_t]. now apply (proj2 I2).
Qed.

Lemma mpi_step_sound K j J st st' y : rank_fields st y -> rank_current j J -> mpi_step mu g W (W * C) R s eps sg K j st st' ->
  exists y', yee_step mu g Eps Sg J y = Ok y' /\ rank_fields st' y'.
Proof using Gr Gz GrL GzL G0 HW HC HR Hs HsL Heps Hsg.
  intros S SJ M. destruct (mpi_step_full K j J st st' y S SJ M) as (y' & E & F & _). now exists y'.
Qed.

(** ... and it takes place, if the library stores the messages of all radial domains *)
Lemma mpi_step_exists K j J st y : (Z.to_nat R <= K)%nat -> rank_fields st y -> rank_current j J -> exists st', mpi_step mu g W (W * C) R s eps sg K j st st'.
Proof using Gr Gz GrL GzL G0 HW HC HR Hs HsL Heps Hsg.
  intros HK S SJ.
  assert (DW : W * C / W = C) by (rewrite (Z.mul_comm W C); now rewrite Z.div_mul by lia). unfold mpi_step. rewrite DW.
  assert (S0 := S). destruct S0 as ((Fe & Fh & Ft) & Le & Lh & Lt & Ae & Ah & At).
  assert (G1 : 1 <= g_nr g < 2 ^ 32) by nia. assert (G2 : 1 <= g_nz g < 2 ^ 32) by nia.
  destruct (calc_field_e_spec g (y_t y) J Eps Sg) with (e := y_e y) as (E' & EE & FE' & VE & OE); auto; try lia.
  { rewrite Gr, Gz. apply SJ. } { rewrite Gr, Gz. apply Heps. } { rewrite Gr, Gz. apply Hsg. }
  destruct (calc_field_h_spec mu g E' FE' (y_h y) (y_t y) Fh Ft ltac:(lia)) as (H' & T' & EH & FH' & FT' & VH & OH).
  assert (VE' : forall x z c, 0 <= x < g_nr g -> 0 <= z < g_nz g -> lv (getc c E') x z = e_cell g (y_t y) J Eps Sg x z (fun u => lv (getc u (y_e y)) x z) c) by (intros; now apply VE).
  rewrite Gr, Gz in FE', FH', FT', OE.
  destruct (choose_fun2 W _ HW (first_phase j J st y E' S SJ EE VE')) as (m1 & P1).
  assert (Fm1 : rank_fit W R C s (fun p q => y_e (m1 p q))) by (intros p Hp i k Hi Hk; destruct (P1 p Hp) as (gr & _ & _ & V); now apply V).
  assert (Im1 : rank_inner W R C s (fun p q => y_e (m1 p q)) E') by (intros p i k c x z Hp Hi Hk Hx Hz; destruct (P1 p Hp) as (gr & _ & _ & V); now apply V).
  assert (Gm1 : forall p i k, 0 <= p < W -> 0 <= i < R -> 0 <= k < C -> ghost0 s s (y_e (m1 p (i, k)))) by (intros p i k Hp Hi Hk; destruct (P1 p Hp) as (gr & _ & _ & V); now apply V).
  destruct (choose_fun W (fun p e2 => pass3 Rplus R C (fun q => y_e (m1 p q)) = Ok e2) HW) as (e2 & Pe2).
  { intros p Hp. destruct (rank_stitch W R C s HW HR HC Hs HsL E' FE' (fun p q => y_e (m1 p q)) Fm1 Im1 Gm1 p Hp) as (e2 & Q & _). now exists e2. }
  destruct (exchange_possible W R C s HW HR HC Hs HsL E' FE' OE (fun p q => y_e (m1 p q)) Fm1 Im1 Gm1 K e2 Pe2 HK) as (ea & X1).
  destruct (exchange_agrees W R C s HW HR HC Hs HsL E' FE' OE (fun p q => y_e (m1 p q)) Fm1 Im1 Gm1 K e2 ea Pe2 X1) as [Fea Aea].
  set (a := fun p q => mkYee (e2 p q) (y_h (m1 p q)) (y_t (m1 p q))).
  set (st2 := fun p q => mkYee (ea p q) (y_h (a p q)) (y_t (a p q))).
  assert (Th : forall p i k, 0 <= p < W -> 0 <= i < R -> 0 <= k < C -> y_h (m1 p (i, k)) = y_h (st p (i, k)) /\ y_t (m1 p (i, k)) = y_t (st p (i, k))).
  { intros p i k Hp Hi Hk. destruct (P1 p Hp) as (gr & _ & _ & V). destruct (V i k Hi Hk) as (-> & -> & _). auto. }
  assert (SP := second_phase st2 y E' H' T' ltac:(now rewrite Gr, Gz) EH (conj Fe (conj Fh Ft)) Fea
    ltac:(intros p Hp i k Hi Hk; unfold st2, a; cbn [y_h]; rewrite (proj1 (Th p i k Hp Hi Hk)); exact (Lh p Hp i k Hi Hk))
    ltac:(intros p Hp i k Hi Hk; unfold st2, a; cbn [y_t]; rewrite (proj2 (Th p i k Hp Hi Hk)); exact (Lt p Hp i k Hi Hk)) Aea
    ltac:(intros p i k c x z Hp Hi Hk Hx; unfold st2, a; cbn [y_t]; rewrite (proj2 (Th p i k Hp Hi Hk)); exact (At p i k c x z Hp Hi Hk Hx))).
  destruct (choose_fun2 W _ HW SP) as (m3 & P3).
  assert (Fh3 : rank_fit W R C s (fun p q => y_h (m3 p q))) by (intros p Hp i k Hi Hk; destruct (P3 p Hp) as (gr & _ & _ & V); now apply V).
  assert (Ft3 : rank_fit W R C s (fun p q => y_t (m3 p q))) by (intros p Hp i k Hi Hk; destruct (P3 p Hp) as (gr & _ & _ & V); now apply V).
  assert (Ih3 : rank_inner W R C s (fun p q => y_h (m3 p q)) H') by (intros p i k c x z Hp Hi Hk Hx Hz; destruct (P3 p Hp) as (gr & _ & _ & V); now apply (V i k Hi Hk)).
  assert (It3 : rank_inner W R C s (fun p q => y_t (m3 p q)) T') by (intros p i k c x z Hp Hi Hk Hx Hz; destruct (P3 p Hp) as (gr & _ & _ & V); now apply (V i k Hi Hk)).
  assert (Gh3 : forall p i k, 0 <= p < W -> 0 <= i < R -> 0 <= k < C -> ghost0 s s (y_h (m3 p (i, k)))) by (intros p i k Hp Hi Hk; destruct (P3 p Hp) as (gr & _ & _ & V); now apply V).
  assert (Gt3 : forall p i k, 0 <= p < W -> 0 <= i < R -> 0 <= k < C -> ghost0 s s (y_t (m3 p (i, k)))) by (intros p i k Hp Hi Hk; destruct (P3 p Hp) as (gr & _ & _ & V); now apply V).
  assert (OT' : ghost0 (R * s) (W * C * s) T') by (rewrite <- Gr, <- Gz; intros c x z Hw N; now apply OH).
  destruct (choose_fun W (fun p h => pass3 Rplus R C (fun q => y_h (m3 p q)) = Ok h) HW) as (h4 & Ph4).
  { intros p Hp. destruct (rank_stitch W R C s HW HR HC Hs HsL H' FH' (fun p q => y_h (m3 p q)) Fh3 Ih3 Gh3 p Hp) as (x & Q & _). now exists x. }
  destruct (choose_fun W (fun p h => pass3 Rplus R C (fun q => y_t (m3 p q)) = Ok h) HW) as (t4 & Pt4).
  { intros p Hp. destruct (rank_stitch W R C s HW HR HC Hs HsL T' FT' (fun p q => y_t (m3 p q)) Ft3 It3 Gt3 p Hp) as (x & Q & _). now exists x. }
  destruct (exchange_possible W R C s HW HR HC Hs HsL T' FT' OT' (fun p q => y_t (m3 p q)) Ft3 It3 Gt3 K t4 Pt4 HK) as (tb & X2).
  exists (fun p q => mkYee (y_e (m3 p q)) (h4 p q) (tb p q)), a, (fun p q => mkYee (y_e (m3 p q)) (h4 p q) (t4 p q)), ea, tb.
  split; [|split; [exact X1|split; [|split; [exact X2|reflexivity]]]].
  - intros p Hp. destruct (P1 p Hp) as (gr & Eg & Em & _). unfold rank_first. rewrite Eg. cbn [bind]. rewrite Em. cbn [bind]. rewrite (Pe2 p Hp). reflexivity.
  - intros p Hp. destruct (P3 p Hp) as (gr & Eg & Em & _). unfold rank_second. rewrite Eg. cbn [bind].
    change (fun q => mkYee (ea p q) (y_h (a p q)) (y_t (a p q))) with (st2 p). rewrite Em. cbn [bind]. rewrite (Ph4 p Hp). cbn [bind]. rewrite (Pt4 p Hp). reflexivity.
Qed.
End Step.
