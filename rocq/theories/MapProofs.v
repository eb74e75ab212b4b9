(** Stitching of grids of any shape by [overlay_x] and [overlay_y] calls only. *)
From Verif Require Import Base ListUtil GridModel GridProofs GridExtra CollectorModel CollectorProofs OverlayModel Interleave OverlayConc OverlaySum OverlayPass MapModel.
From Coq Require Import ZifyBool Permutation.

Section Rect.
Context {T : Type}.
Variable add : T -> T -> T.
Variable zero : T.
Hypothesis add_comm : forall x y, add x y = add y x.
Hypothesis add_assoc : forall x y z, add x (add y z) = add (add x y) z.
Hypothesis add_zero : forall x, add x zero = x.
Variables R C X Y o : Z.
Hypothesis HX : 4 * o <= X.
Hypothesis HY : 4 * o <= Y.
Implicit Types m : doms (grid T).

(** all grids have the same shape, which need not be square *)
Definition rect m : Prop := forall i j, 0 <= i < R -> 0 <= j < C ->
  wf (m (i, j)) /\ os (m (i, j)) = o /\ xr (m (i, j)) = X /\ yr (m (i, j)) = Y.
Definition rvalid (q : op) : Prop :=
  0 <= orow q /\ 0 <= ocol q /\
  match okind q with
  | KX => orow q < R - 1 /\ ocol q < C
  | KY => orow q < R /\ ocol q < C - 1
  | KXY => False
  end.
Lemma rvalid_fits m q : rect m -> rvalid q ->
  fits (okind q) (m (src q)) (m (dst q)) /\ os (m (src q)) = o /\ xr (m (src q)) = X /\ yr (m (src q)) = Y.
Proof using.
  intros U V. destruct q as [kd i j]. unfold rvalid in V; cbn [okind orow ocol src dst] in *.
  assert (A : 0 <= i < R /\ 0 <= j < C) by (destruct kd; lia).
  destruct (U i j) as (Wa & Oa & Xa & Ya); try lia. unfold src; cbn [orow ocol].
  unfold fits, dst; cbn [okind orow ocol].
  destruct kd; [destruct (U (i + 1) j) as (Wb & Ob & Xb & Yb)|destruct (U i (j + 1)) as (Wb & Ob & Xb & Yb)|exfalso]; try lia;
    (split; [split; [exact Wa|split; [exact Wb|split; congruence]]|split; [exact Oa|split; assumption]]).
Qed.

(** what call [q] adds to interior cell (p, r, c) *)
Definition rcontrib m (q : op) (p : Z * Z) (r c : Z) : T :=
  let sr := shr (okind q) o X in let sc := shc (okind q) o Y in
  if peq p (src q) then
    match okind q with
    | KX => if X - 2 * o <=? r then cell (m (dst q)) (r - sr) (c - sc) else zero
    | KY => if Y - 2 * o <=? c then cell (m (dst q)) (r - sr) (c - sc) else zero
    | KXY => zero
    end
  else if peq p (dst q) then
    match okind q with
    | KX => if r <? 2 * o then cell (m (src q)) (r + sr) (c + sc) else zero
    | KY => if c <? 2 * o then cell (m (src q)) (r + sr) (c + sc) else zero
    | KXY => zero
    end
  else zero.
Definition rinterior (r c : Z) : Prop := o <= r < X - o /\ o <= c < Y - o.

Lemma rcontrib_step m q : rect m -> rvalid q ->
  exists m1, apply1 add q m = Ok m1 /\ shape_of m m1 /\
    (forall p r c, rinterior r c -> cell (m1 p) r c = add (cell (m p) r c) (rcontrib m q p r c)) /\
    (forall q' p r c, rinterior r c -> q' <> q -> rvalid q' -> rcontrib m1 q' p r c = rcontrib m q' p r c).
Proof using HX HY add_comm add_zero.
  intros U V. destruct (rvalid_fits m q U V) as (Hf & Eo & Ex & Ey).
  destruct (apply1_spec add q m Hf) as (m1 & E1 & S1 & V1 & F1). rewrite Eo, Ex, Ey in V1.
  exists m1. split; [exact E1|]. split; [exact S1|].
  assert (F1' : forall p r c, ~ ((p = src q /\ strip (okind q) o X Y (r - shr (okind q) o X) (c - shc (okind q) o Y)) \/
                               (p = dst q /\ strip (okind q) o X Y r c)) -> cell (m1 p) r c = cell (m p) r c).
  { intros p r c H. apply F1. unfold touches. now rewrite Eo, Ex, Ey. }
  clear F1. pose proof (src_dst q) as Ne. split.
  - intros p r c [Ir Ic]. unfold rcontrib.
    destruct (peq p (src q)) eqn:Ps; [apply peq_true in Ps; subst p|].
    + assert (D : forall b : bool, (b = true -> strip (okind q) o X Y (r - shr (okind q) o X) (c - shc (okind q) o Y)) ->
                (b = false -> ~ strip (okind q) o X Y (r - shr (okind q) o X) (c - shc (okind q) o Y)) ->
                cell (m1 (src q)) r c = add (cell (m (src q)) r c)
                  (if b then cell (m (dst q)) (r - shr (okind q) o X) (c - shc (okind q) o Y) else zero)).
      { intros b H1 H2. destruct b.
        - specialize (V1 _ _ (H1 eq_refl)). cbv zeta in V1. rewrite !Z.sub_add in V1. rewrite (strip_sum_comm add add_comm) in V1. apply V1.
        - rewrite add_zero. apply F1'. intros [[_ H]|[H _]]; [now apply H2|contradiction]. }
      unfold rvalid in V. revert D V. destruct (okind q) eqn:Ek; cbn [strip shr shc]; intros D V; [apply D; lia|apply D; lia|lia].
    + destruct (peq p (dst q)) eqn:Pd; [apply peq_true in Pd; subst p|].
      * assert (D : forall b : bool, (b = true -> strip (okind q) o X Y r c) ->
                (b = false -> ~ strip (okind q) o X Y r c) ->
                cell (m1 (dst q)) r c = add (cell (m (dst q)) r c)
                  (if b then cell (m (src q)) (r + shr (okind q) o X) (c + shc (okind q) o Y) else zero)).
        { intros b H1 H2. destruct b.
          - specialize (V1 _ _ (H1 eq_refl)). cbv zeta in V1. rewrite (strip_sum_comm add add_comm) in V1. rewrite add_comm. apply V1.
          - rewrite add_zero. apply F1'. intros [[H _]|[_ H]]; [congruence|now apply H2]. }
        unfold rvalid in V. revert D V. destruct (okind q) eqn:Ek; cbn [strip shr shc]; intros D V; [apply D; lia|apply D; lia|lia].
      * rewrite add_zero. apply F1'. apply peq_false in Ps, Pd. intros [[H _]|[H _]]; contradiction.
  - intros q' p r c [Ir Ic] Hne V'. unfold rcontrib.
    destruct q as [kd i j], q' as [kd' i' j']. unfold src, dst, rvalid in *. cbn [okind orow ocol] in *.
    assert (Hne' : kd' <> kd \/ i' <> i \/ j' <> j).
    { destruct (Z.eq_dec i' i); [|now (right; left)]. destruct (Z.eq_dec j' j); [|now (right; right)]. subst.
      left. congruence. }
    destruct (peq p (i', j')) eqn:Ps; [|match goal with |- context [peq p ?x] => destruct (peq p x) eqn:Pd end; [|reflexivity]].
    all: destruct kd', kd; cbn [strip shr shc] in *; repeat match goal with |- context [if ?b then _ else _] => destruct b eqn:? end; try reflexivity; try lia.
    all: apply F1'; intros [[E H]|[E H]]; injection E as E1' E2'; destruct Hne' as [Q|Q]; try congruence; try lia.
Qed.

Lemma rect_shape m m' : shape_of m m' -> rect m -> rect m'.
Proof using.
  intros S U i j Hi Hj. destruct (U i j Hi Hj) as (W & A & B & D). pose proof (S (i, j)) as Sh.
  pose proof Sh as (S1 & S2 & S3 & S4 & S5). split; [eapply same_shape_wf; eauto|]. repeat split; congruence.
Qed.

Lemma rrun_sum l : forall m, rect m -> NoDup l -> Forall rvalid l ->
  exists m', run1 add l m = Ok m' /\ shape_of m m' /\
    forall p r c, rinterior r c -> cell (m' p) r c = add (cell (m p) r c) (msum add zero (fun q => rcontrib m q p r c) l).
Proof using HX HY add_comm add_assoc add_zero.
  induction l as [|q l IH]; intros m U Nd Va.
  - exists m. split; [reflexivity|]. split; [apply shape_of_refl|]. intros. cbn [msum fold_right]. now rewrite add_zero.
  - inversion Nd; inversion Va; subst. destruct (rcontrib_step m q U) as (m1 & E1 & S1 & V1 & K1); [assumption|].
    destruct (IH m1) as (m' & E & S & V); auto; [eapply rect_shape; eauto|].
    exists m'. unfold run1 in *; cbn [run_ops]. fold (apply1 add). rewrite E1; cbn [bind]. split; [exact E|].
    split; [eapply shape_of_trans; eauto|]. intros p r c I. rewrite V, V1 by exact I.
    cbn [msum fold_right]. rewrite <- add_assoc. do 2 f_equal. apply msum_ext. intros q' Hq'. apply K1; [exact I| |].
    + intros ->; contradiction.
    + match goal with H : Forall rvalid l |- _ => rewrite Forall_forall in H; apply H; exact Hq' end.
Qed.
End Rect.

(** ** the calls of [map_ops] *)
Lemma In_zseq n : forall a x, In x (zseq n a) <-> a <= x < a + Z.of_nat n.
Proof.
  induction n as [|n IH]; intros a x; cbn [zseq In]; [lia|]. rewrite IH. lia.
Qed.
Lemma In_zrange0 n x : 0 <= n -> (In x (zrange 0 n) <-> 0 <= x < n).
Proof. intros H. unfold zrange. rewrite In_zseq. lia. Qed.
Lemma NoDup_zseq n : forall a, NoDup (zseq n a).
Proof. induction n as [|n IH]; intros a; cbn [zseq]; constructor; [rewrite In_zseq; lia|apply IH]. Qed.
Lemma In_row_major R C i j : 0 <= R -> 0 <= C -> (In (i, j) (row_major R C) <-> 0 <= i < R /\ 0 <= j < C).
Proof.
  intros HR HC. unfold row_major. rewrite in_flat_map. split.
  - intros (x & Hx & Hij). apply in_map_iff in Hij as (y & E & Hy). injection E as -> ->. rewrite In_zrange0 in Hx, Hy by lia. tauto.
  - intros [H1 H2]. exists i. rewrite In_zrange0 by lia. split; [exact H1|]. apply in_map_iff. exists j. rewrite In_zrange0 by lia. tauto.
Qed.
Lemma NoDup_row_major R C : NoDup (row_major R C).
Proof.
  unfold row_major. apply NoDup_flat_map.
  - apply NoDup_zseq.
  - intros x. apply FinFun.Injective_map_NoDup; [intros a b E; now injection E|apply NoDup_zseq].
  - intros x y [a b] Hx Hy. apply in_map_iff in Hx as (? & E & _). apply in_map_iff in Hy as (? & F & _). congruence.
Qed.
(** which calls a quantity makes *)
Definition calls (q : quantity) (k : kind) : bool :=
  match k, q with KX, _ => true | KY, (Density | Temperature) => true | _, _ => false end.
Lemma In_map_block q R C ij x : In x (map_block q R C ij) <->
  ij = (orow x, ocol x) /\ calls q (okind x) = true /\
  match okind x with KX => orow x < R - 1 | KY => ocol x < C - 1 | KXY => False end.
Proof.
  destruct ij as [i j], x as [k a b]. unfold map_block. rewrite in_app_iff. cbn [okind orow ocol]. split.
  - intros [H|H].
    + destruct (i <? R - 1) eqn:E; [destruct H as [H|[]]|destruct H]. injection H as <- <- <-. split; [reflexivity|]. split; [reflexivity|lia].
    + destruct (j <? C - 1) eqn:E; [|destruct H]. destruct q; try (destruct H; fail); destruct H as [H|[]]; injection H as <- <- <-;
        (split; [reflexivity|split; [reflexivity|lia]]).
  - intros (E & Hc & Hk). injection E as -> ->. destruct k; [left|right|contradiction].
    + replace (a <? R - 1) with true by lia. now left.
    + replace (b <? C - 1) with true by lia. destruct q; try discriminate; now left.
Qed.
Lemma In_map_ops q R C x : 0 <= R -> 0 <= C -> (In x (map_ops q R C) <-> rvalid R C x /\ calls q (okind x) = true).
Proof.
  intros HR HC. unfold map_ops. rewrite in_flat_map. split.
  - intros ([i j] & H1 & H2). apply In_row_major in H1; [|lia|lia]. apply In_map_block in H2 as (E & Hc & Hk). injection E as -> ->.
    split; [|exact Hc]. unfold rvalid. destruct (okind x); lia.
  - intros [V Hc]. exists (orow x, ocol x). unfold rvalid in V. split.
    + apply In_row_major; [lia|lia|]. destruct (okind x); lia.
    + apply In_map_block. split; [reflexivity|]. split; [exact Hc|]. destruct (okind x); lia.
Qed.
Lemma NoDup_map_ops q R C : NoDup (map_ops q R C).
Proof.
  unfold map_ops. apply NoDup_flat_map; [apply NoDup_row_major| |].
  - intros [i j]. unfold map_block. destruct (i <? R - 1), (j <? C - 1), q; cbn [app]; repeat constructor; cbn; intuition discriminate.
  - intros x y z Hx Hy. apply In_map_block in Hx as [-> _]. apply In_map_block in Hy as [-> _]. reflexivity.
Qed.

(** ** closed form *)
Section Total.
Context {T : Type}.
Variable add : T -> T -> T.
Variable zero : T.
Hypothesis add_comm : forall x y, add x y = add y x.
Hypothesis add_assoc : forall x y z, add x (add y z) = add (add x y) z.
Hypothesis add_zero : forall x, add x zero = x.
Variables R C X Y o : Z.
Hypothesis HR : 0 <= R.
Hypothesis HC : 0 <= C.
Hypothesis HX : 4 * o <= X.
Hypothesis HY : 4 * o <= Y.

(** the value domain (i + di, j + dj) stores for the same physical cell *)
Definition rnb (m : doms (grid T)) (i j di dj r c : Z) : T :=
  cell (m (i + di, j + dj)) (r - di * (X - 2 * o)) (c - dj * (Y - 2 * o)).

Lemma map_contrib q m i j r c : 0 <= i < R -> 0 <= j < C -> rinterior X Y o r c ->
  msum add zero (fun x => rcontrib zero X Y o m x (i, j) r c) (map_ops q R C) =
  add (when zero (negb (rowdir R X o i r =? 0)) (rnb m i j (rowdir R X o i r) 0 r c))
      (when zero (calls q KY && negb (coldir C Y o j c =? 0)) (rnb m i j 0 (coldir C Y o j c) r c)).
Proof using HC HR HX HY add_assoc add_comm add_zero.
  intros Hi Hj [Ir Ic]. set (l := map_ops q R C).
  assert (Nd : NoDup l) by apply NoDup_map_ops.
  assert (Inl : forall x, In x l <-> rvalid R C x /\ calls q (okind x) = true) by (intros x; now apply In_map_ops).
  assert (RD : rowdir R X o i r = -1 /\ r < 2 * o /\ 0 < i \/ rowdir R X o i r = 1 /\ X - 2 * o <= r /\ i < R - 1 \/
               rowdir R X o i r = 0 /\ (2 * o <= r \/ i <= 0) /\ (r < X - 2 * o \/ R - 1 <= i)).
  { unfold rowdir. repeat match goal with |- context [if ?b then _ else _] => destruct b eqn:? end; lia. }
  assert (CD : coldir C Y o j c = -1 /\ c < 2 * o /\ 0 < j \/ coldir C Y o j c = 1 /\ Y - 2 * o <= c /\ j < C - 1 \/
               coldir C Y o j c = 0 /\ (2 * o <= c \/ j <= 0) /\ (c < Y - 2 * o \/ C - 1 <= j)).
  { unfold coldir. repeat match goal with |- context [if ?b then _ else _] => destruct b eqn:? end; lia. }
  clearbody l.
  set (di := rowdir R X o i r) in *. set (dj := coldir C Y o j c) in *. clearbody di dj.
  set (sel := fun kd x => match kd, okind x with KX, KX | KY, KY => rcontrib zero X Y o m x (i, j) r c | _, _ => zero end).
  rewrite (msum_ext add zero _ (fun x => add (sel KX x) (sel KY x))).
  2: { intros x Hx. apply Inl in Hx as [V _]. unfold rvalid in V. unfold sel.
       destruct (okind x); rewrite ?add_zero, ?(add_zero_l add zero add_comm add_zero); try reflexivity. lia. }
  rewrite (msum_add add zero add_comm add_assoc add_zero). unfold sel. f_equal.
  - apply (msum_when add zero add_comm add_zero) with (x0 := mkOp KX (if di =? -1 then i - 1 else i) j); [exact Nd|..].
    + intros B. apply Inl. split; [|destruct q; reflexivity]. unfold rvalid; cbn [okind orow ocol]. destruct (di =? -1) eqn:?; lia.
    + cbn [okind]. intros B. unfold rcontrib, src, dst; cbn [okind orow ocol shr shc].
      destruct (di =? -1) eqn:E1.
      * replace (peq (i, j) (i - 1, j)) with false by (symmetry; apply peq_false; intros [= ?]; lia).
        replace (peq (i, j) (i - 1 + 1, j)) with true by (symmetry; apply peq_true; f_equal; lia).
        replace (r <? 2 * o) with true by lia. unfold rnb. assert (di = -1) by lia. subst di.
        f_equal; try lia; f_equal; f_equal; lia.
      * replace (peq (i, j) (i, j)) with true by (symmetry; now apply peq_true).
        replace (X - 2 * o <=? r) with true by lia. unfold rnb. assert (di = 1) by lia. subst di.
        f_equal; try lia; f_equal; f_equal; lia.
    + intros x Hx Hb. apply Inl in Hx as [Hx _]. destruct x as [kd i' j']. cbn [okind]. destruct kd; try reflexivity.
      unfold rvalid in Hx; cbn [okind orow ocol] in Hx.
      assert (Hb' : di = 0 \/ j' <> j \/ i' <> (if di =? -1 then i - 1 else i)).
      { destruct Hb as [Hb|Hb]; [left; lia|]. right. destruct (Z.eq_dec j' j); [right|now left]. intros ->. apply Hb. now subst. }
      clear Hb. unfold rcontrib, src, dst; cbn [okind orow ocol shr shc].
      destruct (peq (i, j) (i', j')) eqn:P1.
      * apply peq_true in P1. injection P1 as -> ->. destruct (X - 2 * o <=? r) eqn:E; [|reflexivity]. exfalso.
        destruct (di =? -1) eqn:?; lia.
      * destruct (peq (i, j) (i' + 1, j')) eqn:P2; [|reflexivity]. apply peq_true in P2. injection P2 as -> ->.
        destruct (r <? 2 * o) eqn:E; [|reflexivity]. exfalso. destruct (di =? -1) eqn:?; lia.
  - apply (msum_when add zero add_comm add_zero) with (x0 := mkOp KY i (if dj =? -1 then j - 1 else j)); [exact Nd|..].
    + intros B. apply Inl. cbn [okind]. split; [|lia]. unfold rvalid; cbn [okind orow ocol]. destruct (dj =? -1) eqn:?; lia.
    + cbn [okind]. intros B. unfold rcontrib, src, dst; cbn [okind orow ocol shr shc].
      destruct (dj =? -1) eqn:E1.
      * replace (peq (i, j) (i, j - 1)) with false by (symmetry; apply peq_false; intros [= ?]; lia).
        replace (peq (i, j) (i, j - 1 + 1)) with true by (symmetry; apply peq_true; f_equal; lia).
        replace (c <? 2 * o) with true by lia. unfold rnb. assert (dj = -1) by lia. subst dj.
        f_equal; try lia; f_equal; f_equal; lia.
      * replace (peq (i, j) (i, j)) with true by (symmetry; now apply peq_true).
        replace (Y - 2 * o <=? c) with true by lia. unfold rnb. assert (dj = 1) by lia. subst dj.
        f_equal; try lia; f_equal; f_equal; lia.
    + intros x Hx Hb. apply Inl in Hx as [Hx Hc]. destruct x as [kd i' j']. cbn [okind] in *. destruct kd; try reflexivity.
      unfold rvalid in Hx; cbn [okind orow ocol] in Hx.
      assert (Hb' : dj = 0 \/ i' <> i \/ j' <> (if dj =? -1 then j - 1 else j)).
      { destruct Hb as [Hb|Hb]; [left; lia|]. right. destruct (Z.eq_dec i' i); [right|now left]. intros ->. apply Hb. now subst. }
      clear Hb. unfold rcontrib, src, dst; cbn [okind orow ocol shr shc].
      destruct (peq (i, j) (i', j')) eqn:P1.
      * apply peq_true in P1. injection P1 as -> ->. destruct (Y - 2 * o <=? c) eqn:E; [|reflexivity]. exfalso.
        destruct (dj =? -1) eqn:?; lia.
      * destruct (peq (i, j) (i', j' + 1)) eqn:P2; [|reflexivity]. apply peq_true in P2. injection P2 as -> ->.
        destruct (c <? 2 * o) eqn:E; [|reflexivity]. exfalso. destruct (dj =? -1) eqn:?; lia.
Qed.

Theorem map_stitched q m : rect R C X Y o m ->
  exists m', stitch add q R C m = Ok m' /\ shape_of m m' /\
    forall i j r c, 0 <= i < R -> 0 <= j < C -> rinterior X Y o r c ->
      cell (m' (i, j)) r c =
      add (cell (m (i, j)) r c)
          (add (when zero (negb (rowdir R X o i r =? 0)) (rnb m i j (rowdir R X o i r) 0 r c))
               (when zero (calls q KY && negb (coldir C Y o j c =? 0)) (rnb m i j 0 (coldir C Y o j c) r c))).
Proof using HC HR HX HY add_assoc add_comm add_zero.
  intros U.
  destruct (rrun_sum add zero add_comm add_assoc add_zero R C X Y o HX HY (map_ops q R C) m U) as (m' & E & S & V).
  - apply NoDup_map_ops.
  - apply Forall_forall. intros x Hx. now apply In_map_ops in Hx as [Hx _].
  - exists m'. split; [exact E|]. split; [exact S|]. intros i j r c Hi Hj I. rewrite V by exact I. f_equal.
    now apply map_contrib.
Qed.
End Total.
