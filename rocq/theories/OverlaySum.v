(** What one stitching pass does to every interior cell of every domain. *)
From Verif Require Import Base ListUtil GridModel GridProofs GridExtra CollectorModel CollectorProofs OverlayModel Interleave OverlayConc.
From Coq Require Import ZifyBool Permutation.

Section Sum.
Context {T : Type}.
Variable add : T -> T -> T.
Implicit Types m : doms (grid T).

Definition apply1 := apply_op (overlay_x (T := T) add) (overlay_y add) (overlay_xy add).
Definition run1 := run_ops (overlay_x (T := T) add) (overlay_y add) (overlay_xy add).

(** the cells of the two grids an operation combines: cell (k, l) of the destination grid with cell
    (k + shr, l + shc) of the source grid *)
Definition strip (kd : kind) (o X Y k l : Z) : Prop :=
  match kd with
  | KX => 0 <= k < 2 * o /\ o <= l < Y - o
  | KY => o <= k < X - o /\ 0 <= l < 2 * o
  | KXY => diag_block o k l
  end.
Definition shr (kd : kind) (o X : Z) : Z := match kd with KY => 0 | _ => X - 2 * o end.
Definition shc (kd : kind) (o Y : Z) : Z := match kd with KX => 0 | _ => Y - 2 * o end.
Definition half (kd : kind) (k l : Z) : Z := match kd with KY => l | _ => k end.

(** the two grids of an operation can be stitched *)
Definition fits (kd : kind) (a b : grid T) : Prop :=
  wf a /\ wf b /\ os b = os a /\
  match kd with
  | KX => yr b = yr a
  | KY => xr b = xr a
  | KXY => yr a = xr a /\ xr b = xr a /\ yr b = yr a
  end.

Definition shape_of (m m' : doms (grid T)) : Prop := forall p, same_shape (m p) (m' p).

(** cell (p, r, c) takes part in operation [q] *)
Definition touches (m : doms (grid T)) (q : op) (p : Z * Z) (r c : Z) : Prop :=
  let a := m (src q) in let kd := okind q in
  (p = src q /\ strip kd (os a) (xr a) (yr a) (r - shr kd (os a) (xr a)) (c - shc kd (os a) (yr a))) \/
  (p = dst q /\ strip kd (os a) (xr a) (yr a) r c).

Lemma opf1_spec kd a b : fits kd a b ->
  let o := os a in let X := xr a in let Y := yr a in
  exists a' b', opf1 add kd (a, b) = Ok (a', b') /\ same_shape a a' /\ same_shape b b' /\
    (forall k l, strip kd o X Y k l ->
       let v := strip_sum add o (half kd k l) (cell a (k + shr kd o X) (l + shc kd o Y)) (cell b k l) in
       cell a' (k + shr kd o X) (l + shc kd o Y) = v /\ cell b' k l = v) /\
    (forall r c, ~ strip kd o X Y (r - shr kd o X) (c - shc kd o Y) -> cell a' r c = cell a r c) /\
    (forall k l, ~ strip kd o X Y k l -> cell b' k l = cell b k l).
Proof.
  intros (Wa & Wb & Eo & Hk) o X Y. subst o X Y. unfold opf1, op_fun; cbn [fst snd]. destruct kd; cbn [strip shr shc half].
  - destruct (overlay_x_spec add a b Wa Wb Eo (eq_sym Hk)) as (a' & b' & E & Sa & Sb & Hv & Fa & Fb).
    exists a', b'. split; [exact E|]. split; [exact Sa|]. split; [exact Sb|]. split; [|split].
    + intros k l [H1 H2]. rewrite Z.add_0_r. replace (k + (xr a - 2 * os a)) with (xr a - 2 * os a + k) by lia.
      now apply Hv.
    + intros r c H. apply Fa. lia.
    + intros k l H. apply Fb. lia.
  - destruct (overlay_y_spec add a b Wa Wb Eo (eq_sym Hk)) as (a' & b' & E & Sa & Sb & Hv & Fa & Fb).
    exists a', b'. split; [exact E|]. split; [exact Sa|]. split; [exact Sb|]. split; [|split].
    + intros k l [H1 H2]. rewrite Z.add_0_r. replace (l + (yr a - 2 * os a)) with (yr a - 2 * os a + l) by lia.
      now apply Hv.
    + intros r c H. apply Fa. lia.
    + intros k l H. apply Fb. lia.
  - destruct Hk as (Hs & Hx & Hy). rewrite Hs.
    destruct (overlay_xy_square add a b Wa Wb Eo Hs Hx Hy) as (a' & b' & E & Sa & Sb & Hv & Fa & Fb).
    exists a', b'. split; [exact E|]. split; [exact Sa|]. split; [exact Sb|]. split; [|split].
    + intros k l H. rewrite !(Z.add_comm _ (xr a - 2 * os a)). now apply Hv.
    + intros r c H. now apply Fa.
    + intros k l H. now apply Fb.
Qed.

(** one call inside the array of domains *)
Lemma apply1_spec q m : fits (okind q) (m (src q)) (m (dst q)) ->
  let a := m (src q) in let kd := okind q in let o := os a in let X := xr a in let Y := yr a in
  exists m', apply1 q m = Ok m' /\ shape_of m m' /\
    (forall k l, strip kd o X Y k l ->
       let v := strip_sum add o (half kd k l) (cell a (k + shr kd o X) (l + shc kd o Y)) (cell (m (dst q)) k l) in
       cell (m' (src q)) (k + shr kd o X) (l + shc kd o Y) = v /\ cell (m' (dst q)) k l = v) /\
    (forall p r c, ~ touches m q p r c -> cell (m' p) r c = cell (m p) r c).
Proof.
  intros Hf a kd o X Y. subst a kd o X Y. unfold apply1, apply_op, pairop. fold (opf1 add (okind q)).
  destruct (opf1_spec (okind q) _ _ Hf) as (a' & b' & E & Sa & Sb & Hv & Fa & Fb).
  rewrite E; cbn [bind]. eexists. split; [reflexivity|]. pose proof (src_dst q) as Ne. split; [|split].
  - intros p. unfold updp. destruct (peq p (dst q)) eqn:P1; [apply peq_true in P1; now subst|].
    destruct (peq p (src q)) eqn:P2; [apply peq_true in P2; now subst|apply same_shape_refl].
  - intros k l H. rewrite updp_eq, updp_ne, updp_eq by exact Ne. now apply Hv.
  - intros p r c Ht. unfold touches in Ht. unfold updp.
    destruct (peq p (dst q)) eqn:P1; [apply peq_true in P1; subst; apply Fb; intros H; apply Ht; now right|].
    destruct (peq p (src q)) eqn:P2; [|reflexivity]. apply peq_true in P2; subst. apply Fa. intros H; apply Ht; now left.
Qed.

Lemma shape_of_refl m : shape_of m m. Proof. intros p; apply same_shape_refl. Qed.
Lemma shape_of_trans m1 m2 m3 : shape_of m1 m2 -> shape_of m2 m3 -> shape_of m1 m3.
Proof. intros H1 H2 p. eapply same_shape_trans; eauto. Qed.
Lemma fits_shape m m' q : shape_of m m' -> fits (okind q) (m (src q)) (m (dst q)) -> fits (okind q) (m' (src q)) (m' (dst q)).
Proof.
  intros Hs (Wa & Wb & Eo & Hk). pose proof (Hs (src q)) as (A1 & A2 & A3 & A4 & A5).
  pose proof (Hs (dst q)) as (B1 & B2 & B3 & B4 & B5).
  repeat split; try (eapply same_shape_wf; eauto; fail); try congruence.
  destruct (okind q); rewrite ?A1, ?A2, ?B1, ?B2; auto.
Qed.
Lemma touches_shape m m' q p r c : shape_of m m' -> (touches m' q p r c <-> touches m q p r c).
Proof. intros Hs. unfold touches. pose proof (Hs (src q)) as (A1 & A2 & A3 & A4 & A5). now rewrite A1, A2, A5. Qed.

(** a list of calls: succeeds, keeps the shapes, does not change cells it does not touch *)
Lemma run1_frame l : forall m, (forall q, In q l -> fits (okind q) (m (src q)) (m (dst q))) ->
  exists m', run1 l m = Ok m' /\ shape_of m m' /\
    forall p r c, (forall q, In q l -> ~ touches m q p r c) -> cell (m' p) r c = cell (m p) r c.
Proof.
  induction l as [|q l IH]; intros m Hf.
  - exists m. split; [reflexivity|]. split; [apply shape_of_refl|reflexivity].
  - destruct (apply1_spec q m (Hf q ltac:(now left))) as (m1 & E1 & S1 & _ & F1).
    destruct (IH m1) as (m' & E & S & F).
    { intros q' Hq'. apply (fits_shape m); [exact S1|]. apply Hf. now right. }
    exists m'. unfold run1 in *. cbn [run_ops]. fold apply1. rewrite E1; cbn [bind].
    split; [exact E|]. split; [eapply shape_of_trans; eauto|].
    intros p r c Ht. rewrite F, F1; [reflexivity|apply Ht; now left|].
    intros q' Hq'. rewrite (touches_shape m); [apply Ht; now right|exact S1].
Qed.
Lemma run1_app l1 : forall l2 m, run1 (l1 ++ l2) m = do m' <- run1 l1 m; run1 l2 m'.
Proof.
  unfold run1. induction l1 as [|a l1 IH]; intros l2 m; cbn [app run_ops bind]; [reflexivity|].
  destruct (apply_op _ _ _ a m); cbn [bind]; auto.
Qed.

(** a pair of cells combined by exactly one call of the list *)
Lemma run1_once l q m k l0 :
  NoDup l -> In q l -> (forall q', In q' l -> fits (okind q') (m (src q')) (m (dst q'))) ->
  let a := m (src q) in let kd := okind q in let o := os a in let X := xr a in let Y := yr a in
  strip kd o X Y k l0 ->
  (forall q', In q' l -> q' <> q -> ~ touches m q' (src q) (k + shr kd o X) (l0 + shc kd o Y) /\
                                   ~ touches m q' (dst q) k l0) ->
  exists m', run1 l m = Ok m' /\ shape_of m m' /\
    let v := strip_sum add o (half kd k l0) (cell a (k + shr kd o X) (l0 + shc kd o Y)) (cell (m (dst q)) k l0) in
    cell (m' (src q)) (k + shr kd o X) (l0 + shc kd o Y) = v /\ cell (m' (dst q)) k l0 = v.
Proof.
  intros Hn Hq Hf a kd o X Y Hs Hu. apply in_split in Hq as (l1 & l2 & ->).
  apply NoDup_remove_2 in Hn. rewrite in_app_iff in Hn.
  destruct (run1_frame l1 m) as (m1 & E1 & S1 & F1).
  { intros q' H. apply Hf, in_app_iff. now left. }
  destruct (apply1_spec q m1) as (m2 & E2 & S2 & V2 & F2).
  { apply (fits_shape m); [exact S1|]. apply Hf, in_app_iff. right; now left. }
  assert (S12 : shape_of m m2) by (eapply shape_of_trans; eauto).
  destruct (run1_frame l2 m2) as (m3 & E3 & S3 & F3).
  { intros q' H. apply (fits_shape m); [exact S12|]. apply Hf, in_app_iff. right; now right. }
  exists m3. split.
  { rewrite run1_app, E1; cbn [bind]. unfold run1; cbn [run_ops]. fold apply1. rewrite E2; cbn [bind]. exact E3. }
  split; [eapply shape_of_trans; eauto|].
  pose proof (S1 (src q)) as (A1 & A2 & A3 & A4 & A5).
  specialize (V2 k l0). rewrite A1, A2, A5 in V2. fold a in V2. fold kd in V2. fold o X Y in V2.
  specialize (V2 Hs). cbv zeta in V2 |- *.
  assert (Q : forall q', In q' l1 \/ In q' l2 -> q' <> q) by (intros q' [H|H] ->; apply Hn; auto).
  rewrite !F3; [|intros q' Hq'; rewrite (touches_shape m) by exact S12; apply (Hu q');
                  [apply in_app_iff; right; now right|auto] ..].
  destruct V2 as [V2 V3]. rewrite V2, V3.
  rewrite !F1; [split; reflexivity|intros q' Hq'; apply (Hu q'); [apply in_app_iff; now left|auto] ..].
Qed.

(** ** sums over a commutative monoid *)
Variable zero : T.
Hypothesis add_comm : forall x y, add x y = add y x.
Hypothesis add_assoc : forall x y z, add x (add y z) = add (add x y) z.
Hypothesis add_zero : forall x, add x zero = x.

Definition msum {A} (f : A -> T) (l : list A) : T := fold_right (fun x s => add (f x) s) zero l.
Lemma msum_ext {A} (f g : A -> T) l : (forall x, In x l -> f x = g x) -> msum f l = msum g l.
Proof.
  induction l as [|x l IH]; intros H; [reflexivity|]. cbn [msum fold_right]. f_equal; [apply H; now left|].
  apply IH. intros y Hy; apply H; now right.
Qed.
Lemma add_zero_l x : add zero x = x. Proof. now rewrite add_comm. Qed.
Lemma msum_add {A} (f g : A -> T) l : msum (fun x => add (f x) (g x)) l = add (msum f l) (msum g l).
Proof.
  induction l as [|x l IH]; cbn [msum fold_right]; [now rewrite add_zero|].
  unfold msum in IH. rewrite IH. rewrite <- !add_assoc. f_equal.
  rewrite !add_assoc. f_equal. apply add_comm.
Qed.
Lemma msum_zero {A} (f : A -> T) l : (forall x, In x l -> f x = zero) -> msum f l = zero.
Proof.
  induction l as [|x l IH]; intros H; [reflexivity|]. cbn [msum fold_right]. rewrite H by now left.
  rewrite add_zero_l. apply IH. intros; apply H; now right.
Qed.
Lemma msum_one {A} (f : A -> T) l x0 : NoDup l -> In x0 l -> (forall x, In x l -> x <> x0 -> f x = zero) ->
  msum f l = f x0.
Proof.
  intros Hn. induction Hn as [|x l Hx Hn IH]; intros Hin H; [destruct Hin|]. cbn [msum fold_right].
  destruct Hin as [->|Hin].
  - change (fold_right (fun x1 s => add (f x1) s) zero l) with (msum f l).
    rewrite msum_zero, add_zero; [reflexivity|]. intros y Hy. apply H; [now right|]. intros ->; contradiction.
  - rewrite (H x); [|now left|intros ->; contradiction]. rewrite add_zero_l. apply IH; auto.
    intros y Hy. apply H. now right.
Qed.
Lemma strip_sum_comm o k x y : strip_sum add o k x y = add x y.
Proof. unfold strip_sum. destruct (k <? o); auto. Qed.

(** all grids square with the same size *)
Variables R C n o : Z.
Hypothesis Ho : 0 <= o.
Hypothesis Hn4 : 4 * o <= n.
Hypothesis Hn : n < 2 ^ 32.
Definition uniform m : Prop := forall i j, 0 <= i < R -> 0 <= j < C ->
  wf (m (i, j)) /\ os (m (i, j)) = o /\ xr (m (i, j)) = n /\ yr (m (i, j)) = n.
Definition valid (q : op) : Prop :=
  0 <= orow q /\ 0 <= ocol q /\
  match okind q with
  | KX => orow q < R - 1 /\ ocol q < C
  | KY => orow q < R /\ ocol q < C - 1
  | KXY => orow q < R - 1 /\ ocol q < C - 1
  end.
Lemma valid_fits m q : uniform m -> valid q ->
  fits (okind q) (m (src q)) (m (dst q)) /\ os (m (src q)) = o /\ xr (m (src q)) = n /\ yr (m (src q)) = n.
Proof.
  intros U V. destruct q as [kd i j]. unfold valid in V; cbn [okind orow ocol src dst] in *.
  assert (A : 0 <= i < R /\ 0 <= j < C) by (destruct kd; lia).
  destruct (U i j) as (Wa & Oa & Xa & Ya); try lia. unfold src; cbn [orow ocol].
  unfold fits, dst; cbn [okind orow ocol].
  destruct kd; [destruct (U (i + 1) j) as (Wb & Ob & Xb & Yb)|destruct (U i (j + 1)) as (Wb & Ob & Xb & Yb)
               |destruct (U (i + 1) (j + 1)) as (Wb & Ob & Xb & Yb)]; try lia;
    (split; [split; [exact Wa|split; [exact Wb|split; [congruence|]]]|split; [exact Oa|split; assumption]]);
    first [congruence|split; [congruence|split; congruence]].
Qed.

(** what call [q] adds to interior cell (p, r, c): the value of the matching ghost cell of the other domain *)
Definition contrib m (q : op) (p : Z * Z) (r c : Z) : T :=
  let sr := shr (okind q) o n in let sc := shc (okind q) o n in
  if peq p (src q) then
    match okind q with
    | KX => if n - 2 * o <=? r then cell (m (dst q)) (r - sr) (c - sc) else zero
    | KY => if n - 2 * o <=? c then cell (m (dst q)) (r - sr) (c - sc) else zero
    | KXY => if (n - 2 * o <=? r) && (n - 2 * o <=? c) then cell (m (dst q)) (r - sr) (c - sc) else zero
    end
  else if peq p (dst q) then
    match okind q with
    | KX => if r <? 2 * o then cell (m (src q)) (r + sr) (c + sc) else zero
    | KY => if c <? 2 * o then cell (m (src q)) (r + sr) (c + sc) else zero
    | KXY => if (r <? 2 * o) && (c <? 2 * o) then cell (m (src q)) (r + sr) (c + sc) else zero
    end
  else zero.

Definition interior (r c : Z) : Prop := o <= r < n - o /\ o <= c < n - o.

Lemma contrib_step m q : uniform m -> valid q ->
  exists m1, apply1 q m = Ok m1 /\ shape_of m m1 /\
    (forall p r c, interior r c -> cell (m1 p) r c = add (cell (m p) r c) (contrib m q p r c)) /\
    (forall q' p r c, interior r c -> q' <> q -> contrib m1 q' p r c = contrib m q' p r c).
Proof.
  intros U V. destruct (valid_fits m q U V) as (Hf & Eo & Ex & Ey).
  destruct (apply1_spec q m Hf) as (m1 & E1 & S1 & V1 & F1). rewrite Eo, Ex, Ey in V1.
  exists m1. split; [exact E1|]. split; [exact S1|].
  assert (F1' : forall p r c, ~ ((p = src q /\ strip (okind q) o n n (r - shr (okind q) o n) (c - shc (okind q) o n)) \/
                               (p = dst q /\ strip (okind q) o n n r c)) -> cell (m1 p) r c = cell (m p) r c).
  { intros p r c H. apply F1. unfold touches. now rewrite Eo, Ex, Ey. }
  clear F1. pose proof (src_dst q) as Ne. split.
  - intros p r c [Ir Ic]. unfold contrib.
    destruct (peq p (src q)) eqn:Ps; [apply peq_true in Ps; subst p|].
    + assert (D : forall b : bool, (b = true -> strip (okind q) o n n (r - shr (okind q) o n) (c - shc (okind q) o n)) ->
                (b = false -> ~ strip (okind q) o n n (r - shr (okind q) o n) (c - shc (okind q) o n)) ->
                cell (m1 (src q)) r c = add (cell (m (src q)) r c)
                  (if b then cell (m (dst q)) (r - shr (okind q) o n) (c - shc (okind q) o n) else zero)).
      { intros b H1 H2. destruct b.
        - specialize (V1 _ _ (H1 eq_refl)). cbv zeta in V1. rewrite !Z.sub_add in V1. rewrite strip_sum_comm in V1. apply V1.
        - rewrite add_zero. apply F1'. intros [[_ H]|[H _]]; [now apply H2|contradiction]. }
      revert D. destruct (okind q) eqn:Ek; cbn [strip shr shc]; intros D; apply D; unfold diag_block; lia.
    + destruct (peq p (dst q)) eqn:Pd; [apply peq_true in Pd; subst p|].
      * assert (D : forall b : bool, (b = true -> strip (okind q) o n n r c) ->
                (b = false -> ~ strip (okind q) o n n r c) ->
                cell (m1 (dst q)) r c = add (cell (m (dst q)) r c)
                  (if b then cell (m (src q)) (r + shr (okind q) o n) (c + shc (okind q) o n) else zero)).
        { intros b H1 H2. destruct b.
          - specialize (V1 _ _ (H1 eq_refl)). cbv zeta in V1. rewrite strip_sum_comm in V1. rewrite add_comm. apply V1.
          - rewrite add_zero. apply F1'. intros [[H _]|[_ H]]; [congruence|now apply H2]. }
        revert D. destruct (okind q) eqn:Ek; cbn [strip shr shc]; intros D; apply D; unfold diag_block; lia.
      * rewrite add_zero. apply F1'. apply peq_false in Ps, Pd. intros [[H _]|[H _]]; contradiction.
  - intros q' p r c [Ir Ic] Hne. unfold contrib.
    destruct q as [kd i j], q' as [kd' i' j']. unfold src, dst in *. cbn [okind orow ocol] in *.
    assert (Hne' : kd' <> kd \/ i' <> i \/ j' <> j).
    { destruct (Z.eq_dec i' i); [|now (right; left)]. destruct (Z.eq_dec j' j); [|now (right; right)]. subst.
      left. congruence. }
    destruct (peq p (i', j')) eqn:Ps; [|match goal with |- context [peq p ?x] => destruct (peq p x) eqn:Pd end; [|reflexivity]].
    all: destruct kd', kd; cbn [strip shr shc] in *; repeat match goal with |- context [if ?b then _ else _] => destruct b eqn:? end; try reflexivity.
    all: apply F1'; unfold diag_block; intros [[E H]|[E H]]; injection E as E1' E2'; destruct Hne' as [X|X]; try congruence; try lia.
Qed.

Lemma uniform_shape m m' : shape_of m m' -> uniform m -> uniform m'.
Proof.
  intros S U i j Hi Hj. destruct (U i j Hi Hj) as (W & A & B & D). pose proof (S (i, j)) as Sh.
  pose proof Sh as (S1 & S2 & S3 & S4 & S5). split; [eapply same_shape_wf; eauto|]. repeat split; congruence.
Qed.

Lemma run1_sum l : forall m, uniform m -> NoDup l -> Forall valid l ->
  exists m', run1 l m = Ok m' /\ shape_of m m' /\
    forall p r c, interior r c -> cell (m' p) r c = add (cell (m p) r c) (msum (fun q => contrib m q p r c) l).
Proof.
  induction l as [|q l IH]; intros m U Nd Va.
  - exists m. split; [reflexivity|]. split; [apply shape_of_refl|]. intros. cbn [msum fold_right]. now rewrite add_zero.
  - inversion Nd; inversion Va; subst. destruct (contrib_step m q U) as (m1 & E1 & S1 & V1 & K1); [assumption|].
    destruct (IH m1) as (m' & E & S & V); auto; [eapply uniform_shape; eauto|].
    exists m'. unfold run1 in *; cbn [run_ops]. fold apply1. rewrite E1; cbn [bind]. split; [exact E|].
    split; [eapply shape_of_trans; eauto|]. intros p r c I. rewrite V, V1 by exact I.
    cbn [msum fold_right]. rewrite <- add_assoc. do 2 f_equal. apply msum_ext. intros q' Hq'. apply K1; [exact I|].
    intros ->; contradiction.
Qed.
End Sum.
