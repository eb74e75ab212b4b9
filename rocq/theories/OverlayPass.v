(** Closed form of the stitching pass; rows of domains; three-component grids. *)
From Verif Require Import Base ListUtil GridModel GridProofs GridExtra CollectorModel CollectorProofs OverlayModel Interleave OverlayConc OverlaySum.
From Coq Require Import ZifyBool Permutation.

(** ** the calls of a pass *)
Lemma In_block R C ij q : In q (block_ops R C ij) ->
  ij = (orow q, ocol q) /\
  match okind q with
  | KX => orow q < R - 1 | KY => ocol q < C - 1 | KXY => orow q < R - 1 /\ ocol q < C - 1
  end.
Proof.
  destruct ij as [i j]. unfold block_ops. rewrite !in_app_iff. intros [H|[H|H]].
  - destruct (i <? R - 1) eqn:E; [destruct H as [<-|[]]|destruct H]. cbn. split; [reflexivity|lia].
  - destruct (j <? C - 1) eqn:E; [destruct H as [<-|[]]|destruct H]. cbn. split; [reflexivity|lia].
  - destruct ((i <? R - 1) && (j <? C - 1)) eqn:E; [destruct H as [<-|[]]|destruct H]. cbn. split; [reflexivity|lia].
Qed.
Lemma In_pass_ops R C q : 0 <= R -> 0 <= C -> (In q (pass_ops R C) <-> valid R C q).
Proof.
  intros HR HC. unfold pass_ops, valid. rewrite in_flat_map. split.
  - intros ([i j] & Hij & Hq). apply code_order_In in Hij; cbn [rd_ zd_] in *; try lia.
    apply In_block in Hq as [E Hq]. injection E as -> ->. destruct (okind q); lia.
  - intros V. exists (orow q, ocol q). split.
    + apply code_order_In; cbn [rd_ zd_]; try lia. destruct (okind q); lia.
    + destruct q as [kd i j]; cbn [okind orow ocol] in *. unfold block_ops. rewrite !in_app_iff. destruct kd.
      * left. replace (i <? R - 1) with true by lia. now left.
      * right; left. replace (j <? C - 1) with true by lia. now left.
      * right; right. replace ((i <? R - 1) && (j <? C - 1)) with true by lia. now left.
Qed.
Lemma NoDup_block R C ij : NoDup (block_ops R C ij).
Proof.
  destruct ij as [i j]. unfold block_ops.
  destruct (i <? R - 1), (j <? C - 1); cbn [andb app]; repeat constructor; cbn; intuition discriminate.
Qed.
Lemma NoDup_flat_map {A B} (f : A -> list B) l :
  NoDup l -> (forall x, NoDup (f x)) -> (forall x y z, In z (f x) -> In z (f y) -> x = y) -> NoDup (flat_map f l).
Proof.
  intros Hl Hf Hd. induction Hl as [|x l Hx Hl IH]; cbn [flat_map]; [constructor|]. apply nodup_app; auto.
  intros z Hz Hz2. apply in_flat_map in Hz2 as (y & Hy & Hz2). rewrite (Hd x y z Hz Hz2) in Hx. contradiction.
Qed.
Lemma NoDup_code_order a : 0 <= rd_ a -> 0 <= zd_ a -> NoDup (code_order a).
Proof.
  intros HR HC. unfold code_order.
  assert (P : forall x, (x - 1) mod 2 <> 0 \/ (x - 0) mod 2 <> 0).
  { intros x. pose proof (Z.div_mod (x - 1) 2 ltac:(lia)). pose proof (Z.div_mod (x - 0) 2 ltac:(lia)). lia. }
  repeat apply nodup_app; try apply colour_nodup.
  all: intros [i j] Hi; rewrite ?in_app_iff, !colour_In by lia; apply colour_In in Hi; try lia;
    specialize (P i) as Pi; specialize (P j) as Pj; lia.
Qed.
Lemma NoDup_pass_ops R C : 0 <= R -> 0 <= C -> NoDup (pass_ops R C).
Proof.
  intros. unfold pass_ops. apply NoDup_flat_map; [now apply NoDup_code_order|apply NoDup_block|].
  intros x y z Hx Hy. apply In_block in Hx as [-> _]. apply In_block in Hy as [-> _]. reflexivity.
Qed.

(** ** closed form *)
Section Closed.
Context {T : Type}.
Variable add : T -> T -> T.
Variable zero : T.
Hypothesis add_comm : forall x y, add x y = add y x.
Hypothesis add_assoc : forall x y z, add x (add y z) = add (add x y) z.
Hypothesis add_zero : forall x, add x zero = x.
Variables R C n o : Z.
Hypothesis HR : 0 <= R.
Hypothesis HC : 0 <= C.
Hypothesis Ho : 0 <= o.
Hypothesis Hn4 : 4 * o <= n.
Hypothesis Hn : n < 2 ^ 32.

(** Specification.  In which direction is there another domain that also stores interior row [r] (raw row
    number) of domain row [i]?  -1 / 1: the previous / next one, 0: none. *)
Definition rowdir (i r : Z) : Z :=
  if (r <? 2 * o) && (0 <? i) then -1 else if (n - 2 * o <=? r) && (i <? R - 1) then 1 else 0.
Definition coldir (j c : Z) : Z :=
  if (c <? 2 * o) && (0 <? j) then -1 else if (n - 2 * o <=? c) && (j <? C - 1) then 1 else 0.
(** the value domain (i + di, j + dj) stores for the same physical cell: domains are n - 2 o cells apart *)
Definition nb (m : doms (grid T)) (i j di dj r c : Z) : T :=
  cell (m (i + di, j + dj)) (r - di * (n - 2 * o)) (c - dj * (n - 2 * o)).
Definition when (b : bool) (v : T) : T := if b then v else zero.

Lemma msum_when {A} (f : A -> T) (l : list A) (b : bool) x0 v :
  NoDup l -> (b = true -> In x0 l) -> (b = true -> f x0 = v) ->
  (forall x, In x l -> (b = false \/ x <> x0) -> f x = zero) -> msum add zero f l = when b v.
Proof.
  intros Nd Hin Hv Hz. unfold when. destruct b.
  - rewrite (msum_one add zero add_comm add_zero f l x0); auto.
  - apply msum_zero; auto.
Qed.

Lemma total_contrib m l i j r c : Permutation l (pass_ops R C) -> 0 <= i < R -> 0 <= j < C -> interior n o r c ->
  msum add zero (fun q => contrib zero n o m q (i, j) r c) l =
  add (add (when (negb (rowdir i r =? 0)) (nb m i j (rowdir i r) 0 r c))
           (when (negb (coldir j c =? 0)) (nb m i j 0 (coldir j c) r c)))
      (when (negb (rowdir i r =? 0) && (rowdir i r =? coldir j c)) (nb m i j (rowdir i r) (coldir j c) r c)).
Proof.
  intros Pl Hi Hj [Ir Ic].
  assert (Nd : NoDup l) by (eapply Permutation_NoDup; [symmetry; exact Pl|now apply NoDup_pass_ops]).
  assert (Inl : forall q, In q l <-> valid R C q).
  { intros q. rewrite <- In_pass_ops by assumption. split; apply Permutation_in; [exact Pl|now symmetry]. }
  assert (RD : rowdir i r = -1 /\ r < 2 * o /\ 0 < i \/ rowdir i r = 1 /\ n - 2 * o <= r /\ i < R - 1 \/
               rowdir i r = 0 /\ (2 * o <= r \/ i <= 0) /\ (r < n - 2 * o \/ R - 1 <= i)).
  { unfold rowdir. repeat match goal with |- context [if ?b then _ else _] => destruct b eqn:? end; lia. }
  assert (CD : coldir j c = -1 /\ c < 2 * o /\ 0 < j \/ coldir j c = 1 /\ n - 2 * o <= c /\ j < C - 1 \/
               coldir j c = 0 /\ (2 * o <= c \/ j <= 0) /\ (c < n - 2 * o \/ C - 1 <= j)).
  { unfold coldir. repeat match goal with |- context [if ?b then _ else _] => destruct b eqn:? end; lia. }
  set (di := rowdir i r) in *. set (dj := coldir j c) in *. clearbody di dj.
  set (sel := fun kd q => match kd, okind q with KX, KX | KY, KY | KXY, KXY => contrib zero n o m q (i, j) r c | _, _ => zero end).
  rewrite (msum_ext add zero _ (fun q => add (add (sel KX q) (sel KY q)) (sel KXY q))).
  2: { intros q _. unfold sel. destruct (okind q); rewrite ?add_zero, ?(add_zero_l add zero add_comm add_zero); reflexivity. }
  rewrite !(msum_add add zero add_comm add_assoc add_zero). unfold sel. f_equal; [f_equal|].
  - apply msum_when with (x0 := mkOp KX (if di =? -1 then i - 1 else i) j); [exact Nd|..].
    + intros B. apply Inl. unfold valid; cbn [okind orow ocol]. destruct (di =? -1) eqn:?; lia.
    + cbn [okind]. intros B. unfold contrib, src, dst; cbn [okind orow ocol shr shc].
      destruct (di =? -1) eqn:E1.
      * replace (peq (i, j) (i - 1, j)) with false by (symmetry; apply peq_false; intros [= ?]; lia).
        replace (peq (i, j) (i - 1 + 1, j)) with true by (symmetry; apply peq_true; f_equal; lia).
        replace (r <? 2 * o) with true by lia. unfold nb. assert (di = -1) by lia. subst di.
        f_equal; try lia; f_equal; f_equal; lia.
      * replace (peq (i, j) (i, j)) with true by (symmetry; now apply peq_true).
        replace (n - 2 * o <=? r) with true by lia. unfold nb. assert (di = 1) by lia. subst di.
        f_equal; try lia; f_equal; f_equal; lia.
    + intros q Hq Hb. apply Inl in Hq. destruct q as [kd i' j']. cbn [okind]. destruct kd; try reflexivity.
      unfold valid in Hq; cbn [okind orow ocol] in Hq.
      assert (Hb' : di = 0 \/ j' <> j \/ i' <> (if di =? -1 then i - 1 else i)).
      { destruct Hb as [Hb|Hb]; [left; lia|]. right. destruct (Z.eq_dec j' j); [right|now left]. intros ->. apply Hb. now subst. }
      clear Hb. unfold contrib, src, dst; cbn [okind orow ocol shr shc].
      destruct (peq (i, j) (i', j')) eqn:P1.
      * apply peq_true in P1. injection P1 as -> ->. destruct (n - 2 * o <=? r) eqn:E; [|reflexivity]. exfalso.
        destruct (di =? -1) eqn:?; lia.
      * destruct (peq (i, j) (i' + 1, j')) eqn:P2; [|reflexivity]. apply peq_true in P2. injection P2 as -> ->.
        destruct (r <? 2 * o) eqn:E; [|reflexivity]. exfalso. destruct (di =? -1) eqn:?; lia.
  - apply msum_when with (x0 := mkOp KY i (if dj =? -1 then j - 1 else j)); [exact Nd|..].
    + intros B. apply Inl. unfold valid; cbn [okind orow ocol]. destruct (dj =? -1) eqn:?; lia.
    + cbn [okind]. intros B. unfold contrib, src, dst; cbn [okind orow ocol shr shc].
      destruct (dj =? -1) eqn:E1.
      * replace (peq (i, j) (i, j - 1)) with false by (symmetry; apply peq_false; intros [= ?]; lia).
        replace (peq (i, j) (i, j - 1 + 1)) with true by (symmetry; apply peq_true; f_equal; lia).
        replace (c <? 2 * o) with true by lia. unfold nb. assert (dj = -1) by lia. subst dj.
        f_equal; try lia; f_equal; f_equal; lia.
      * replace (peq (i, j) (i, j)) with true by (symmetry; now apply peq_true).
        replace (n - 2 * o <=? c) with true by lia. unfold nb. assert (dj = 1) by lia. subst dj.
        f_equal; try lia; f_equal; f_equal; lia.
    + intros q Hq Hb. apply Inl in Hq. destruct q as [kd i' j']. cbn [okind]. destruct kd; try reflexivity.
      unfold valid in Hq; cbn [okind orow ocol] in Hq.
      assert (Hb' : dj = 0 \/ i' <> i \/ j' <> (if dj =? -1 then j - 1 else j)).
      { destruct Hb as [Hb|Hb]; [left; lia|]. right. destruct (Z.eq_dec i' i); [right|now left]. intros ->. apply Hb. now subst. }
      clear Hb. unfold contrib, src, dst; cbn [okind orow ocol shr shc].
      destruct (peq (i, j) (i', j')) eqn:P1.
      * apply peq_true in P1. injection P1 as -> ->. destruct (n - 2 * o <=? c) eqn:E; [|reflexivity]. exfalso.
        destruct (dj =? -1) eqn:?; lia.
      * destruct (peq (i, j) (i', j' + 1)) eqn:P2; [|reflexivity]. apply peq_true in P2. injection P2 as -> ->.
        destruct (c <? 2 * o) eqn:E; [|reflexivity]. exfalso. destruct (dj =? -1) eqn:?; lia.
  - apply msum_when with (x0 := mkOp KXY (if di =? -1 then i - 1 else i) (if di =? -1 then j - 1 else j)); [exact Nd|..].
    + intros B. apply Inl. unfold valid; cbn [okind orow ocol]. destruct (di =? -1) eqn:?; lia.
    + cbn [okind]. intros B. unfold contrib, src, dst; cbn [okind orow ocol shr shc].
      destruct (di =? -1) eqn:E1.
      * replace (peq (i, j) (i - 1, j - 1)) with false by (symmetry; apply peq_false; intros [= ?]; lia).
        replace (peq (i, j) (i - 1 + 1, j - 1 + 1)) with true by (symmetry; apply peq_true; f_equal; lia).
        replace ((r <? 2 * o) && (c <? 2 * o)) with true by lia. unfold nb.
        assert (di = -1) by lia. assert (dj = -1) by lia. subst di dj.
        f_equal; try lia; f_equal; f_equal; lia.
      * replace (peq (i, j) (i, j)) with true by (symmetry; now apply peq_true).
        replace ((n - 2 * o <=? r) && (n - 2 * o <=? c)) with true by lia. unfold nb.
        assert (di = 1) by lia. assert (dj = 1) by lia. subst di dj.
        f_equal; try lia; f_equal; f_equal; lia.
    + intros q Hq Hb. apply Inl in Hq. destruct q as [kd i' j']. cbn [okind]. destruct kd; try reflexivity.
      unfold valid in Hq; cbn [okind orow ocol] in Hq.
      assert (Hb' : di = 0 \/ di <> dj \/ i' <> (if di =? -1 then i - 1 else i) \/ j' <> (if di =? -1 then j - 1 else j)).
      { destruct Hb as [Hb|Hb]; [lia|]. do 2 right.
        destruct (Z.eq_dec i' (if di =? -1 then i - 1 else i)); [right|now left]. intros ->. apply Hb. now subst. }
      clear Hb. unfold contrib, src, dst; cbn [okind orow ocol shr shc].
      destruct (peq (i, j) (i', j')) eqn:P1.
      * apply peq_true in P1. injection P1 as -> ->. destruct ((n - 2 * o <=? r) && (n - 2 * o <=? c)) eqn:E; [|reflexivity].
        exfalso. destruct (di =? -1) eqn:?; lia.
      * destruct (peq (i, j) (i' + 1, j' + 1)) eqn:P2; [|reflexivity]. apply peq_true in P2. injection P2 as -> ->.
        destruct ((r <? 2 * o) && (c <? 2 * o)) eqn:E; [|reflexivity]. exfalso. destruct (di =? -1) eqn:?; lia.
Qed.

Theorem pass_interior m l : uniform R C n o m -> Permutation l (pass_ops R C) ->
  exists m', run1 add l m = Ok m' /\ shape_of m m' /\
    forall i j r c, 0 <= i < R -> 0 <= j < C -> interior n o r c ->
      cell (m' (i, j)) r c =
      add (cell (m (i, j)) r c)
        (add (add (when (negb (rowdir i r =? 0)) (nb m i j (rowdir i r) 0 r c))
                  (when (negb (coldir j c =? 0)) (nb m i j 0 (coldir j c) r c)))
             (when (negb (rowdir i r =? 0) && (rowdir i r =? coldir j c)) (nb m i j (rowdir i r) (coldir j c) r c))).
Proof.
  intros U Pl.
  destruct (run1_sum add zero add_comm add_assoc add_zero R C n o Hn4 l m U) as (m' & E & S & V).
  - eapply Permutation_NoDup; [symmetry; exact Pl|now apply NoDup_pass_ops].
  - apply Forall_forall. intros q Hq. apply In_pass_ops; auto. eapply Permutation_in; eauto.
  - exists m'. split; [exact E|]. split; [exact S|]. intros i j r c Hi Hj I. rewrite V by exact I. f_equal.
    now apply total_contrib.
Qed.
End Closed.

(** ** a row of domains: no algebraic laws of [add] needed, sizes along the row may differ *)
Section Chain.
Context {T : Type}.
Variable add : T -> T -> T.
Variables C X o : Z.
Variable Y : Z -> Z.
Hypothesis HC : 1 <= C.
Hypothesis Ho : 0 <= o.
Hypothesis HY : forall j, 0 <= j < C -> 4 * o <= Y j.
Definition row_of (m : doms (grid T)) : Prop := forall j, 0 <= j < C ->
  wf (m (0, j)) /\ os (m (0, j)) = o /\ xr (m (0, j)) = X /\ yr (m (0, j)) = Y j.

Lemma row_op q : valid 1 C q -> q = mkOp KY 0 (ocol q) /\ 0 <= ocol q < C - 1.
Proof.
  destruct q as [kd i j]. unfold valid; cbn [okind orow ocol]. intros V. destruct kd; try lia.
  split; [f_equal; lia|lia].
Qed.

Theorem row_pass m l : row_of m -> Permutation l (pass_ops 1 C) ->
  exists m', run1 add l m = Ok m' /\ shape_of m m' /\
    (forall j i k, 0 <= j < C - 1 -> o <= i < X - o -> 0 <= k < 2 * o ->
       let v := strip_sum add o k (cell (m (0, j)) i (Y j - 2 * o + k)) (cell (m (0, j + 1)) i k) in
       cell (m' (0, j)) i (Y j - 2 * o + k) = v /\ cell (m' (0, j + 1)) i k = v) /\
    (forall j i c, 0 <= j < C -> (0 < j -> 2 * o <= c) -> (j < C - 1 -> c < Y j - 2 * o) ->
       cell (m' (0, j)) i c = cell (m (0, j)) i c) /\
    (forall j i c, 0 <= j < C -> ~ o <= i < X - o -> cell (m' (0, j)) i c = cell (m (0, j)) i c).
Proof.
  intros HM Pl.
  assert (Nd : NoDup l) by (eapply Permutation_NoDup; [symmetry; exact Pl|apply NoDup_pass_ops; lia]).
  assert (Inl : forall q, In q l <-> valid 1 C q).
  { intros q. rewrite <- In_pass_ops by lia. split; apply Permutation_in; [exact Pl|now symmetry]. }
  assert (Fit : forall q, In q l -> fits (okind q) (m (src q)) (m (dst q))).
  { intros q Hq. apply Inl, row_op in Hq as [Eq Hj]. set (j := ocol q) in *. clearbody j. subst q. unfold src, dst, fits; cbn [okind orow ocol].
    destruct (HM j) as (W1 & O1 & X1 & Y1); try lia. destruct (HM (j + 1)) as (W2 & O2 & X2 & Y2); try lia.
    split; [exact W1|]. split; [exact W2|]. split; congruence. }
  assert (Tch : forall q p r c, In q l -> touches m q p r c ->
     o <= r < X - o /\ ((p = (0, ocol q) /\ Y (ocol q) - 2 * o <= c < Y (ocol q)) \/ (p = (0, ocol q + 1) /\ 0 <= c < 2 * o)) /\
     0 <= ocol q < C - 1).
  { intros q p r c Hq. apply Inl, row_op in Hq as [Eq Hj]. set (j := ocol q) in *. clearbody j. subst q.
    unfold touches, src, dst; cbn [okind orow ocol strip shr shc].
    destruct (HM j) as (W1 & O1 & X1 & Y1); try lia. rewrite O1, X1, Y1. intros [[-> H]|[-> H]].
    - split; [lia|]. split; [left; split; [reflexivity|lia]|lia].
    - split; [lia|]. split; [right; split; [reflexivity|lia]|lia]. }
  destruct (run1_frame add l m Fit) as (m' & E & S & F). exists m'. split; [exact E|]. split; [exact S|].
  split; [|split].
  - intros j i k Hj Hi Hk v. set (q := mkOp KY 0 j).
    destruct (HM j) as (W1 & O1 & X1 & Y1); try lia.
    destruct (run1_once add l q m i k Nd) as (m2 & E2 & S2 & V2).
    + apply Inl. unfold valid, q; cbn [okind orow ocol]. lia.
    + exact Fit.
    + unfold q, src; cbn [okind orow ocol strip]. rewrite O1, X1. lia.
    + intros q' Hq' Hne. unfold q, src, dst; cbn [okind orow ocol shr shc]. rewrite O1, Y1.
      assert (Hc : ocol q' <> j).
      { intros Hc. apply Hne. apply Inl, row_op in Hq' as [-> _]. unfold q. now rewrite Hc. }
      pose proof (HY j ltac:(lia)). pose proof (HY (j + 1) ltac:(lia)).
      split; intros Ht; apply Tch in Ht as (Hr & [[Ep Hcc]|[Ep Hcc]] & Hb); auto; injection Ep as Ep; try lia.
      rewrite <- Ep in *. lia.
    + rewrite E in E2. injection E2 as <-. subst v. unfold q, src, dst in V2; cbn [okind orow ocol shr shc half] in V2.
      rewrite O1, Y1, Z.add_0_r, (Z.add_comm k) in V2. exact V2.
  - intros j i c Hj H1 H2. apply F. intros q Hq Ht. apply Tch in Ht as (Hr & [[Ep Hcc]|[Ep Hcc]] & Hb); auto; injection Ep as Ep.
    + subst j. lia.
    + subst j. lia.
  - intros j i c Hj H1. apply F. intros q Hq Ht. apply Tch in Ht as (Hr & _); auto.
Qed.
End Chain.

(** ** three components: the pass acts on each component separately *)
Section Three.
Context {T : Type}.
Variable add : T -> T -> T.
Lemma run1_ext l : forall (m n : doms (grid T)), (forall p, m p = n p) -> oeq (run1 add l m) (run1 add l n).
Proof.
  induction l as [|q l IH]; intros m n E; unfold run1; cbn [run_ops]; [exact E|]. apply oeq_bind.
  - pose proof (pair_all_local (opf1 add (okind q)) (src q) (dst q) m n ltac:(intros p _; apply E)) as L.
    unfold apply_op. fold (opf1 add (okind q)).
    destruct (pairop (opf1 add (okind q)) (src q) (dst q) m), (pairop (opf1 add (okind q)) (src q) (dst q) n); cbn; auto.
    intros p; now apply L.
  - intros m1 n1 _ _ E1. now apply IH.
Qed.
Definition comp_of (c : comp) (m : doms (grid3 T)) : doms (grid T) := fun p => getc c (m p).

Lemma run3_comps l : forall m : doms (grid3 T),
  (forall c q, In q l -> fits (okind q) (comp_of c m (src q)) (comp_of c m (dst q))) ->
  exists m', run3 add l m = Ok m' /\
    forall c, exists mc, run1 add l (comp_of c m) = Ok mc /\ forall p, mc p = comp_of c m' p.
Proof.
  induction l as [|q l IH]; intros m Hf.
  - exists m. split; [reflexivity|]. intros c. exists (comp_of c m). split; reflexivity.
  - assert (A : exists m1, apply3 add q m = Ok m1 /\
        forall c, exists mc, apply1 add q (comp_of c m) = Ok mc /\ shape_of (comp_of c m) mc /\ forall p, mc p = comp_of c m1 p).
    { unfold apply3, apply1, apply_op, pairop. fold (opf3 add (okind q)) (opf1 add (okind q)). rewrite opf3_lift.
      destruct (opf1_spec add (okind q) _ _ (Hf Cr q ltac:(now left))) as (a & a' & E1 & Sa & Sa' & _).
      destruct (opf1_spec add (okind q) _ _ (Hf Cphi q ltac:(now left))) as (b & b' & E2 & Sb & Sb' & _).
      destruct (opf1_spec add (okind q) _ _ (Hf Cz q ltac:(now left))) as (c & c' & E3 & Sc & Sc' & _).
      rewrite (lift3p_spec (fun x y => opf1 add (okind q) (x, y)) _ _ _ _ _ _ _ _ E1 E2 E3); cbn [bind].
      eexists. split; [reflexivity|]. intros k.
      destruct k; rewrite ?E1, ?E2, ?E3; cbn [bind]; eexists; (split; [reflexivity|]); split;
        intros p; unfold comp_of, updp; destruct (peq p (dst q)) eqn:P1, (peq p (src q)) eqn:P2; cbn [getc c_r c_phi c_z];
        try apply same_shape_refl; try reflexivity; try apply peq_true in P1; try apply peq_true in P2; subst p; assumption. }
    destruct A as (m1 & E1 & H1). destruct (IH m1) as (m' & E & H).
    { intros c q' Hq'. destruct (H1 c) as (mc & _ & Sh & Ep). rewrite <- !Ep.
      apply (fits_shape (comp_of c m)); [exact Sh|]. apply Hf. now right. }
    exists m'. split; [unfold run3 in *; cbn [run_ops]; fold (apply3 add); rewrite E1; exact E|].
    intros c. destruct (H1 c) as (mc & Ec & _ & Ep). destruct (H c) as (md & Ed & Epd).
    pose proof (run1_ext l mc (comp_of c m1) Ep) as X. rewrite Ed in X.
    destruct (run1 add l mc) as [me| |] eqn:Ee; try contradiction.
    exists me. split; [unfold run1 in *; cbn [run_ops]; fold (apply1 add); rewrite Ec; exact Ee|].
    intros p. rewrite X. apply Epd.
Qed.
End Three.

(** ** a column of domains *)
Section Column.
Context {T : Type}.
Variable add : T -> T -> T.
Variables R Y o : Z.
Variable X : Z -> Z.
Hypothesis HR : 1 <= R.
Hypothesis Ho : 0 <= o.
Hypothesis HX : forall i, 0 <= i < R -> 4 * o <= X i.
Definition column_of (m : doms (grid T)) : Prop := forall i, 0 <= i < R ->
  wf (m (i, 0)) /\ os (m (i, 0)) = o /\ xr (m (i, 0)) = X i /\ yr (m (i, 0)) = Y.

Lemma column_op q : valid R 1 q -> q = mkOp KX (orow q) 0 /\ 0 <= orow q < R - 1.
Proof.
  destruct q as [kd i j]. unfold valid; cbn [okind orow ocol]. intros V. destruct kd; try lia.
  split; [f_equal; lia|lia].
Qed.

Theorem column_pass m l : column_of m -> Permutation l (pass_ops R 1) ->
  exists m', run1 add l m = Ok m' /\ shape_of m m' /\
    (forall i k j, 0 <= i < R - 1 -> o <= j < Y - o -> 0 <= k < 2 * o ->
       let v := strip_sum add o k (cell (m (i, 0)) (X i - 2 * o + k) j) (cell (m (i + 1, 0)) k j) in
       cell (m' (i, 0)) (X i - 2 * o + k) j = v /\ cell (m' (i + 1, 0)) k j = v) /\
    (forall i r c, 0 <= i < R -> (0 < i -> 2 * o <= r) -> (i < R - 1 -> r < X i - 2 * o) ->
       cell (m' (i, 0)) r c = cell (m (i, 0)) r c) /\
    (forall i r c, 0 <= i < R -> ~ o <= c < Y - o -> cell (m' (i, 0)) r c = cell (m (i, 0)) r c).
Proof.
  intros HM Pl.
  assert (Nd : NoDup l) by (eapply Permutation_NoDup; [symmetry; exact Pl|apply NoDup_pass_ops; lia]).
  assert (Inl : forall q, In q l <-> valid R 1 q).
  { intros q. rewrite <- In_pass_ops by lia. split; apply Permutation_in; [exact Pl|now symmetry]. }
  assert (Fit : forall q, In q l -> fits (okind q) (m (src q)) (m (dst q))).
  { intros q Hq. apply Inl, column_op in Hq as [Eq Hj]. set (i := orow q) in *. clearbody i. subst q. unfold src, dst, fits; cbn [okind orow ocol].
    destruct (HM i) as (W1 & O1 & X1 & Y1); try lia. destruct (HM (i + 1)) as (W2 & O2 & X2 & Y2); try lia.
    split; [exact W1|]. split; [exact W2|]. split; congruence. }
  assert (Tch : forall q p r c, In q l -> touches m q p r c ->
     o <= c < Y - o /\ ((p = (orow q, 0) /\ X (orow q) - 2 * o <= r < X (orow q)) \/ (p = (orow q + 1, 0) /\ 0 <= r < 2 * o)) /\
     0 <= orow q < R - 1).
  { intros q p r c Hq. apply Inl, column_op in Hq as [Eq Hj]. set (i := orow q) in *. clearbody i. subst q.
    unfold touches, src, dst; cbn [okind orow ocol strip shr shc].
    destruct (HM i) as (W1 & O1 & X1 & Y1); try lia. rewrite O1, X1, Y1. intros [[-> H]|[-> H]].
    - split; [lia|]. split; [left; split; [reflexivity|lia]|lia].
    - split; [lia|]. split; [right; split; [reflexivity|lia]|lia]. }
  destruct (run1_frame add l m Fit) as (m' & E & S & F). exists m'. split; [exact E|]. split; [exact S|].
  split; [|split].
  - intros i k j Hi Hj Hk v. set (q := mkOp KX i 0).
    destruct (HM i) as (W1 & O1 & X1 & Y1); try lia.
    destruct (run1_once add l q m k j Nd) as (m2 & E2 & S2 & V2).
    + apply Inl. unfold valid, q; cbn [okind orow ocol]. lia.
    + exact Fit.
    + unfold q, src; cbn [okind orow ocol strip]. rewrite O1, Y1. lia.
    + intros q' Hq' Hne. unfold q, src, dst; cbn [okind orow ocol shr shc]. rewrite O1, X1.
      assert (Hc : orow q' <> i).
      { intros Hc. apply Hne. apply Inl, column_op in Hq' as [-> _]. unfold q. now rewrite Hc. }
      pose proof (HX i ltac:(lia)). pose proof (HX (i + 1) ltac:(lia)).
      split; intros Ht; apply Tch in Ht as (Hr & [[Ep Hcc]|[Ep Hcc]] & Hb); auto; injection Ep as Ep; try lia.
      rewrite <- Ep in *. lia.
    + rewrite E in E2. injection E2 as <-. subst v. unfold q, src, dst in V2; cbn [okind orow ocol shr shc half] in V2.
      rewrite O1, X1, Z.add_0_r, (Z.add_comm k) in V2. exact V2.
  - intros j i c Hj H1 H2. apply F. intros q Hq Ht. apply Tch in Ht as (Hr & [[Ep Hcc]|[Ep Hcc]] & Hb); auto; injection Ep as Ep.
    + subst j. lia.
    + subst j. lia.
  - intros j i c Hj H1. apply F. intros q Hq Ht. apply Tch in Ht as (Hr & _); auto.
Qed.
End Column.
(** ** halo refresh: with zeroed ghost cells a pass copies interior values into the neighbours' edge ghosts *)
Section Halo.
Context {T : Type}.
Variable add : T -> T -> T.
Variable zero : T.
Hypothesis add_comm : forall x y, add x y = add y x.
Hypothesis add_assoc : forall x y z, add x (add y z) = add (add x y) z.
Hypothesis add_zero : forall x, add x zero = x.
Variables R C n o : Z.
Hypothesis HR : 0 <= R.
Hypothesis HC : 0 <= C.
Hypothesis Ho : 0 <= o.
Hypothesis Hn4 : 4 * o <= n.
Hypothesis Hn : n < 2 ^ 32.

Definition ghosts_zero (m : doms (grid T)) : Prop := forall i j r c, 0 <= i < R -> 0 <= j < C ->
  0 <= r < n -> 0 <= c < n -> ~ interior n o r c -> cell (m (i, j)) r c = zero.

Lemma contrib_ghost_zero m q p r c : ghosts_zero m -> valid R C q -> interior n o r c ->
  contrib zero n o m q p r c = zero.
Proof.
  intros G V [Ir Ic]. unfold contrib. destruct q as [kd i j]. unfold src, dst, valid in *; cbn [okind orow ocol] in *.
  destruct (peq p (i, j)).
  - destruct kd; cbn [shr shc];
      match goal with |- (if ?b then _ else _) = _ => destruct b eqn:B end; try reflexivity; apply G; unfold interior; lia.
  - match goal with |- (if ?b then _ else _) = _ => destruct b end; [|reflexivity].
    destruct kd; cbn [shr shc];
      match goal with |- (if ?b then _ else _) = _ => destruct b eqn:B end; try reflexivity; apply G; unfold interior; lia.
Qed.

Lemma halo_interior m l : uniform R C n o m -> ghosts_zero m -> NoDup l -> Forall (valid R C) l ->
  exists m', run1 add l m = Ok m' /\ shape_of m m' /\
    forall p r c, interior n o r c -> cell (m' p) r c = cell (m p) r c.
Proof.
  intros U G Nd Va. destruct (run1_sum add zero add_comm add_assoc add_zero R C n o Hn4 l m U Nd Va) as (m' & E & S & V).
  exists m'. split; [exact E|]. split; [exact S|]. intros p r c I. rewrite V by exact I.
  rewrite (msum_zero add zero add_comm add_zero), add_zero; [reflexivity|].
  intros q Hq. rewrite Forall_forall in Va. apply contrib_ghost_zero; auto.
Qed.

(** a ghost cell stitched by call [q] only *)
Lemma halo_ghost m l q k l0 : uniform R C n o m -> ghosts_zero m -> NoDup l -> Forall (valid R C) l -> In q l ->
  strip (okind q) o n n k l0 ->
  exists m', run1 add l m = Ok m' /\
   (interior n o (k + shr (okind q) o n) (l0 + shc (okind q) o n) -> ~ interior n o k l0 ->
     (forall q', valid R C q' -> q' <> q -> ~ touches m q' (dst q) k l0) ->
     cell (m' (dst q)) k l0 = cell (m (src q)) (k + shr (okind q) o n) (l0 + shc (okind q) o n)) /\
   (interior n o k l0 -> ~ interior n o (k + shr (okind q) o n) (l0 + shc (okind q) o n) ->
     (forall q', valid R C q' -> q' <> q -> ~ touches m q' (src q) (k + shr (okind q) o n) (l0 + shc (okind q) o n)) ->
     cell (m' (src q)) (k + shr (okind q) o n) (l0 + shc (okind q) o n) = cell (m (dst q)) k l0).
Proof.
  intros U G Nd Va Hq Hs. apply in_split in Hq as (l1 & l2 & ->).
  pose proof (NoDup_remove_1 _ _ _ Nd) as Nd12. pose proof (NoDup_remove_2 _ _ _ Nd) as Nq. rewrite in_app_iff in Nq.
  apply Forall_app in Va as [Va1 Va2]. inversion Va2 as [|? ? Vq Va2']; subst.
  assert (Nd1 : NoDup l1) by (clear - Nd12; induction l1; [constructor|]; inversion Nd12; subst; constructor; [rewrite in_app_iff in *; tauto|auto]).
  destruct (halo_interior m l1 U G Nd1 Va1) as (m1 & E1 & S1 & I1).
  assert (Fit : forall q', valid R C q' -> fits (okind q') (m (src q')) (m (dst q'))) by (intros q' V'; now apply (valid_fits R C n o)).
  destruct (run1_frame add l1 m) as (m1' & E1' & _ & F1).
  { intros q' H. apply Fit. rewrite Forall_forall in Va1. auto. }
  rewrite E1 in E1'. injection E1' as <-.
  destruct (apply1_spec add q m1) as (m2 & E2 & S2 & V2 & F2); [apply (fits_shape m); auto|].
  assert (S12 : shape_of m m2) by (eapply shape_of_trans; eauto).
  destruct (run1_frame add l2 m2) as (m3 & E3 & S3 & F3).
  { intros q' H. apply (fits_shape m); [exact S12|]. apply Fit. rewrite Forall_forall in Va2'. auto. }
  exists m3. split.
  { rewrite run1_app, E1; cbn [bind]. unfold run1; cbn [run_ops]. fold (apply1 add). rewrite E2; cbn [bind]. exact E3. }
  destruct (valid_fits R C n o m q U Vq) as (_ & Eo & Ex & Ey).
  pose proof (S1 (src q)) as (A1 & A2 & A3 & A4 & A5). rewrite A1, A2, A5, Eo, Ex, Ey in V2. specialize (V2 k l0 Hs).
  cbv zeta in V2. rewrite (strip_sum_comm add add_comm) in V2. destruct V2 as [V2 V3].
  rewrite Forall_forall in Va1, Va2'.
  assert (Rng : 0 <= k < n /\ 0 <= l0 < n /\ 0 <= k + shr (okind q) o n < n /\ 0 <= l0 + shc (okind q) o n < n).
  { destruct (okind q); unfold strip, diag_block in Hs; cbn [shr shc]; lia. }
  assert (Dom : forall x, x = src q \/ x = dst q -> 0 <= fst x < R /\ 0 <= snd x < C).
  { destruct q as [kd i j]. unfold valid, src, dst in *; cbn [okind orow ocol] in *. intros x [-> | ->]; destruct kd; cbn [fst snd]; lia. }
  split.
  - intros I NI Hu. rewrite F3.
    + rewrite V3. rewrite I1 by exact I. rewrite (F1 (dst q)).
      * destruct (dst q) as [i j] eqn:Eq. destruct (Dom (i, j)) as [D1 D2]; [now right|]. rewrite (G i j k l0); try tauto. apply add_zero.
      * intros q' Hq'. apply Hu; [auto|]. intros ->. tauto.
    + intros q' Hq'. rewrite (touches_shape m) by exact S12. apply Hu; [auto|]. intros ->. tauto.
  - intros I NI Hu. rewrite F3.
    + rewrite V2. rewrite I1 with (r := k) by exact I. rewrite (F1 (src q)).
      * destruct (src q) as [i j] eqn:Eq. destruct (Dom (i, j)) as [D1 D2]; [now left|]. rewrite (G i j (k + shr (okind q) o n)); try tauto.
        rewrite add_comm. apply add_zero.
      * intros q' Hq'. apply Hu; [auto|]. intros ->. tauto.
    + intros q' Hq'. rewrite (touches_shape m) by exact S12. apply Hu; [auto|]. intros ->. tauto.
Qed.

(** Specification: the ghost rows and columns (without the corner blocks) *)
Theorem halo_refresh m l : uniform R C n o m -> ghosts_zero m -> Permutation l (pass_ops R C) ->
  exists m', run1 add l m = Ok m' /\ shape_of m m' /\
    (forall i j r c, 0 <= i < R -> 0 <= j < C -> interior n o r c -> cell (m' (i, j)) r c = cell (m (i, j)) r c) /\
    (forall i j g c, 0 <= i < R - 1 -> 0 <= j < C -> o <= c < n - o -> 0 <= g < o ->
       cell (m' (i, j)) (n - o + g) c = cell (m (i + 1, j)) (o + g) c /\
       cell (m' (i + 1, j)) g c = cell (m (i, j)) (n - 2 * o + g) c) /\
    (forall i j r g, 0 <= i < R -> 0 <= j < C - 1 -> o <= r < n - o -> 0 <= g < o ->
       cell (m' (i, j)) r (n - o + g) = cell (m (i, j + 1)) r (o + g) /\
       cell (m' (i, j + 1)) r g = cell (m (i, j)) r (n - 2 * o + g)).
Proof.
  intros U G Pl.
  assert (Nd : NoDup l) by (eapply Permutation_NoDup; [symmetry; exact Pl|now apply NoDup_pass_ops]).
  assert (Inl : forall q, In q l <-> valid R C q).
  { intros q. rewrite <- In_pass_ops by lia. split; apply Permutation_in; [exact Pl|now symmetry]. }
  assert (Va : Forall (valid R C) l) by (apply Forall_forall; intros q; apply Inl).
  destruct (halo_interior m l U G Nd Va) as (m' & E & S & I). exists m'. split; [exact E|]. split; [exact S|].
  assert (Sizes : forall q, valid R C q -> os (m (src q)) = o /\ xr (m (src q)) = n /\ yr (m (src q)) = n).
  { intros q V. now apply (valid_fits R C n o m) in V. }
  split; [intros; now apply I|]. split.
  - intros i j g c Hi Hj Hc Hg. set (q := mkOp KX i j).
    assert (Vq : valid R C q) by (unfold valid, q; cbn [okind orow ocol]; lia). split.
    + destruct (halo_ghost m l q (o + g) c U G Nd Va) as (m2 & E2 & _ & H); [now apply Inl|unfold q, strip; cbn [okind]; lia|].
      rewrite E in E2. injection E2 as <-. unfold q, src, dst in H; cbn [okind orow ocol shr shc] in H.
      rewrite Z.add_0_r in H. replace (n - o + g) with (o + g + (n - 2 * o)) by lia. apply H.
      * unfold interior; lia.
      * unfold interior; lia.
      * intros q' V' Hne Ht. unfold touches in Ht. destruct (Sizes q' V') as (Z1 & Z2 & Z3). rewrite Z1, Z2, Z3 in Ht.
        destruct q' as [kd i' j']. unfold src, dst in Ht; cbn [okind orow ocol] in Ht.
        destruct Ht as [[Ep Ht]|[Ep Ht]]; destruct kd; unfold strip, diag_block in Ht; cbn [shr shc] in Ht; try lia.
        injection Ep as -> ->. now apply Hne.
    + destruct (halo_ghost m l q g c U G Nd Va) as (m2 & E2 & H & _); [now apply Inl|unfold q, strip; cbn [okind]; lia|].
      rewrite E in E2. injection E2 as <-. unfold q, src, dst in H; cbn [okind orow ocol shr shc] in H.
      rewrite Z.add_0_r in H. replace (n - 2 * o + g) with (g + (n - 2 * o)) by lia. apply H.
      * unfold interior; lia.
      * unfold interior; lia.
      * intros q' V' Hne Ht. unfold touches in Ht. destruct (Sizes q' V') as (Z1 & Z2 & Z3). rewrite Z1, Z2, Z3 in Ht.
        destruct q' as [kd i' j']. unfold src, dst in Ht; cbn [okind orow ocol] in Ht.
        destruct Ht as [[Ep Ht]|[Ep Ht]]; destruct kd; unfold strip, diag_block in Ht; cbn [shr shc] in Ht; try lia.
        injection Ep as ? ->. apply Hne. unfold q. f_equal; lia.
  - intros i j r g Hi Hj Hr Hg. set (q := mkOp KY i j).
    assert (Vq : valid R C q) by (unfold valid, q; cbn [okind orow ocol]; lia). split.
    + destruct (halo_ghost m l q r (o + g) U G Nd Va) as (m2 & E2 & _ & H); [now apply Inl|unfold q, strip; cbn [okind]; lia|].
      rewrite E in E2. injection E2 as <-. unfold q, src, dst in H; cbn [okind orow ocol shr shc] in H.
      rewrite Z.add_0_r in H. replace (n - o + g) with (o + g + (n - 2 * o)) by lia. apply H.
      * unfold interior; lia.
      * unfold interior; lia.
      * intros q' V' Hne Ht. unfold touches in Ht. destruct (Sizes q' V') as (Z1 & Z2 & Z3). rewrite Z1, Z2, Z3 in Ht.
        destruct q' as [kd i' j']. unfold src, dst in Ht; cbn [okind orow ocol] in Ht.
        destruct Ht as [[Ep Ht]|[Ep Ht]]; destruct kd; unfold strip, diag_block in Ht; cbn [shr shc] in Ht; try lia.
        injection Ep as -> ->. now apply Hne.
    + destruct (halo_ghost m l q r g U G Nd Va) as (m2 & E2 & H & _); [now apply Inl|unfold q, strip; cbn [okind]; lia|].
      rewrite E in E2. injection E2 as <-. unfold q, src, dst in H; cbn [okind orow ocol shr shc] in H.
      rewrite Z.add_0_r in H. replace (n - 2 * o + g) with (g + (n - 2 * o)) by lia. apply H.
      * unfold interior; lia.
      * unfold interior; lia.
      * intros q' V' Hne Ht. unfold touches in Ht. destruct (Sizes q' V') as (Z1 & Z2 & Z3). rewrite Z1, Z2, Z3 in Ht.
        destruct q' as [kd i' j']. unfold src, dst in Ht; cbn [okind orow ocol] in Ht.
        destruct Ht as [[Ep Ht]|[Ep Ht]]; destruct kd; unfold strip, diag_block in Ht; cbn [shr shc] in Ht; try lia.
        injection Ep as -> ?. apply Hne. unfold q. f_equal; lia.
Qed.
End Halo.
