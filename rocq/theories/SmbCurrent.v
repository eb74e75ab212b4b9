(** The currents of several domains: [SMB::solve_current] (src/SMB.cpp:1266-1278) for both deposition schemes, and the proof
    that stitching adds up what all the domains deposit. *)
From Coq Require Import ZifyBool Reals Lra Permutation.
From Verif Require Import Base GridModel GridProofs CollectorModel OverlayModel OverlayConc OverlaySum OverlayPass ThmOverlay YeeModel YeeProofs
  ExtModel ThmExt CurrentModel CurrentProofs ThmCurrent ThmCurrent2 SumUtil YeeSmb.
Open Scope Z_scope.

(** SMB.cpp:1268-1277; domain.cpp:134-138 [reset_current] is [zero3], 176-179 [weight_current] the deposition of the domain's
    particles [ps p]; [dist] is the scheme chosen at compile time *)
Definition smb_current (dist : geo -> list mover -> grid3 R -> outcome (grid3 R)) (g : geo) (R C s : Z)
    (ps : doms (list mover)) (j : doms (grid3 Rdefinitions.R)) : outcome (doms (grid3 Rdefinitions.R)) :=
  do j1 <- each_dom R C (fun p x => do a <- zero3 x; dist (dom_geo g R C s p) (ps p) a) j;
  pass3 Rplus R C j1.
(** the same for one domain *)
Definition one_current (dist : geo -> list mover -> grid3 R -> outcome (grid3 R)) (g : geo) (ps : list mover) (j : grid3 R) : outcome (grid3 R) :=
  do a <- zero3 j; dist g ps a.
(** specification: the particles of all domains *)
Definition everyone {A} (R C : Z) (ps : doms (list A)) : list A :=
  flat_map (fun i => flat_map (fun k => ps (i, k)) (zrange 0 C)) (zrange 0 R).

(** ** sums *)
Lemma sumz_two n f i d : 0 <= i < n -> (d <> 0 -> 0 <= i + d < n) ->
  (forall k, 0 <= k < n -> k <> i -> (d = 0 \/ k <> i + d) -> f k = 0%R) ->
  (sumz n f = f i + (if d =? 0 then 0 else f (i + d)%Z))%R.
Proof.
  intros Hi Hd Z. destruct (d =? 0) eqn:E.
  - rewrite (sumz_single n f i) by (auto; intros; apply Z; auto; lia). lra.
  - assert (D : d <> 0) by lia. specialize (Hd D).
    rewrite (sumz_ext n f (fun k => (if k =? i then f i else 0) + (if k =? i + d then f (i + d)%Z else 0))%R).
    + rewrite sumz_plus. rewrite (sumz_single n _ i) by (auto; intros k Hk N; now replace (k =? i) with false by lia).
      rewrite (sumz_single n _ (i + d)) by (auto; intros k Hk N; now replace (k =? i + d) with false by lia).
      rewrite !Z.eqb_refl. reflexivity.
    + intros k Hk. destruct (k =? i) eqn:E1; destruct (k =? i + d) eqn:E2.
      * lia.
      * replace k with i by lia. lra.
      * replace k with (i + d) by lia. lra.
      * rewrite Z by lia. lra.
Qed.
Lemma zseq_app n : forall m i, zseq (n + m) i = zseq n i ++ zseq m (i + Z.of_nat n).
Proof.
  induction n as [|n IH]; intros m i; cbn [zseq Nat.add app]; [f_equal; lia|].
  rewrite IH. do 3 f_equal. lia.
Qed.
Lemma amount_range c X Y (f : Z -> list dep) n : 0 <= n -> amount c X Y (flat_map f (zrange 0 n)) = sumz n (fun i => amount c X Y (f i)).
Proof.
  intros Hn. unfold zrange, sumz. rewrite Z.sub_0_r. generalize (Z.to_nat n) as k. clear n Hn.
  induction k as [|k IH]; [reflexivity|]. cbn [sumn]. rewrite <- IH.
  replace (S k) with (k + 1)%nat by lia. rewrite zseq_app, flat_map_app, amount_app. cbn [zseq flat_map]. now rewrite app_nil_r.
Qed.
Lemma flat_map_flat_map {A B D} (f : B -> list D) (h : A -> list B) l : flat_map f (flat_map h l) = flat_map (fun a => flat_map f (h a)) l.
Proof. induction l as [|a l IH]; [reflexivity|]. cbn [flat_map]. now rewrite flat_map_app, IH. Qed.
Lemma amount_everyone {A} c X Y (f : A -> list dep) R C ps : 0 <= R -> 0 <= C ->
  amount c X Y (flat_map f (everyone R C ps)) = sum2 R C (fun i k => amount c X Y (flat_map f (ps (i, k)))).
Proof.
  intros HR HC. unfold everyone, sum2. rewrite flat_map_flat_map, amount_range by auto.
  apply sumz_ext. intros i Hi. rewrite flat_map_flat_map. now apply amount_range.
Qed.
Lemma amount_perm c X Y a b : Permutation a b -> amount c X Y a = amount c X Y b.
Proof.
  induction 1 as [|x a b H IH|x y a|a b d H1 IH1 H2 IH2]; [reflexivity| | |congruence].
  - destruct x; cbn [amount]; now rewrite IH.
  - destruct x, y; cbn [amount]; lra.
Qed.
Lemma In_everyone {A} R C (ps : doms (list A)) x : In x (everyone R C ps) <-> exists i k, 0 <= i < R /\ 0 <= k < C /\ In x (ps (i, k)).
Proof.
  assert (Z : forall n i k, In k (zseq n i) <-> i <= k < i + Z.of_nat n).
  { induction n as [|n IH]; intros i k; cbn [zseq In]; [lia|]. rewrite IH. lia. }
  assert (Zr : forall n k, In k (zrange 0 n) <-> 0 <= k < n) by (intros; unfold zrange; rewrite Z; lia).
  unfold everyone. rewrite in_flat_map. split.
  - intros (i & Hi & H). apply in_flat_map in H as (k & Hk & H). exists i, k. rewrite Zr in Hi, Hk. auto.
  - intros (i & k & Hi & Hk & H). exists i. split; [now apply Zr|]. apply in_flat_map. exists k. split; [now apply Zr|exact H].
Qed.

(** ** stitching sums up *)
(** the two blocks of ghost cells in the corners that the stitching of diagonal neighbours leaves out *)
Definition anti (s x y : Z) : bool := ((x <? 0) && (s <=? y)) || ((s <=? x) && (y <? 0)).
Section Sum.
Variables R C s : Z.
Hypothesis HR : 1 <= R.
Hypothesis HC : 1 <= C.
Hypothesis Hs : 4 <= s.
Hypothesis HsL : s + 4 < 2 ^ 32.

Lemma stitch_sum m : all_fit R C s m -> exists m', pass3 Rplus R C m = Ok m' /\ all_fit R C s m' /\
  forall c (v : Z * Z -> Z -> Z -> Rdefinitions.R),
  (forall i k x y, 0 <= i < R -> 0 <= k < C -> inw s s x y -> lv (getc c (m (i, k))) x y = v (i, k) (i * s + x) (k * s + y)) ->
  (forall i k x y, 0 <= i < R -> 0 <= k < C -> ~ inw s s x y -> v (i, k) (i * s + x) (k * s + y) = 0%R) ->
  forall i k x y, 0 <= i < R -> 0 <= k < C -> 0 <= x < s -> 0 <= y < s ->
  lv (getc c (m' (i, k))) x y =
    sum2 R C (fun a b => if anti s (i * s + x - a * s) (k * s + y - b * s) then 0%R else v (a, b) (i * s + x) (k * s + y)).
Proof using HR HC Hs HsL.
  intros F.
  assert (Va : Forall (valid R C) (pass_ops R C)) by (apply Forall_forall; intros q; apply In_pass_ops; lia).
  destruct (run3_comps Rplus (pass_ops R C) m) as (m' & E & Hc).
  { intros c q Hq. rewrite Forall_forall in Va. apply (valid_fits R C (s + 4) 2); [apply uniform_comp; assumption|auto]. }
  exists m'. split; [exact E|].
  assert (K : forall c, shape_of (comp_of c m) (comp_of c m') /\ 
    forall i j r k, 0 <= i < R -> 0 <= j < C -> OverlaySum.interior (s + 4) 2 r k ->
      let di := rowdir R (s + 4) 2 i r in let dj := coldir C (s + 4) 2 j k in
      cell (comp_of c m' (i, j)) r k = (cell (comp_of c m (i, j)) r k +
        ((when 0 (negb (di =? 0)) (nb (s + 4) 2 (comp_of c m) i j di 0 r k) + when 0 (negb (dj =? 0)) (nb (s + 4) 2 (comp_of c m) i j 0 dj r k)) +
         when 0 (negb (di =? 0) && (di =? dj))%bool (nb (s + 4) 2 (comp_of c m) i j di dj r k)))%R).
  { intros c. destruct (Hc c) as (mc & Ec & Ep).
    destruct (C12_interior_after_pass_partial _ Rplus 0%R R C (s + 4) 2 (comp_of c m) (pass_ops R C) ltac:(apply Rplus_comm) ltac:(intros; ring) ltac:(intros; ring)
       ltac:(lia) ltac:(lia) ltac:(lia) ltac:(lia) ltac:(lia) ltac:(apply uniform_comp; assumption) ltac:(reflexivity)) as (mc' & Ec' & Sh & V).
    rewrite Ec in Ec'. injection Ec' as <-. split; [intros p; rewrite <- Ep; apply Sh|].
    intros i j r k Hi Hj I. rewrite <- Ep. now apply V. }
  assert (F' : all_fit R C s m').
  { intros i j Hi Hj c. destruct (F i j Hi Hj c) as (W & Eo & Ex & Ey). destruct (K c) as (Sh & _). specialize (Sh (i, j)). unfold comp_of in Sh.
    pose proof Sh as (S1 & S2 & S3 & S4 & S5). split; [eapply same_shape_wf; eauto|]. repeat split; congruence. }
  split; [exact F'|]. intros c v A B i k x y Hi Hk Hx Hy. destruct (K c) as (_ & V).
  specialize (V i k (x + 2) (y + 2) Hi Hk ltac:(unfold OverlaySum.interior; lia)). cbv zeta in V.
  set (di := rowdir R (s + 4) 2 i (x + 2)) in *. set (dj := coldir C (s + 4) 2 k (y + 2)) in *.
  assert (Di : (di = 0 \/ (di = -1 /\ x < 2 /\ 0 < i) \/ (di = 1 /\ s - 2 <= x /\ i < R - 1)) /\ (x < 2 -> 0 < i -> di = -1) /\ (s - 2 <= x -> i < R - 1 -> di = 1)) by (unfold di, rowdir; repeat match goal with |- context [if ?b then _ else _] => destruct b eqn:? end; lia).
  assert (Dj : (dj = 0 \/ (dj = -1 /\ y < 2 /\ 0 < k) \/ (dj = 1 /\ s - 2 <= y /\ k < C - 1)) /\ (y < 2 -> 0 < k -> dj = -1) /\ (s - 2 <= y -> k < C - 1 -> dj = 1)) by (unfold dj, coldir; repeat match goal with |- context [if ?b then _ else _] => destruct b eqn:? end; lia).
  clearbody di dj.
  assert (Cell : forall a b, 0 <= a < R -> 0 <= b < C -> forall u w, inw s s u w -> cell (getc c (m (a, b))) (u + 2) (w + 2) = v (a, b) (a * s + u) (b * s + w)).
  { intros a b Ha Hb u w W. rewrite <- A by assumption. unfold lv. destruct (F a b Ha Hb c) as (_ & -> & _). reflexivity. }
  assert (Nb : forall a b, (a = 0 \/ a = di) -> (b = 0 \/ b = dj) -> nb (s + 4) 2 (comp_of c m) i k a b (x + 2) (y + 2) = v (i + a, k + b) (i * s + x) (k * s + y)).
  { intros a b Ha Hb. unfold nb, comp_of.
    replace (x + 2 - a * (s + 4 - 2 * 2)) with (x - a * s + 2) by lia. replace (y + 2 - b * (s + 4 - 2 * 2)) with (y - b * s + 2) by lia.
    assert (La : a = 0 \/ a = 1 \/ a = -1) by lia. assert (Lb : b = 0 \/ b = 1 \/ b = -1) by lia.
    rewrite Cell; [f_equal; lia|lia|lia|]. unfold inw. destruct La as [->|[->| ->]], Lb as [->|[->| ->]]; lia. }
  assert (Far : forall a b, 0 <= a < R -> 0 <= b < C -> (a <> i /\ a <> i + di) \/ (b <> k /\ b <> k + dj) -> v (a, b) (i * s + x) (k * s + y) = 0%R).
  { intros a b Ha Hb N. replace (i * s + x) with (a * s + (i * s + x - a * s)) by lia. replace (k * s + y) with (b * s + (k * s + y - b * s)) by lia.
    apply B; auto. unfold inw. intros (W1 & W2).
    assert (Gap : forall u w, u - w <= -2 -> 2 * s <= w * s - u * s) by (clear - Hs; intros; nia).
    destruct N as [(N1 & N2)|(N1 & N2)].
    - assert (M : a - i <= -2 \/ a - i = -1 \/ a - i = 1 \/ 2 <= a - i) by lia. destruct M as [M|[M|[M|M]]]; [specialize (Gap a i M); lia| | |specialize (Gap i a ltac:(lia)); lia].
      + replace a with (i - 1) in W1 by lia. replace ((i - 1) * s) with (i * s - s) in W1 by lia. lia.
      + replace a with (i + 1) in W1 by lia. replace ((i + 1) * s) with (i * s + s) in W1 by lia. lia.
    - assert (M : b - k <= -2 \/ b - k = -1 \/ b - k = 1 \/ 2 <= b - k) by lia. destruct M as [M|[M|[M|M]]]; [specialize (Gap b k M); lia| | |specialize (Gap k b ltac:(lia)); lia].
      + replace b with (k - 1) in W2 by lia. replace ((k - 1) * s) with (k * s - s) in W2 by lia. lia.
      + replace b with (k + 1) in W2 by lia. replace ((k + 1) * s) with (k * s + s) in W2 by lia. lia. }
  set (w := fun a b => if anti s (i * s + x - a * s) (k * s + y - b * s) then 0%R else v (a, b) (i * s + x) (k * s + y)).
  assert (Anti : di * dj = -1 -> w (i + di) (k + dj) = 0%R).
  { intros N. assert (M : (di = 1 /\ dj = -1) \/ (di = -1 /\ dj = 1)) by (destruct Di as ([->|[(-> & _)|(-> & _)]] & _); destruct Dj as ([->|[(-> & _)|(-> & _)]] & _); lia).
    unfold w. replace (i * s + x - (i + di) * s) with (x - di * s) by lia. replace (k * s + y - (k + dj) * s) with (y - dj * s) by lia.
    replace (anti _ _ _) with true; [reflexivity|]. unfold anti. destruct M as [(-> & ->)|(-> & ->)]; lia. }
  assert (Same : forall a b, (a = 0 \/ a = di) -> (b = 0 \/ b = dj) -> a * b <> -1 -> v (i + a, k + b) (i * s + x) (k * s + y) = w (i + a) (k + b)).
  { intros a b Ha Hb N. unfold w. replace (i * s + x - (i + a) * s) with (x - a * s) by lia. replace (k * s + y - (k + b) * s) with (y - b * s) by lia.
    assert (La : a = 0 \/ a = 1 \/ a = -1) by lia. assert (Lb : b = 0 \/ b = 1 \/ b = -1) by lia.
    replace (anti _ _ _) with false; [reflexivity|]. unfold anti. destruct La as [->|[->| ->]], Lb as [->|[->| ->]]; lia. }
  assert (Far' : forall a b, 0 <= a < R -> 0 <= b < C -> (a <> i /\ a <> i + di) \/ (b <> k /\ b <> k + dj) -> w a b = 0%R).
  { intros a b Ha Hb N. unfold w. destruct (anti _ _ _); [reflexivity|]. now apply Far. }
  change (lv (getc c (m' (i, k))) x y = sum2 R C w).
  unfold lv. destruct (F' i k Hi Hk c) as (_ & -> & _). change (getc c (m' (i, k))) with (comp_of c m' (i, k)). rewrite V. clear V.
  replace (cell (comp_of c m (i, k)) (x + 2) (y + 2)) with (v (i, k) (i * s + x) (k * s + y)) by (unfold comp_of; rewrite Cell by (unfold inw; lia); reflexivity).
  rewrite !Nb by auto.
  replace (v (i, k)) with (v (i + 0, k + 0)) by (f_equal; f_equal; lia).
  rewrite (Same 0 0), (Same di 0), (Same 0 dj) by lia.
  assert (When : when 0%R (negb (di =? 0) && (di =? dj)) (v (i + di, k + dj) (i * s + x) (k * s + y)) = when 0%R (negb (di =? 0) && negb (dj =? 0)) (w (i + di) (k + dj))).
  { destruct (di =? 0) eqn:Ei; cbn [negb andb when]; [reflexivity|]. destruct (dj =? 0) eqn:Ej; cbn [negb when].
    - now replace (di =? dj) with false by lia.
    - destruct (di =? dj) eqn:Ed; cbn [when].
      + apply Same; auto. replace dj with di by lia. destruct Di as ([?|[(-> & _)|(-> & _)]] & _); lia.
      + symmetry. apply Anti. destruct Di as ([?|[(-> & _)|(-> & _)]] & _); destruct Dj as ([?|[(-> & _)|(-> & _)]] & _); lia. }
  rewrite When. clear When Same Anti. clearbody w. rewrite !Z.add_0_r.
  unfold sum2. rewrite (sumz_two R _ i di); [|lia|lia|intros a Ha N1 N2; apply sumz_zero; intros b Hb; apply Far'; auto; lia].
  assert (Row : forall a, 0 <= a < R -> sumz C (w a) = (w a k + (if dj =? 0 then 0 else w a (k + dj)%Z))%R).
  { intros a Ha. rewrite (sumz_two C _ k dj); [reflexivity|lia|lia|]. intros b Hb N1 N2. apply Far'; auto; lia. }
  rewrite Row by lia. destruct (di =? 0) eqn:Ei; [|rewrite Row by lia]; destruct (dj =? 0) eqn:Ej; cbn [negb andb when]; lra.
Qed.
End Sum.
