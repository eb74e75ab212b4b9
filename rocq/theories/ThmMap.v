(** C114-C116: the maps of densities, temperatures, energies and momenta that are written. *)
From Coq Require Import Reals Lra.
From Verif Require Import Base ListUtil GridModel GridProofs GridExtra CollectorModel OverlayModel Interleave OverlayConc OverlaySum OverlayPass MapModel MapProofs.
From Verif Require Import PushModel MomentModel.
From Coq Require Import ZifyBool Permutation.
Open Scope Z_scope.

(** the laws of addition that are needed *)
Definition monoid {T} (add : T -> T -> T) (zero : T) : Prop :=
  (forall x y, add x y = add y x) /\ (forall x y z, add x (add y z) = add (add x y) z) /\ (forall x, add x zero = x).

(** * C114: density maps contain all particles *)
(** Specification: everything the domains stored for the physical cell that is the interior cell (r, c) of domain (i, j) *)
Definition everything {T} (add : T -> T -> T) (zero : T) R C X Y o (m : doms (grid T)) i j r c : T :=
  let di := rowdir R X o i r in let dj := coldir C Y o j c in
  add (cell (m (i, j)) r c)
      (add (add (when zero (negb (di =? 0)) (rnb X Y o m i j di 0 r c))
                (when zero (negb (dj =? 0)) (rnb X Y o m i j 0 dj r c)))
           (when zero (negb (di =? 0) && negb (dj =? 0)) (rnb X Y o m i j di dj r c))).
(** no domain stored anything in the corners of its overlay *)
Definition corners_empty {T} (zero : T) R C X Y o (m : doms (grid T)) : Prop :=
  forall i j r c, 0 <= i < R -> 0 <= j < C -> rinterior X Y o r c ->
    let di := rowdir R X o i r in let dj := coldir C Y o j c in
    di <> 0 -> dj <> 0 -> rnb X Y o m i j di dj r c = zero.

(** exact content of the density map after its preparation: row and column neighbours, never the diagonal ones *)
Theorem C114_exact : forall T (add : T -> T -> T) zero R C X Y o cd ct ce cm (s : pmaps T),
  monoid add zero -> 0 <= R -> 0 <= C -> 4 * o <= X -> 4 * o <= Y -> rect R C X Y o cd ->
  exists s', prepare add cd ct ce cm R C Density s = Ok s' /\
    forall i j r c, 0 <= i < R -> 0 <= j < C -> rinterior X Y o r c ->
      let di := rowdir R X o i r in let dj := coldir C Y o j c in
      cell (den s' (i, j)) r c =
      add (cell (cd (i, j)) r c)
          (add (when zero (negb (di =? 0)) (rnb X Y o cd i j di 0 r c))
               (when zero (negb (dj =? 0)) (rnb X Y o cd i j 0 dj r c))).
Proof.
  intros T add zero R C X Y o cd ct ce cm s (A1 & A2 & A3) HR HC HX HY U.
  destruct (map_stitched add zero A1 A2 A3 R C X Y o HR HC HX HY Density cd U) as (m' & E & _ & V).
  unfold prepare. rewrite E. cbn [bind]. eexists. split; [reflexivity|]. cbn [den]. intros i j r c Hi Hj I. apply (V i j r c Hi Hj I).
Qed.
Theorem C114_complete_partial : forall T (add : T -> T -> T) zero R C X Y o cd ct ce cm (s : pmaps T),
  monoid add zero -> 0 <= R -> 0 <= C -> 4 * o <= X -> 4 * o <= Y -> rect R C X Y o cd -> corners_empty zero R C X Y o cd ->
  exists s', prepare add cd ct ce cm R C Density s = Ok s' /\
    forall i j r c, 0 <= i < R -> 0 <= j < C -> rinterior X Y o r c ->
      cell (den s' (i, j)) r c = everything add zero R C X Y o cd i j r c.
Proof.
  intros T add zero R C X Y o cd ct ce cm s M HR HC HX HY U K.
  destruct (C114_exact T add zero R C X Y o cd ct ce cm s M HR HC HX HY U) as (s' & E & V).
  exists s'. split; [exact E|]. intros i j r c Hi Hj I. rewrite (V i j r c Hi Hj I). unfold everything. f_equal.
  destruct M as (_ & _ & A3). specialize (K i j r c Hi Hj I). cbv zeta in K.
  destruct (negb (rowdir R X o i r =? 0) && negb (coldir C Y o j c =? 0)) eqn:B; [|cbn [when]; now rewrite A3].
  unfold when at 5. rewrite K by lia. now rewrite A3.
Qed.
(** one column or one row of domains has no corners *)
Theorem C114_one_row : forall T (zero : T) C X Y o m, corners_empty zero 1 C X Y o m.
Proof.
  intros T zero C X Y o m i j r c Hi Hj I di dj H1 H2. exfalso. apply H1. unfold di, rowdir.
  replace (0 <? i) with false by lia. replace (i <? 1 - 1) with false by lia. rewrite !andb_false_r. reflexivity.
Qed.
Theorem C114_one_column : forall T (zero : T) R X Y o m, corners_empty zero R 1 X Y o m.
Proof.
  intros T zero R X Y o m i j r c Hi Hj I di dj H1 H2. exfalso. apply H2. unfold dj, coldir.
  replace (0 <? j) with false by lia. replace (j <? 1 - 1) with false by lia. rewrite !andb_false_r. reflexivity.
Qed.

(** 2 x 2 domains of 4 x 6 cells; [f i j r c] is the content *)
Definition quad (f : Z -> Z -> Z -> Z -> Z) : doms (grid Z) := fun p => new_grid 4 6 2 (f (fst p) (snd p)).
Lemma quad_rect R C f : rect R C 8 10 2 (quad f).
Proof. intros i j _ _. unfold quad. split; [apply new_grid_wf; lia|]. repeat split. Qed.
Lemma Z_monoid : monoid Z.add 0.
Proof. repeat split; intros; lia. Qed.
(** a particle of domain (0, 0) near its outer right corner: what it stores for cell (2, 2) of domain (1, 1) is lost *)
Definition corner_deposit : doms (grid Z) := quad (fun i j r c => if (i =? 0) && (j =? 0) && (r =? 6) && (c =? 8) then 1 else 0).
Theorem C114_corner_refuted : forall ct ce cm s,
  rect 2 2 8 10 2 corner_deposit /\ rinterior 8 10 2 2 2 /\
  exists s', prepare Z.add corner_deposit ct ce cm 2 2 Density s = Ok s' /\
    everything Z.add 0 2 2 8 10 2 corner_deposit 1 1 2 2 = 1 /\ cell (den s' (1, 1)) 2 2 = 0.
Proof.
  intros ct ce cm s. split; [apply quad_rect|]. split; [unfold rinterior; lia|].
  destruct (C114_exact Z Z.add 0 2 2 8 10 2 corner_deposit ct ce cm s Z_monoid ltac:(lia) ltac:(lia) ltac:(lia) ltac:(lia) (quad_rect 2 2 _)) as (s' & E & V).
  exists s'. split; [exact E|]. split; [vm_compute; reflexivity|].
  rewrite (V 1 1 2 2) by (unfold rinterior; lia). vm_compute. reflexivity.
Qed.
Definition qval (i j r c : Z) : Z := 10000 * i + 1000 * j + 10 * r + c.
Example C114_ex : rect 2 2 8 10 2 (quad qval) /\
  match stitch Z.add Density 2 2 (quad qval) with
  | Ok m' => cell (m' (0, 1)) 5 5 = qval 0 1 5 5 + qval 1 1 1 5 /\ cell (m' (1, 0)) 4 7 = qval 1 0 4 7 + qval 1 1 4 1
  | _ => False end.
Proof. split; [apply quad_rect|]. vm_compute. repeat split; reflexivity. Qed.

(** * C115: what is written for a probe does not depend on the other probes *)
Definition all_prepared {T} add cd ct ce cm R C (l : list quantity) (s s' : pmaps T) : Prop :=
  prepare_all add cd ct ce cm R C l s = Ok s'.
Lemma prepare_all_app {T} add cd ct ce cm R C l1 : forall l2 (s : pmaps T),
  prepare_all add cd ct ce cm R C (l1 ++ l2) s = do s' <- prepare_all add cd ct ce cm R C l1 s; prepare_all add cd ct ce cm R C l2 s'.
Proof.
  induction l1 as [|q l1 IH]; intros l2 s; [reflexivity|]. cbn [prepare_all app].
  destruct (prepare add cd ct ce cm R C q s); cbn [bind]; [apply IH|reflexivity|reflexivity].
Qed.
(** temperatures, energies and momenta: the stitched map of the calculation, whatever the other probes *)
Theorem C115_others : forall T (add : T -> T -> T) cd ct ce cm R C l s s',
  all_prepared add cd ct ce cm R C l s s' ->
  (In Temperature l -> stitch add Temperature R C ct = Ok (temp s')) /\
  (In Energy l -> stitch add Energy R C ce = Ok (ener s')) /\
  (In Momentum l -> stitch3 add Momentum R C cm = Ok (mom s')) /\
  (~ In Temperature l -> temp s' = temp s) /\ (~ In Energy l -> ener s' = ener s) /\ (~ In Momentum l -> mom s' = mom s).
Proof.
  intros T add cd ct ce cm R C l. induction l as [|q l IH]; intros s s' H; unfold all_prepared in *; cbn [prepare_all] in H.
  - injection H as <-. cbn [In]. tauto.
  - destruct (prepare add cd ct ce cm R C q s) as [s1| |] eqn:E; cbn [bind] in H; [|discriminate|discriminate].
    specialize (IH s1 s' H) as (I1 & I2 & I3 & I4 & I5 & I6).
    assert (P : (q = Temperature -> stitch add Temperature R C ct = Ok (temp s1)) /\ (q = Energy -> stitch add Energy R C ce = Ok (ener s1)) /\
                (q = Momentum -> stitch3 add Momentum R C cm = Ok (mom s1)) /\
                (q <> Temperature -> temp s1 = temp s) /\ (q <> Energy -> ener s1 = ener s) /\ (q <> Momentum -> mom s1 = mom s)).
    { destruct q; unfold prepare in E;
        match type of E with (do x <- ?a; _) = _ => destruct a eqn:Es; cbn [bind] in E; [injection E as <-|discriminate|discriminate] end;
        cbn [temp ener mom]; repeat split; intros; try discriminate; try reflexivity; try congruence. }
    destruct P as (P1 & P2 & P3 & P4 & P5 & P6).
    assert (D : forall x y : quantity, {x = y} + {x <> y}) by decide equality.
    cbn [In]. repeat split.
    + intros Hin. destruct (in_dec D Temperature l) as [J|J]; [auto|]. rewrite I4 by exact J. apply P1. destruct Hin; [assumption|contradiction].
    + intros Hin. destruct (in_dec D Energy l) as [J|J]; [auto|]. rewrite I5 by exact J. apply P2. destruct Hin; [assumption|contradiction].
    + intros Hin. destruct (in_dec D Momentum l) as [J|J]; [auto|]. rewrite I6 by exact J. apply P3. destruct Hin; [assumption|contradiction].
    + intros N. rewrite I4 by tauto. apply P4. intros ->. apply N. now left.
    + intros N. rewrite I5 by tauto. apply P5. intros ->. apply N. now left.
    + intros N. rewrite I6 by tauto. apply P6. intros ->. apply N. now left.
Qed.
(** densities: stitched exactly when the density probe is the last one; otherwise the bare maps of the domains *)
Theorem C115_density_partial : forall T (add : T -> T -> T) cd ct ce cm R C l s s',
  all_prepared add cd ct ce cm R C (l ++ [Density]) s s' -> stitch add Density R C cd = Ok (den s').
Proof.
  intros T add cd ct ce cm R C l s s' H. unfold all_prepared in H. rewrite prepare_all_app in H.
  destruct (prepare_all add cd ct ce cm R C l s) as [s1| |]; cbn [bind] in H; [|discriminate|discriminate].
  cbn [prepare_all prepare] in H. destruct (stitch add Density R C cd); cbn [bind] in H; [injection H as <-; reflexivity|discriminate|discriminate].
Qed.
Theorem C115_bare : forall T (add : T -> T -> T) cd ct ce cm R C l q s s', q <> Density ->
  all_prepared add cd ct ce cm R C (l ++ [q]) s s' -> den s' = cd.
Proof.
  intros T add cd ct ce cm R C l q s s' N H. unfold all_prepared in H. rewrite prepare_all_app in H.
  destruct (prepare_all add cd ct ce cm R C l s) as [s1| |]; cbn [bind] in H; [|discriminate|discriminate].
  cbn [prepare_all] in H. destruct q; [contradiction|..]; cbn [prepare] in H;
    match type of H with context [do x <- (do y <- ?a; _); _] => destruct a; cbn [bind] in H; [injection H as <-; reflexivity|discriminate|discriminate] end.
Qed.
(** with a probe of the temperature behind that of the density the written density misses the neighbours *)
Theorem C115_density_refuted : exists s1 s2,
  all_prepared Z.add (quad qval) (quad qval) (quad qval) (fun _ => mkGrid3 (quad qval (0, 0)) (quad qval (0, 0)) (quad qval (0, 0))) 2 2 [Density]
    (mkMaps (quad qval) (quad qval) (quad qval) (fun _ => mkGrid3 (quad qval (0, 0)) (quad qval (0, 0)) (quad qval (0, 0)))) s1 /\
  all_prepared Z.add (quad qval) (quad qval) (quad qval) (fun _ => mkGrid3 (quad qval (0, 0)) (quad qval (0, 0)) (quad qval (0, 0))) 2 2 [Density; Temperature]
    (mkMaps (quad qval) (quad qval) (quad qval) (fun _ => mkGrid3 (quad qval (0, 0)) (quad qval (0, 0)) (quad qval (0, 0)))) s2 /\
  cell (den s1 (0, 1)) 5 5 = qval 0 1 5 5 + qval 1 1 1 5 /\ cell (den s2 (0, 1)) 5 5 = qval 0 1 5 5.
Proof.
  set (g := fun _ : Z * Z => _). set (s0 := mkMaps _ _ _ g).
  destruct (C114_exact Z Z.add 0 2 2 8 10 2 (quad qval) (quad qval) (quad qval) g s0 Z_monoid ltac:(lia) ltac:(lia) ltac:(lia) ltac:(lia) (quad_rect 2 2 _)) as (s1 & E1 & V1).
  destruct (map_stitched Z.add 0 Z.add_comm Z.add_assoc Z.add_0_r 2 2 8 10 2 ltac:(lia) ltac:(lia) ltac:(lia) ltac:(lia) Temperature (quad qval) (quad_rect 2 2 _)) as (t & Et & _ & _).
  exists s1. eexists. split; [unfold all_prepared; cbn [prepare_all]; rewrite E1; reflexivity|]. split.
  - unfold all_prepared; cbn [prepare_all]. rewrite E1. cbn [bind]. unfold prepare. rewrite Et. cbn [bind]. reflexivity.
  - split; [rewrite (V1 0 1 5 5) by (unfold rinterior; lia); vm_compute; reflexivity|]. cbn [den]. vm_compute. reflexivity.
Qed.

(** * C116: mean values at the borders of domains *)
(** the cells of the overlay hold nothing (specieP.cpp:680-682, 791-793, 828-829) *)
Definition overlay_empty {T} (zero : T) R C X Y o (m : doms (grid T)) : Prop := forall i j r c, 0 <= i < R -> 0 <= j < C ->
  0 <= r < X -> 0 <= c < Y -> ~ rinterior X Y o r c -> cell (m (i, j)) r c = zero.
Lemma stitch_keeps {T} (add : T -> T -> T) zero R C X Y o q m :
  monoid add zero -> 0 <= R -> 0 <= C -> 4 * o <= X -> 4 * o <= Y -> rect R C X Y o m -> overlay_empty zero R C X Y o m ->
  exists m', stitch add q R C m = Ok m' /\
    forall i j r c, 0 <= i < R -> 0 <= j < C -> rinterior X Y o r c -> cell (m' (i, j)) r c = cell (m (i, j)) r c.
Proof.
  intros (A1 & A2 & A3) HR HC HX HY U G.
  destruct (map_stitched add zero A1 A2 A3 R C X Y o HR HC HX HY q m U) as (m' & E & _ & V).
  exists m'. split; [exact E|]. intros i j r c Hi Hj I. rewrite V by assumption.
  assert (Z1 : when zero (negb (rowdir R X o i r =? 0)) (rnb X Y o m i j (rowdir R X o i r) 0 r c) = zero).
  { unfold rnb, rowdir. destruct I as [I1 I2].
    repeat match goal with |- context [if ?b then _ else _] => destruct b eqn:? end; cbn [when negb Z.eqb]; try reflexivity;
      (apply G; [lia..|unfold rinterior; lia]). }
  assert (Z2 : when zero (calls q KY && negb (coldir C Y o j c =? 0)) (rnb X Y o m i j 0 (coldir C Y o j c) r c) = zero).
  { unfold rnb, coldir. destruct I as [I1 I2]. destruct (calls q KY); [|reflexivity].
    repeat match goal with |- context [if ?b then _ else _] => destruct b eqn:? end; cbn [when negb Z.eqb andb]; try reflexivity;
      (apply G; [lia..|unfold rinterior; lia]). }
  rewrite Z1, Z2, !A3. reflexivity.
Qed.
(** the written temperatures, energies and momenta are those each domain calculated from its own particles *)
Theorem C116_own : forall T (add : T -> T -> T) zero R C X Y o cd ct ce cm l s,
  monoid add zero -> 0 <= R -> 0 <= C -> 4 * o <= X -> 4 * o <= Y ->
  rect R C X Y o cd -> rect R C X Y o ct -> rect R C X Y o ce -> (forall k, rect R C X Y o (comp_of k cm)) ->
  overlay_empty zero R C X Y o ct -> overlay_empty zero R C X Y o ce -> (forall k, overlay_empty zero R C X Y o (comp_of k cm)) ->
  exists s', all_prepared add cd ct ce cm R C l s s' /\
    forall i j r c, 0 <= i < R -> 0 <= j < C -> rinterior X Y o r c ->
      (In Temperature l -> cell (temp s' (i, j)) r c = cell (ct (i, j)) r c) /\
      (In Energy l -> cell (ener s' (i, j)) r c = cell (ce (i, j)) r c) /\
      (In Momentum l -> forall k, cell (getc k (mom s' (i, j))) r c = cell (getc k (cm (i, j))) r c).
Proof.
  intros T add zero R C X Y o cd ct ce cm l s M HR HC HX HY Ud Ut Ue Um Gt Ge Gm.
  destruct (stitch_keeps add zero R C X Y o Temperature ct M HR HC HX HY Ut Gt) as (t & Et & Vt).
  destruct (stitch_keeps add zero R C X Y o Energy ce M HR HC HX HY Ue Ge) as (e & Ee & Ve).
  assert (Ed : exists d, stitch add Density R C cd = Ok d).
  { destruct M as (A1 & A2 & A3). destruct (map_stitched add zero A1 A2 A3 R C X Y o HR HC HX HY Density cd Ud) as (d & E & _). eauto. }
  destruct Ed as (d & Ed).
  assert (Em : exists p, stitch3 add Momentum R C cm = Ok p /\
     forall k i j r c, 0 <= i < R -> 0 <= j < C -> rinterior X Y o r c -> cell (getc k (p (i, j))) r c = cell (getc k (cm (i, j))) r c).
  { destruct (run3_comps add (map_ops Momentum R C) cm) as (p & E & Hc).
    { intros c q Hq. apply In_map_ops in Hq as [Hq _]; [|lia|lia]. now apply (rvalid_fits R C X Y o). }
    exists p. split; [exact E|]. intros k i j r c Hi Hj I. destruct (Hc k) as (mc & Ec & Hp).
    destruct (stitch_keeps add zero R C X Y o Momentum (comp_of k cm) M HR HC HX HY (Um k) (Gm k)) as (mc' & Ec' & V).
    unfold stitch in Ec'. fold (run1 add (map_ops Momentum R C)) in Ec'. unfold run1 in Ec. unfold run1 in Ec'. rewrite Ec in Ec'. injection Ec' as <-.
    change (getc k (p (i, j))) with (comp_of k p (i, j)). rewrite <- Hp, V by assumption. reflexivity. }
  destruct Em as (p & Em & Vm).
  assert (Ex : exists s', all_prepared add cd ct ce cm R C l s s').
  { unfold all_prepared. revert s. induction l as [|q l IH]; intros s; [eexists; reflexivity|]. cbn [prepare_all].
    destruct q; cbn [prepare]; rewrite ?Ed, ?Et, ?Ee, ?Em; cbn [bind]; apply IH. }
  destruct Ex as (s' & Es). exists s'. split; [exact Es|].
  destruct (C115_others T add cd ct ce cm R C l s s' Es) as (I1 & I2 & I3 & _).
  intros i j r c Hi Hj I. repeat split.
  - intros Hin. specialize (I1 Hin). rewrite Et in I1. injection I1 as <-. now apply Vt.
  - intros Hin. specialize (I2 Hin). rewrite Ee in I2. injection I2 as <-. now apply Ve.
  - intros Hin k. specialize (I3 Hin). rewrite Em in I3. injection I3 as <-. now apply Vm.
Qed.

(** the map of mean momenta of each domain from its own sums of weights [D] and of momenta [M] (specieP.cpp:824-840) *)
Definition mean_map (X Y o : Z) (D M : doms (grid R)) : doms (grid R) := fun p =>
  {| xr := xr (D p); yr := yr (D p); xs := xs (D p); ys := ys (D p); os := os (D p);
     cell := fun r c => if (o <=? r) && (r <? X - o) && (o <=? c) && (c <? Y - o) then mean_cell (cell (D p)) (cell (M p)) r c else 0%R |}.
Lemma R_monoid : monoid Rplus 0%R.
Proof. repeat split; intros; lra. Qed.
(** At a border the written mean is that of all particles only if the particles of the two domains have the same mean. *)
Theorem C116_border_iff : forall R C X Y o D M i j r c,
  0 <= R -> 0 <= C -> 4 * o <= X -> 4 * o <= Y -> rect R C X Y o D ->
  0 <= i < R -> 0 <= j < C -> rinterior X Y o r c ->
  let dj := coldir C Y o j c in rowdir R X o i r = 0 -> dj <> 0 ->
  (0 < cell (D (i, j)) r c)%R -> (0 < rnb X Y o D i j 0 dj r c)%R ->
  exists m', stitch Rplus Momentum R C (mean_map X Y o D M) = Ok m' /\
    (cell (m' (i, j)) r c = (everything Rplus 0 R C X Y o M i j r c / everything Rplus 0 R C X Y o D i j r c)%R <->
     (cell (M (i, j)) r c / cell (D (i, j)) r c = rnb X Y o M i j 0 dj r c / rnb X Y o D i j 0 dj r c)%R).
Proof.
  intros R C X Y o D M i j r c HR HC HX HY UD Hi Hj I dj Hr Hc P1 P2.
  assert (UM : rect R C X Y o (mean_map X Y o D M)).
  { intros a b Ha Hb. destruct (UD a b Ha Hb) as (W & O & A & B). unfold mean_map. cbn [os xr yr]. repeat split; try assumption; apply W. }
  assert (GM : overlay_empty 0%R R C X Y o (mean_map X Y o D M)).
  { intros a b r' c' Ha Hb H1 H2 N. unfold mean_map. cbn [cell].
    replace ((o <=? r') && (r' <? X - o) && (o <=? c') && (c' <? Y - o)) with false by (unfold rinterior in N; lia). reflexivity. }
  destruct (stitch_keeps Rplus 0%R R C X Y o Momentum _ R_monoid HR HC HX HY UM GM) as (m' & E & V).
  exists m'. split; [exact E|]. rewrite V by assumption. unfold mean_map. cbn [cell].
  replace ((o <=? r) && (r <? X - o) && (o <=? c) && (c <? Y - o)) with true by (unfold rinterior in I; lia).
  unfold mean_cell. destruct (req (cell (D (i, j)) r c) 0) eqn:Q.
  { unfold req in Q. destruct (Req_EM_T (cell (D (i, j)) r c) 0) in Q; [lra|discriminate]. }
  unfold everything. fold dj. rewrite Hr. cbn [Z.eqb negb andb when]. replace (negb (dj =? 0)) with true by lia. cbn [when].
  set (d1 := cell (D (i, j)) r c) in *. set (d2 := rnb X Y o D i j 0 dj r c) in *.
  set (m1 := cell (M (i, j)) r c). set (m2 := rnb X Y o M i j 0 dj r c). clearbody d1 d2 m1 m2.
  rewrite !Rplus_0_l, !Rplus_0_r. split; intros H.
  - assert (K : (m1 * (d1 + d2) = (m1 + m2) * d1)%R).
    { apply (f_equal (fun x => x * d1 * (d1 + d2))%R) in H. field_simplify in H; [lra|lra|lra]. }
    apply Rmult_eq_reg_r with (d1 * d2)%R; [|nra]. field_simplify; lra.
  - assert (K : (m1 * d2 = m2 * d1)%R).
    { apply (f_equal (fun x => x * d1 * d2)%R) in H. field_simplify in H; [lra|lra|lra]. }
    apply Rmult_eq_reg_r with (d1 * (d1 + d2))%R; [|nra]. field_simplify; lra.
Qed.
(** one row of two domains: weight 1 everywhere, momentum 1 in the left and 3 in the right domain *)
Definition two (f : Z -> R) : doms (grid R) := fun p => new_grid 4 6 2 (fun _ _ => f (snd p)).
Theorem C116_border_refuted :
  exists m', stitch Rplus Momentum 1 2 (mean_map 8 10 2 (two (fun _ => 1%R)) (two (fun j => if j =? 0 then 1%R else 3%R))) = Ok m' /\
    rinterior 8 10 2 4 7 /\
    cell (m' (0, 0)) 4 7 <> (everything Rplus 0 1 2 8 10 2 (two (fun j => if j =? 0 then 1%R else 3%R)) 0 0 4 7 /
                             everything Rplus 0 1 2 8 10 2 (two (fun _ => 1%R)) 0 0 4 7)%R.
Proof.
  destruct (C116_border_iff 1 2 8 10 2 (two (fun _ => 1%R)) (two (fun j => if j =? 0 then 1%R else 3%R)) 0 0 4 7
    ltac:(lia) ltac:(lia) ltac:(lia) ltac:(lia)) as (m' & E & Q); try lia.
  - intros i j _ _. unfold two. split; [apply new_grid_wf; lia|]. repeat split.
  - unfold rinterior; lia.
  - reflexivity.
  - vm_compute. discriminate.
  - unfold two, new_grid; cbn [cell]. lra.
  - unfold rnb, two, new_grid; cbn [cell]. lra.
  - exists m'. split; [exact E|]. split; [unfold rinterior; lia|]. rewrite Q.
    unfold rnb, two, new_grid, coldir; cbn [cell snd fst Z.add Z.eqb andb Z.ltb Z.compare Pos.compare Pos.compare_cont Z.leb Z.sub Z.opp Z.mul Pos.mul Z.pos_sub Pos.pred_double].
    cbn. lra.
Qed.

Print Assumptions C114_exact. Print Assumptions C114_complete_partial. Print Assumptions C114_one_row. Print Assumptions C114_one_column.
Print Assumptions C114_corner_refuted.
Print Assumptions C115_others. Print Assumptions C115_density_partial. Print Assumptions C115_bare. Print Assumptions C115_density_refuted.
Print Assumptions C116_own. Print Assumptions C116_border_iff. Print Assumptions C116_border_refuted.
