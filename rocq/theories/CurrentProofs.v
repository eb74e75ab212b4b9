(** Charge conservation of the Villasenor-Buneman deposit, leg by leg. *)
From Coq Require Import ZifyBool Reals Lra Psatz.
From Verif Require Import Base GridModel GridProofs OverlayModel YeeModel YeeProofs ThmYee RndUtil ExtModel ThmExt CurrentModel.
Open Scope Z_scope.

(** what a list of accesses adds to the value at (c, x, y) *)
Definition ceqb (a b : comp) : bool := match a, b with Cr, Cr | Cphi, Cphi | Cz, Cz => true | _, _ => false end.
Fixpoint amount (c : comp) (x y : Z) (ds : list dep) : R :=
  match ds with
  | [] => 0%R
  | Inc c' i k v :: ds' => ((if ceqb c c' && (x =? i) && (y =? k) then v else 0) + amount c x y ds')%R
  | Put _ _ _ _ :: ds' => amount c x y ds'
  end.
(** the sum of everything added to a component *)
Fixpoint total (c : comp) (ds : list dep) : R :=
  match ds with
  | [] => 0%R
  | Inc c' _ _ v :: ds' => ((if ceqb c c' then v else 0) + total c ds')%R
  | Put _ _ _ _ :: ds' => total c ds'
  end.
Lemma amount_app c x y a b : amount c x y (a ++ b) = (amount c x y a + amount c x y b)%R.
Proof. induction a as [|[] a IH]; cbn [app amount]; rewrite ?IH; lra. Qed.

Lemma rlt_true x y : rlt x y = true <-> (x < y)%R.
Proof. unfold rlt. destruct (Rlt_dec x y); split; intros; auto; discriminate. Qed.
Lemma rlt_false x y : rlt x y = false <-> (y <= x)%R.
Proof. unfold rlt. destruct (Rlt_dec x y); split; intros; auto; try discriminate; lra. Qed.

(** ** specification: the particle is a ring of size dr x dz around (r, z); each node (x, y) owns the ring of size dr x dz
    around it; the node gets the part of the charge that lies in its ring. *)
Section Cons.
Variable g : geo.
Let dr := g_dr g.
Let dz := g_dz g.
Let dt := g_dt g.
Hypothesis Hdr : (0 < dr)%R.
Hypothesis Hdz : (0 < dz)%R.
Hypothesis Hdt : (0 < dt)%R.

Definition share_r (x : Z) (r : R) : R :=
  let lo := Rmax (r - dr / 2) ((IZR x - / 2) * dr) in
  let hi := Rmin (r + dr / 2) ((IZR x + / 2) * dr) in
  if rlt lo hi then ((hi * hi - lo * lo) / (2 * r * dr))%R else 0%R.
Definition share_z (y : Z) (z : R) : R :=
  let lo := Rmax (z - dz / 2) ((IZR y - / 2) * dz) in
  let hi := Rmin (z + dz / 2) ((IZR y + / 2) * dz) in
  if rlt lo hi then ((hi - lo) / dz)%R else 0%R.
(** the area of the surface between the rings x and x+1, and of the end face of ring x *)
Definition face_r (x : Z) : R := (2 * PI * (IZR x + / 2) * dr * dz)%R.
Definition face_z (x : Z) : R := if x =? 0 then (PI * dr * dr / 4)%R else (2 * PI * IZR x * dr * dr)%R.
Definition at_node (ds : list dep) (c : comp) (x y : Z) : R := amount c (x - g_d0 g) (y - g_d1 g) ds.
(** what leaves the ring (x, y) in one step *)
Definition outflow (ds : list dep) (x y : Z) : R :=
  (dt * (face_r x * at_node ds Cr x y - face_r (x - 1) * at_node ds Cr (x - 1) y
         + face_z x * (at_node ds Cz x y - at_node ds Cz x (y - 1))))%R.
(** charge is conserved in every ring *)
Definition conserves (q : R) (ds : list dep) (ro zo rn zn : R) : Prop :=
  forall x y, 0 <= x ->
  (q * (share_r x rn * share_z y zn) = q * (share_r x ro * share_z y zo) - outflow ds x y)%R.

Lemma conserves_app q a b ro zo r1 z1 rn zn :
  conserves q a ro zo r1 z1 -> conserves q b r1 z1 rn zn -> conserves q (a ++ b) ro zo rn zn.
Proof.
  intros A B x y Hx. rewrite (B x y Hx), (A x y Hx). unfold outflow, at_node. rewrite !amount_app. ring.
Qed.
Lemma conserves_nil q r z : conserves q [] r z r z.
Proof. intros x y _. unfold outflow, at_node. cbn [amount]. ring. Qed.

Lemma share_r_in i x r : (0 < r)%R -> (IZR i * dr <= r <= IZR (i + 1) * dr)%R -> 
  share_r x r = (if x =? i then ((((IZR i + / 2) * dr) * ((IZR i + / 2) * dr) - (r - dr / 2) * (r - dr / 2)) / (2 * r * dr))
                 else if x =? i + 1 then (((r + dr / 2) * (r + dr / 2) - ((IZR i + / 2) * dr) * ((IZR i + / 2) * dr)) / (2 * r * dr))
                 else 0)%R.
Proof using Hdr.
  intros Hr [L U]. rewrite plus_IZR in U. unfold share_r.
  destruct (Z.eq_dec x i) as [->|N1]; [rewrite Z.eqb_refl|replace (x =? i) with false by lia].
  { rewrite Rmax_left by nra. rewrite Rmin_right by nra.
    destruct (rlt _ _) eqn:B; [reflexivity|]. apply rlt_false in B.
    assert (E : (r - dr / 2 = (IZR i + / 2) * dr)%R) by nra. rewrite E. unfold Rdiv. ring. }
  destruct (Z.eq_dec x (i + 1)) as [->|N2]; [rewrite Z.eqb_refl|replace (x =? i + 1) with false by lia].
  { rewrite plus_IZR. rewrite Rmax_right by nra. rewrite Rmin_left by nra.
    replace ((IZR i + 1 - / 2) * dr)%R with ((IZR i + / 2) * dr)%R by lra.
    destruct (rlt _ _) eqn:B; [reflexivity|]. apply rlt_false in B.
    assert (E : (r + dr / 2 = (IZR i + / 2) * dr)%R) by nra. rewrite E. unfold Rdiv. ring. }
  destruct (rlt _ _) eqn:B; [|reflexivity]. apply rlt_true in B. exfalso.
  pose proof (Rmax_l (r - dr / 2) ((IZR x - / 2) * dr)). pose proof (Rmax_r (r - dr / 2) ((IZR x - / 2) * dr)).
  pose proof (Rmin_l (r + dr / 2) ((IZR x + / 2) * dr)). pose proof (Rmin_r (r + dr / 2) ((IZR x + / 2) * dr)).
  destruct (Z_lt_le_dec x i) as [X|X].
  - assert (Y := IZR_le (x + 1) i ltac:(lia)). rewrite plus_IZR in Y. nra.
  - assert (Y := IZR_le (i + 2) x ltac:(lia)). rewrite plus_IZR in Y. nra.
Qed.
Lemma share_z_in k y z : (IZR k * dz <= z <= IZR (k + 1) * dz)%R -> 
  share_z y z = (if y =? k then ((IZR k + 1) * dz - z) / dz else if y =? k + 1 then (z - IZR k * dz) / dz else 0)%R.
Proof using Hdz.
  intros [L U]. rewrite plus_IZR in U. unfold share_z.
  destruct (Z.eq_dec y k) as [->|N1]; [rewrite Z.eqb_refl|replace (y =? k) with false by lia].
  { rewrite Rmax_left by nra. rewrite Rmin_right by nra.
    destruct (rlt _ _) eqn:B; [f_equal; lra|]. apply rlt_false in B.
    replace ((IZR k + 1) * dz - z)%R with 0%R by nra. unfold Rdiv. ring. }
  destruct (Z.eq_dec y (k + 1)) as [->|N2]; [rewrite Z.eqb_refl|replace (y =? k + 1) with false by lia].
  { rewrite plus_IZR. rewrite Rmax_right by nra. rewrite Rmin_left by nra.
    destruct (rlt _ _) eqn:B; [f_equal; lra|]. apply rlt_false in B.
    replace (z - IZR k * dz)%R with 0%R by nra. unfold Rdiv. ring. }
  destruct (rlt _ _) eqn:B; [|reflexivity]. apply rlt_true in B. exfalso.
  pose proof (Rmax_l (z - dz / 2) ((IZR y - / 2) * dz)). pose proof (Rmax_r (z - dz / 2) ((IZR y - / 2) * dz)).
  pose proof (Rmin_l (z + dz / 2) ((IZR y + / 2) * dz)). pose proof (Rmin_r (z + dz / 2) ((IZR y + / 2) * dz)).
  destruct (Z_lt_le_dec y k) as [X|X].
  - assert (Y := IZR_le (y + 1) k ltac:(lia)). rewrite plus_IZR in Y. nra.
  - assert (Y := IZR_le (k + 2) y ltac:(lia)). rewrite plus_IZR in Y. nra.
Qed.

(** ** one leg inside a closed cell *)
Definition in_cell (i k : Z) (r z : R) : Prop :=
  (IZR i * dr <= r <= IZR (i + 1) * dr)%R /\ (IZR k * dz <= z <= IZR (k + 1) * dz)%R.

Ltac conds := repeat match goal with |- context [if ?b then _ else _] =>
  first [ replace b with true by lia | replace b with false by lia ] end.

Lemma simple_conserves q i k ro zo rn zn : 0 <= i -> (0 < ro)%R -> (0 < rn)%R ->
  in_cell i k ro zo -> in_cell i k rn zn -> (mnzl <= Rabs (rn - ro))%R -> (mnzl <= Rabs (zn - zo))%R ->
  conserves q (simple g q rn zn ro zo i k) ro zo rn zn.
Proof using Hdr Hdz Hdt.
  intros Hi Ho Hn [Co1 Co2] [Cn1 Cn2] Mr Mz x y Hx.
  assert (M0 : (0 < mnzl)%R) by (unfold mnzl; apply Rinv_0_lt_compat, pow_lt; lra).
  assert (Nr : (rn - ro <> 0)%R) by (intros E; rewrite E, Rabs_R0 in Mr; lra).
  assert (Nz : (zn - zo <> 0)%R) by (intros E; rewrite E, Rabs_R0 in Mz; lra).
  assert (Ppi := PI_RGT_0).
  rewrite (share_r_in i x rn), (share_r_in i x ro), (share_z_in k y zn), (share_z_in k y zo) by assumption.
  unfold simple. apply rlt_false in Mr. apply rlt_false in Mz. fold dr dz dt. rewrite Mr, Mz. cbn [orb].
  clear Mr Mz M0 Co1 Co2 Cn1 Cn2.
  replace ((rn - ro) / (zn - zo) * (zn - zo) + ro)%R with rn by (field; assumption).
  replace (ro + (rn - ro))%R with rn by ring.
  generalize (ln (rn / ro)). intros L.
  unfold outflow, at_node. cbn [amount ceqb andb].
  assert (Y1 : y = k \/ y = k + 1 \/ (y <> k /\ y <> k + 1)) by lia.
  assert (X1 : x = i \/ x = i + 1 \/ (x <> i /\ x <> i + 1)) by lia.
  unfold face_z, face_r, dens_r, dens_z. fold dr dz dt.
  destruct (Z_le_gt_dec 1 i) as [I1|I1].
  - replace (1 <=? i) with true by lia.
    assert (Pi := IZR_le 1 i I1).
    destruct X1 as [->|[->|[X1 X2]]]; destruct Y1 as [->|[->|[Y1 Y2]]]; conds;
      rewrite ?minus_IZR, ?plus_IZR; try ring; field; repeat split; lra.
  - replace (1 <=? i) with false by lia. assert (i = 0) by lia. subst i.
    destruct X1 as [->|[->|[X1 X2]]]; destruct Y1 as [->|[->|[Y1 Y2]]]; conds;
      rewrite ?minus_IZR, ?plus_IZR; try ring; field; repeat split; lra.
Qed.

(** ** several legs *)
Definition leg_in (l : leg) : Prop :=
  match l with (rn, zn, ro, zo, i, k) => 0 <= i /\ (0 < ro)%R /\ (0 < rn)%R /\ in_cell i k ro zo /\ in_cell i k rn zn end.
(** a leg is empty or long enough not to be skipped by simple_current_distribution *)
Definition leg_long (l : leg) : Prop :=
  match l with (rn, zn, ro, zo, _, _) =>
    (rn = ro /\ zn = zo) \/ ((mnzl <= Rabs (rn - ro))%R /\ (mnzl <= Rabs (zn - zo))%R) end.
Fixpoint chain (ro zo : R) (ls : list leg) (rn zn : R) : Prop :=
  match ls with
  | [] => ro = rn /\ zo = zn
  | (r1, z1, r0, z0, _, _) :: ls' => r0 = ro /\ z0 = zo /\ chain r1 z1 ls' rn zn
  end.
Lemma mnzl_pos : (0 < mnzl)%R.
Proof. unfold mnzl. apply Rinv_0_lt_compat, pow_lt. lra. Qed.
Lemma chain_conserves q ls : forall ro zo rn zn, chain ro zo ls rn zn -> Forall leg_in ls -> Forall leg_long ls ->
  conserves q (flat_map (simple_leg g q) ls) ro zo rn zn.
Proof using Hdr Hdz Hdt.
  induction ls as [|[[[[[r1 z1] r0] z0] i] k] ls IH]; intros ro zo rn zn C I Lg.
  - destruct C as [-> ->]. apply conserves_nil.
  - cbn [chain] in C. destruct C as (-> & -> & C). inversion_clear I as [|? ? I1 I2]. inversion_clear Lg as [|? ? L1 L2].
    cbn [flat_map]. apply conserves_app with (r1 := r1) (z1 := z1); [|now apply IH].
    destruct I1 as (Hi & H0 & H1 & C0 & C1). cbn [simple_leg]. destruct L1 as [[-> ->]|[M1 M2]].
    + unfold simple. assert (P := mnzl_pos). replace (ro - ro)%R with 0%R by ring. rewrite Rabs_R0.
      assert (X : rlt 0 mnzl = true) by now apply rlt_true. rewrite X. cbn [orb]. apply conserves_nil.
    + now apply simple_conserves.
Qed.

(** the straight path from the old to the new position meets a corner of the grid *)
Definition through_corner (ro zo rn zn : R) : Prop :=
  exists t a b, (0 <= t <= 1)%R /\ (ro + t * (rn - ro) = IZR a * dr)%R /\ (zo + t * (zn - zo) = IZR b * dz)%R.

Lemma frac01 a b x : (a < b)%R -> (a <= x <= b)%R -> (0 <= (x - a) / (b - a) <= 1)%R.
Proof.
  clear. intros H [H1 H2]. assert (P : (0 < / (b - a))%R) by (apply Rinv_0_lt_compat; lra). split.
  - apply Rmult_le_pos; lra.
  - apply Rmult_le_reg_r with (b - a)%R; [lra|]. unfold Rdiv. rewrite Rmult_assoc, Rinv_l; lra.
Qed.
(** the parameter of a point between a and b *)
Lemma param a b x : a <> b -> (a <= x <= b \/ b <= x <= a)%R ->
  exists t, (0 <= t <= 1)%R /\ (x = a + t * (b - a))%R /\ t = ((x - a) / (b - a))%R.
Proof.
  clear. intros H B. exists ((x - a) / (b - a))%R. split; [|split; [field; lra|reflexivity]].
  destruct B as [B|B].
  - apply frac01; lra.
  - replace ((x - a) / (b - a))%R with (1 - (x - b) / (a - b))%R by (field; lra).
    assert (F := frac01 b a x ltac:(lra) B). lra.
Qed.
Lemma between a b t lo hi : (0 <= t <= 1)%R -> (lo <= a <= hi)%R -> (lo <= b <= hi)%R -> (lo <= a + t * (b - a) <= hi)%R.
Proof. clear. intros. nra. Qed.
Lemma mono_up a d s t : (0 <= d)%R -> (s <= t)%R -> (a + s * d <= a + t * d)%R.
Proof. clear. nra. Qed.
Lemma mono_dn a d s t : (d <= 0)%R -> (s <= t)%R -> (a + t * d <= a + s * d)%R.
Proof. clear. nra. Qed.
Lemma lt_up a d s t : (0 < d)%R -> (a + s * d < a + t * d)%R -> (s < t)%R.
Proof. clear. nra. Qed.
Lemma lt_dn a d s t : (d < 0)%R -> (a + s * d < a + t * d)%R -> (t < s)%R.
Proof. clear. nra. Qed.
Lemma positive_t a b t : (0 < a)%R -> (0 < b)%R -> (0 <= t <= 1)%R -> (0 < a + t * (b - a))%R.
Proof. clear. nra. Qed.

Section Legs.
Variables (rn zn ro zo : R) (i_n i_o k_n k_o : Z).
Hypothesis Pn : (0 < rn)%R.
Hypothesis Po : (0 < ro)%R.
Hypothesis Hin : (IZR i_n * dr <= rn < IZR (i_n + 1) * dr)%R.
Hypothesis Hio : (IZR i_o * dr <= ro < IZR (i_o + 1) * dr)%R.
Hypothesis Hkn : (IZR k_n * dz <= zn < IZR (k_n + 1) * dz)%R.
Hypothesis Hko : (IZR k_o * dz <= zo < IZR (k_o + 1) * dz)%R.
Hypothesis Ii : 0 <= i_n.
Hypothesis Io : 0 <= i_o.
Hypothesis Nr : rn <> ro.
Hypothesis Nz : zn <> zo.
Hypothesis Si : Z.abs (i_n - i_o) <= 1.
Hypothesis Sk : Z.abs (k_n - k_o) <= 1.
Hypothesis Nb : i_n < i_o -> k_n = k_o -> (IZR i_o * dr < ro)%R.
Hypothesis Nc : i_n <> i_o -> k_n <> k_o -> ~ through_corner ro zo rn zn.

Let ls := legs g rn zn ro zo i_n i_o k_n k_o.
Ltac fin := repeat apply Forall_cons; try apply Forall_nil; cbn [leg_in]; unfold in_cell;
  repeat (rewrite minus_IZR in * || rewrite plus_IZR in *); repeat match goal with |- _ /\ _ => split end; first [lia | lra].

Lemma legs_good : chain ro zo ls rn zn /\ Forall leg_in ls /\ ls <> [].
Proof using All.
  unfold ls, legs. fold dr dz.
  assert (Zi : i_n = i_o \/ i_n = i_o + 1 \/ i_n = i_o - 1) by lia.
  assert (Zk : k_n = k_o \/ k_n = k_o + 1 \/ k_n = k_o - 1) by lia.
  destruct Zi as [Zi|[Zi|Zi]]; destruct Zk as [Zk|[Zk|Zk]]; rewrite Zi, Zk in *.
  - (* same cell *)
    replace (Z.abs (i_o - i_o) + Z.abs (k_o - k_o) =? 0) with true by lia.
    split; [repeat split; reflexivity|]. split; [|discriminate]. fin.
  - (* k + 1 *)
    replace (Z.abs (i_o - i_o) + Z.abs (k_o + 1 - k_o) =? 0) with false by lia.
    replace (Z.abs (i_o - i_o) + Z.abs (k_o + 1 - k_o) =? 1) with true by lia.
    replace (negb (i_o =? i_o) && (k_o + 1 =? k_o)) with false by lia.
    replace ((i_o =? i_o) && negb (k_o + 1 =? k_o)) with true by lia.
    assert (B : rlt zo (IZR (k_o + 1) * dz) = true) by (apply rlt_true; lra). rewrite B.
    destruct (param zo zn (IZR (k_o + 1) * dz)) as (t & T & E1 & E2); [auto|lra|].
    assert (E : (ro + (rn - ro) / (zn - zo) * (IZR (k_o + 1) * dz - zo) = ro + t * (rn - ro))%R) by (rewrite E2; field; lra).
    rewrite E. clear E E2.
    assert (Bt := between ro rn t (IZR i_o * dr) (IZR (i_o + 1) * dr) T ltac:(lra) ltac:(lra)).
    assert (Pt := positive_t ro rn t Po Pn T).
    split; [repeat split; reflexivity|]. split; [|discriminate].
    replace (k_o + 1 - 1) with k_o by lia. fin.
  - (* k - 1 *)
    replace (Z.abs (i_o - i_o) + Z.abs (k_o - 1 - k_o) =? 0) with false by lia.
    replace (Z.abs (i_o - i_o) + Z.abs (k_o - 1 - k_o) =? 1) with true by lia.
    replace (negb (i_o =? i_o) && (k_o - 1 =? k_o)) with false by lia.
    replace ((i_o =? i_o) && negb (k_o - 1 =? k_o)) with true by lia.
    replace (k_o - 1 + 1) with k_o in * by lia.
    assert (B : rlt zo (IZR (k_o - 1) * dz) = false) by (apply rlt_false; rewrite minus_IZR in *; lra). rewrite B.
    destruct (param zn zo (IZR k_o * dz)) as (t & T & E1 & E2); [auto|lra|].
    assert (E : (rn + (ro - rn) / (zo - zn) * (IZR k_o * dz - zn) = rn + t * (ro - rn))%R) by (rewrite E2; field; lra).
    rewrite E. clear E E2.
    assert (Bt := between rn ro t (IZR i_o * dr) (IZR (i_o + 1) * dr) T ltac:(lra) ltac:(lra)).
    assert (Pt := positive_t rn ro t Pn Po T).
    split; [repeat split; reflexivity|]. split; [|discriminate].
    fin.
  - (* i + 1 *)
    replace (Z.abs (i_o + 1 - i_o) + Z.abs (k_o - k_o) =? 0) with false by lia.
    replace (Z.abs (i_o + 1 - i_o) + Z.abs (k_o - k_o) =? 1) with true by lia.
    replace (negb (i_o + 1 =? i_o) && (k_o =? k_o)) with true by lia.
    assert (B : rlt (IZR (i_o + 1 + 1) * dr) ro = false) by (apply rlt_false; rewrite !plus_IZR in *; lra). rewrite B.
    destruct (param ro rn (IZR (i_o + 1) * dr)) as (t & T & E1 & E2); [auto|lra|].
    assert (E : (zo + (IZR (i_o + 1) * dr - ro) / ((rn - ro) / (zn - zo)) = zo + t * (zn - zo))%R) by (rewrite E2; field; lra).
    rewrite E. clear E E2.
    assert (Bt := between zo zn t (IZR k_o * dz) (IZR (k_o + 1) * dz) T ltac:(lra) ltac:(lra)).
    assert (Pt := positive_t ro rn t Po Pn T). rewrite <- E1 in Pt.
    split; [repeat split; reflexivity|]. split; [|discriminate].
    replace (i_o + 1 - 1) with i_o by lia. fin.
  - (* i + 1, k + 1 *)
    replace (Z.abs (i_o + 1 - i_o) + Z.abs (k_o + 1 - k_o) =? 0) with false by lia.
    replace (Z.abs (i_o + 1 - i_o) + Z.abs (k_o + 1 - k_o) =? 1) with false by lia.
    replace (Z.abs (i_o + 1 - i_o) + Z.abs (k_o + 1 - k_o) =? 2) with true by lia.
    replace (i_o <? i_o + 1) with true by lia. replace (k_o <? k_o + 1) with true by lia.
    destruct (param ro rn (IZR (i_o + 1) * dr)) as (t & T & E1 & E2); [auto|lra|].
    destruct (param zo zn (IZR (k_o + 1) * dz)) as (u & U & F1 & F2); [auto|lra|].
    assert (E : (zo + (IZR (i_o + 1) * dr - ro) / ((rn - ro) / (zn - zo)) = zo + t * (zn - zo))%R) by (rewrite E2; field; lra).
    assert (F : (ro + (IZR (k_o + 1) * dz - zo) * ((rn - ro) / (zn - zo)) = ro + u * (rn - ro))%R) by (rewrite F2; field; lra).
    rewrite E, F. clear E E2 F F2.
    assert (Pt := positive_t ro rn t Po Pn T). assert (Pu := positive_t ro rn u Po Pn U).
    replace (i_o + 1 - 1) with i_o by lia. replace (k_o + 1 - 1) with k_o by lia.
    destruct (Rtotal_order t u) as [C|[C|C]].
    + assert (C2 : (zo + t * (zn - zo) < zo + u * (zn - zo))%R) by (apply Rplus_lt_compat_l, Rmult_lt_compat_r; lra).
      assert (M1 := mono_up ro (rn - ro) t u ltac:(lra) ltac:(lra)).
      assert (M2 := mono_up ro (rn - ro) u 1 ltac:(lra) ltac:(lra)).
      assert (M3 := mono_up zo (zn - zo) 0 t ltac:(lra) ltac:(lra)).
      assert (B : rlt (zo + t * (zn - zo)) (IZR (k_o + 1) * dz) = true) by (apply rlt_true; lra). rewrite B.
      split; [repeat split; reflexivity|]. split; [|discriminate]. rewrite <- E1 in *. rewrite <- F1 in *. fin.
    + exfalso. apply Nc; try lia. subst u. exists t, (i_o + 1), (k_o + 1). auto.
    + assert (C2 : (zo + u * (zn - zo) < zo + t * (zn - zo))%R) by (apply Rplus_lt_compat_l, Rmult_lt_compat_r; lra).
      assert (M1 := mono_up ro (rn - ro) u t ltac:(lra) ltac:(lra)).
      assert (M2 := mono_up ro (rn - ro) 0 u ltac:(lra) ltac:(lra)).
      assert (M3 := mono_up zo (zn - zo) t 1 ltac:(lra) ltac:(lra)).
      assert (B : rlt (zo + t * (zn - zo)) (IZR (k_o + 1) * dz) = false) by (apply rlt_false; lra). rewrite B.
      assert (B' : rlt (IZR (k_o + 1) * dz) (zo + t * (zn - zo)) = true) by (apply rlt_true; lra). rewrite B'.
      split; [repeat split; reflexivity|]. split; [|discriminate]. rewrite <- E1 in *. rewrite <- F1 in *. fin.
  - (* i + 1, k - 1 *)
    replace (Z.abs (i_o + 1 - i_o) + Z.abs (k_o - 1 - k_o) =? 0) with false by lia.
    replace (Z.abs (i_o + 1 - i_o) + Z.abs (k_o - 1 - k_o) =? 1) with false by lia.
    replace (Z.abs (i_o + 1 - i_o) + Z.abs (k_o - 1 - k_o) =? 2) with true by lia.
    replace (i_o <? i_o + 1) with true by lia. replace (k_o <? k_o - 1) with false by lia.
    replace (k_o - 1 + 1) with k_o in * by lia.
    destruct (param ro rn (IZR (i_o + 1) * dr)) as (t & T & E1 & E2); [auto|lra|].
    destruct (param zo zn (IZR k_o * dz)) as (u & U & F1 & F2); [auto|lra|].
    assert (E : (zo + (IZR (i_o + 1) * dr - ro) / ((rn - ro) / (zn - zo)) = zo + t * (zn - zo))%R) by (rewrite E2; field; lra).
    assert (F : (ro + - (zo - IZR k_o * dz) * ((rn - ro) / (zn - zo)) = ro + u * (rn - ro))%R) by (rewrite F2; field; lra).
    rewrite E, F. clear E E2 F F2.
    assert (Pt := positive_t ro rn t Po Pn T). assert (Pu := positive_t ro rn u Po Pn U).
    replace (i_o + 1 - 1) with i_o by lia.
    destruct (Rtotal_order t u) as [C|[C|C]].
    + assert (C2 : (zo + u * (zn - zo) < zo + t * (zn - zo))%R) by (apply Rplus_lt_compat_l, Rmult_lt_gt_compat_neg_l || nra).
      assert (M1 := mono_up ro (rn - ro) t u ltac:(lra) ltac:(lra)).
      assert (M2 := mono_up ro (rn - ro) u 1 ltac:(lra) ltac:(lra)).
      assert (M3 := mono_dn zo (zn - zo) 0 t ltac:(lra) ltac:(lra)).
      assert (B : rlt (IZR k_o * dz) (zo + t * (zn - zo)) = true) by (apply rlt_true; lra). rewrite B.
      split; [repeat split; reflexivity|]. split; [|discriminate]. rewrite <- E1 in *. rewrite <- F1 in *. fin.
    + exfalso. apply Nc; try lia. subst u. exists t, (i_o + 1), k_o. auto.
    + assert (C2 : (zo + t * (zn - zo) < zo + u * (zn - zo))%R) by nra.
      assert (M1 := mono_up ro (rn - ro) u t ltac:(lra) ltac:(lra)).
      assert (M2 := mono_up ro (rn - ro) 0 u ltac:(lra) ltac:(lra)).
      assert (M3 := mono_dn zo (zn - zo) t 1 ltac:(lra) ltac:(lra)).
      assert (B : rlt (IZR k_o * dz) (zo + t * (zn - zo)) = false) by (apply rlt_false; lra). rewrite B.
      assert (B' : rlt (zo + t * (zn - zo)) (IZR k_o * dz) = true) by (apply rlt_true; lra). rewrite B'.
      split; [repeat split; reflexivity|]. split; [|discriminate]. rewrite <- E1 in *. rewrite <- F1 in *. fin.
  - (* i - 1 *)
    replace (Z.abs (i_o - 1 - i_o) + Z.abs (k_o - k_o) =? 0) with false by lia.
    replace (Z.abs (i_o - 1 - i_o) + Z.abs (k_o - k_o) =? 1) with true by lia.
    replace (negb (i_o - 1 =? i_o) && (k_o =? k_o)) with true by lia.
    replace (i_o - 1 + 1) with i_o in * by lia.
    assert (B : rlt (IZR i_o * dr) ro = true) by (apply rlt_true; apply Nb; lia). rewrite B.
    destruct (param rn ro (IZR i_o * dr)) as (t & T & E1 & E2); [auto|lra|].
    assert (E : (zn + (IZR i_o * dr - rn) / ((ro - rn) / (zo - zn)) = zn + t * (zo - zn))%R) by (rewrite E2; field; lra).
    rewrite E. clear E E2.
    assert (Bt := between zn zo t (IZR k_o * dz) (IZR (k_o + 1) * dz) T ltac:(lra) ltac:(lra)).
    assert (Pt := positive_t rn ro t Pn Po T). rewrite <- E1 in Pt.
    split; [repeat split; reflexivity|]. split; [|discriminate]. fin.
  - (* i - 1, k + 1 *)
    replace (Z.abs (i_o - 1 - i_o) + Z.abs (k_o + 1 - k_o) =? 0) with false by lia.
    replace (Z.abs (i_o - 1 - i_o) + Z.abs (k_o + 1 - k_o) =? 1) with false by lia.
    replace (Z.abs (i_o - 1 - i_o) + Z.abs (k_o + 1 - k_o) =? 2) with true by lia.
    replace (i_o <? i_o - 1) with false by lia. replace (i_o - 1 <? i_o) with true by lia. replace (k_o <? k_o + 1) with true by lia.
    replace (i_o - 1 + 1) with i_o in * by lia.
    destruct (param ro rn (IZR i_o * dr)) as (t & T & E1 & E2); [auto|lra|].
    destruct (param zo zn (IZR (k_o + 1) * dz)) as (u & U & F1 & F2); [auto|lra|].
    assert (E : (zo + - (ro - IZR i_o * dr) / ((rn - ro) / (zn - zo)) = zo + t * (zn - zo))%R) by (rewrite E2; field; lra).
    assert (F : (ro - - (IZR (k_o + 1) * dz - zo) * ((rn - ro) / (zn - zo)) = ro + u * (rn - ro))%R) by (rewrite F2; field; lra).
    rewrite E, F. clear E E2 F F2.
    assert (Pt := positive_t ro rn t Po Pn T). assert (Pu := positive_t ro rn u Po Pn U).
    replace (k_o + 1 - 1) with k_o by lia.
    destruct (Rtotal_order t u) as [C|[C|C]].
    + assert (C2 : (zo + t * (zn - zo) < zo + u * (zn - zo))%R) by nra.
      assert (M1 := mono_dn ro (rn - ro) t u ltac:(lra) ltac:(lra)).
      assert (M2 := mono_dn ro (rn - ro) u 1 ltac:(lra) ltac:(lra)).
      assert (M3 := mono_up zo (zn - zo) 0 t ltac:(lra) ltac:(lra)).
      assert (B : rlt (zo + t * (zn - zo)) (IZR (k_o + 1) * dz) = true) by (apply rlt_true; lra). rewrite B.
      split; [repeat split; reflexivity|]. split; [|discriminate]. rewrite <- E1 in *. rewrite <- F1 in *. fin.
    + exfalso. apply Nc; try lia. subst u. exists t, i_o, (k_o + 1). auto.
    + assert (C2 : (zo + u * (zn - zo) < zo + t * (zn - zo))%R) by nra.
      assert (M1 := mono_dn ro (rn - ro) u t ltac:(lra) ltac:(lra)).
      assert (M2 := mono_dn ro (rn - ro) 0 u ltac:(lra) ltac:(lra)).
      assert (M3 := mono_up zo (zn - zo) t 1 ltac:(lra) ltac:(lra)).
      assert (B : rlt (zo + t * (zn - zo)) (IZR (k_o + 1) * dz) = false) by (apply rlt_false; lra). rewrite B.
      assert (B' : rlt (IZR (k_o + 1) * dz) (zo + t * (zn - zo)) = true) by (apply rlt_true; lra). rewrite B'.
      split; [repeat split; reflexivity|]. split; [|discriminate]. rewrite <- E1 in *. rewrite <- F1 in *. fin.
  - (* i - 1, k - 1 *)
    replace (Z.abs (i_o - 1 - i_o) + Z.abs (k_o - 1 - k_o) =? 0) with false by lia.
    replace (Z.abs (i_o - 1 - i_o) + Z.abs (k_o - 1 - k_o) =? 1) with false by lia.
    replace (Z.abs (i_o - 1 - i_o) + Z.abs (k_o - 1 - k_o) =? 2) with true by lia.
    replace (i_o <? i_o - 1) with false by lia. replace (i_o - 1 <? i_o) with true by lia.
    replace (k_o <? k_o - 1) with false by lia. replace (k_o - 1 <? k_o) with true by lia.
    replace (i_o - 1 + 1) with i_o in * by lia. replace (k_o - 1 + 1) with k_o in * by lia.
    destruct (param rn ro (IZR i_o * dr)) as (t & T & E1 & E2); [auto|lra|].
    destruct (param zn zo (IZR k_o * dz)) as (u & U & F1 & F2); [auto|lra|].
    assert (E : (zn + (IZR i_o * dr - rn) / ((ro - rn) / (zo - zn)) = zn + t * (zo - zn))%R) by (rewrite E2; field; lra).
    assert (F : (rn + (IZR k_o * dz - zn) * ((ro - rn) / (zo - zn)) = rn + u * (ro - rn))%R) by (rewrite F2; field; lra).
    rewrite E, F. clear E E2 F F2.
    assert (Pt := positive_t rn ro t Pn Po T). assert (Pu := positive_t rn ro u Pn Po U).
    destruct (Rtotal_order t u) as [C|[C|C]].
    + assert (C2 : (zn + t * (zo - zn) < zn + u * (zo - zn))%R) by nra.
      assert (M1 := mono_up rn (ro - rn) t u ltac:(lra) ltac:(lra)).
      assert (M2 := mono_up rn (ro - rn) u 1 ltac:(lra) ltac:(lra)).
      assert (M3 := mono_up zn (zo - zn) 0 t ltac:(lra) ltac:(lra)).
      assert (B : rlt (IZR k_o * dz) (zn + t * (zo - zn)) = false) by (apply rlt_false; lra). rewrite B.
      assert (B' : rlt (zn + t * (zo - zn)) (IZR k_o * dz) = true) by (apply rlt_true; lra). rewrite B'.
      split; [repeat split; reflexivity|]. split; [|discriminate]. rewrite <- E1 in *. rewrite <- F1 in *. fin.
    + exfalso. apply Nc; try lia. subst u. exists (1 - t)%R, i_o, k_o. split; [lra|]. split; lra.
    + assert (C2 : (zn + u * (zo - zn) < zn + t * (zo - zn))%R) by nra.
      assert (M1 := mono_up rn (ro - rn) u t ltac:(lra) ltac:(lra)).
      assert (M2 := mono_up rn (ro - rn) 0 u ltac:(lra) ltac:(lra)).
      assert (M3 := mono_up zn (zo - zn) t 1 ltac:(lra) ltac:(lra)).
      assert (B : rlt (IZR k_o * dz) (zn + t * (zo - zn)) = true) by (apply rlt_true; lra). rewrite B.
      split; [repeat split; reflexivity|]. split; [|discriminate]. rewrite <- E1 in *. rewrite <- F1 in *. fin.
Qed.
End Legs.
End Cons.
