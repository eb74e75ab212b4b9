(** The currents of a run with several MPI processes: [SMB::solve_current] (src/SMB.cpp:1266-1278) with [current_overlay]
    (SMB.cpp:563-781), and the proof that it adds up what all the domains of all the ranks deposit. *)
From Coq Require Import ZifyBool Reals Lra Permutation.
From Verif Require Import Base GridModel GridProofs CollectorModel OverlayModel OverlayConc OverlaySum OverlayPass ThmOverlay YeeModel YeeProofs ThmYee
  ExtModel ThmExt CurrentModel CurrentProofs ThmCurrent ThmCurrent2 SumUtil YeeSmb ThmYeeSmb SmbCorner SmbCurrent ThmDivide
  MpiModel MpiNet MpiData MpiExchange ThmMpi FieldMpiModel FieldMpi.
Open Scope Z_scope.

(** SMB.cpp:1268-1277 and 565-598 on rank [p] of [W] (with [D] longitudinal domains in all): the deposits of its domains, stitched
    between the domains of the rank *)
Definition rank_deposit (dist : geo -> list mover -> grid3 R -> outcome (grid3 R)) (g : geo) (W D R s p : Z)
    (ps : doms (list mover)) (j : doms (grid3 Rdefinitions.R)) : outcome (doms (grid3 Rdefinitions.R)) :=
  do (gr, C) <- rank_geo g W D p; smb_current dist gr R C s ps j.
(** SMB.cpp:599-781: then the exchange between the ranks, under any schedule with a library that stores up to [K] messages *)
Definition mpi_current (dist : geo -> list mover -> grid3 R -> outcome (grid3 R)) (g : geo) (W D R s : Z) (K : nat)
    (ps : Z -> doms (list mover)) (j j' : Z -> doms (grid3 Rdefinitions.R)) : Prop :=
  exists jp, (forall p, rank_range W p -> rank_deposit dist g W D R s p (ps p) (j p) = Ok (jp p)) /\ exchanged Rplus 0%R K W R (D / W) jp j'.

(** specification: the corner blocks of the ghost cells of a domain *)
Definition corner (s x y : Z) : bool := ((x <? 0) || (s <=? x)) && ((y <? 0) || (s <=? y)).
(** what gets lost of the deposits: between domains of different ranks all that is in the corner blocks, between domains of one rank
    two of the four *)
Definition lost (s u w : Z) (same : bool) : bool := corner s u w && (negb same || anti s u w).

(** ** sums *)
Lemma sumz_blocks W C f : 0 <= W -> 0 <= C -> sumz (W * C) f = sumz W (fun p => sumz C (fun k => f (p * C + k))).
Proof.
  intros HW HC. pattern W. apply natlike_ind; [reflexivity| |exact HW]. clear W HW. intros W HW IH.
  rewrite <- Z.add_1_r, sumz_succ by exact HW. rewrite <- IH. clear IH. replace ((W + 1) * C) with (W * C + C) by ring.
  assert (A : 0 <= W * C) by nia. revert A. generalize (W * C) as n. intros n Hn.
  pattern C. apply natlike_ind; [| |exact HC].
  - rewrite Z.add_0_r, (sumz_0 0) by lia. lra.
  - intros m Hm IH. replace (n + Z.succ m) with (n + m + 1) by lia. rewrite sumz_succ by lia. rewrite <- Z.add_1_r, sumz_succ by lia. rewrite IH. lra.
Qed.
Lemma sum2_blocks R W C f : 0 <= W -> 0 <= C -> sum2 R (W * C) f = sumz W (fun p => sum2 R C (fun a k => f a (p * C + k))).
Proof.
  intros HW HC. unfold sum2 at 1. rewrite (sumz_ext R _ (fun i => sumz W (fun p => sumz C (fun k => f i (p * C + k))))) by (intros; now apply sumz_blocks).
  exact (sum2_swap R W (fun i p => sumz C (fun k => f i (p * C + k)))).
Qed.

Section Edge.
Variables R C s : Z.
Hypothesis HR : 1 <= R.
Hypothesis HC : 1 <= C.
Hypothesis Hs : 4 <= s.
Hypothesis HsL : s + 4 < 2 ^ 32.
(** the ghost columns beyond the first and the last domain are not touched by the exchange between the domains *)
Lemma pass_edge m m' : all_fit R C s m -> pass3 Rplus R C m = Ok m' -> all_fit R C s m' ->
  forall i j c x y, 0 <= i < R -> 0 <= j < C -> inw s s x y -> (j = 0 /\ y < 0) \/ (j = C - 1 /\ s <= y) ->
  lv (getc c (m' (i, j))) x y = lv (getc c (m (i, j))) x y.
Proof using HR HC Hs HsL.
  intros Fm E Fm' i j c x y Hi Hj Hw B.
  assert (Va : Forall (valid R C) (pass_ops R C)) by (apply Forall_forall; intros q; apply In_pass_ops; lia).
  destruct (run3_comps Rplus (pass_ops R C) m) as (m2 & E2 & Hc).
  { intros c' q Hq. rewrite Forall_forall in Va. apply (valid_fits R C (s + 4) 2); [apply uniform_comp; assumption|auto]. }
  change (run3 Rplus (pass_ops R C) m = Ok m') in E. rewrite E in E2. injection E2 as <-.
  destruct (Hc c) as (mc & Ec & Ep). clear Hc. assert (U := uniform_comp R C s m c Fm).
  assert (Fits : forall q, In q (pass_ops R C) -> fits (okind q) (comp_of c m (src q)) (comp_of c m (dst q))).
  { intros q Hq. rewrite Forall_forall in Va. apply (valid_fits R C (s + 4) 2); [exact U|auto]. }
  destruct (run1_frame Rplus (pass_ops R C) (comp_of c m) Fits) as (mc' & Ec' & _ & Fr). rewrite Ec in Ec'. injection Ec' as <-.
  assert (Eo : os (getc c (m (i, j))) = 2) by apply (Fm i j Hi Hj c). assert (Eo' : os (getc c (m' (i, j))) = 2) by apply (Fm' i j Hi Hj c).
  unfold lv. rewrite Eo, Eo'. change (getc c (m' (i, j))) with (comp_of c m' (i, j)). rewrite <- Ep, Fr; [reflexivity|].
  intros q Hq Tc. rewrite Forall_forall in Va. specialize (Va q Hq). unfold touches in Tc.
  assert (Sizes : os (comp_of c m (src q)) = 2 /\ xr (comp_of c m (src q)) = s + 4 /\ yr (comp_of c m (src q)) = s + 4) by (now apply (valid_fits R C (s + 4) 2 (comp_of c m) q U) in Va).
  destruct Sizes as (Z1 & Z2 & Z3). rewrite Z1, Z2, Z3 in Tc. unfold inw in Hw.
  destruct q as [kd i' j']; destruct kd; unfold src, dst, valid in *; cbn [okind orow ocol] in *;
     destruct Tc as [[Eq Tc]|[Eq Tc]]; injection Eq as Ei Ej; unfold strip, diag_block in Tc; cbn [shr shc] in Tc; lia.
Qed.
End Edge.

Section Ranks.
Variables W R C s : Z.
Hypothesis HW : 1 <= W.
Hypothesis HR : 1 <= R.
Hypothesis HC : 1 <= C.
Hypothesis Hs : 4 <= s.
Hypothesis HsL : s + 4 < 2 ^ 32.

Lemma ready_fit (m : Z -> doms (grid3 Rdefinitions.R)) : rank_fit W R C s m -> ready W R C (s + 4) (s + 4) m.
Proof using.
  intros F p i j Hp Hi Hj. specialize (F p Hp i j Hi Hj).
  destruct (F Cr) as (Wr & Or & Xr & Yr). destruct (F Cphi) as (Wp & Op & Xp & Yp). destruct (F Cz) as (Wz & Oz & Xz & Yz). cbn [getc] in *.
  assert (Sz : forall f : grid Rdefinitions.R, wf f -> os f = 2 -> xs f = s -> ys f = s -> xr f = s + 4 /\ yr f = s + 4) by (intros f (_ & _ & _ & E1 & E2 & _) ? ? ?; lia).
  destruct (Sz _ Wr Or Xr Yr). destruct (Sz _ Wp Op Xp Yp). destruct (Sz _ Wz Oz Xz Yz).
  split; [|split; assumption]. split; [exact Wr|]. split; unfold same_shape; repeat split; congruence.
Qed.
Lemma exchanged_fit K m1 m2 : rank_fit W R C s m1 -> exchanged Rplus 0%R K W R C m1 m2 -> rank_fit W R C s m2.
Proof using.
  intros F1 X p Hp i j Hi Hj c. assert (Sh := exchanged_shape Rplus 0%R K W R C m1 m2 X p (i, j) Hp). specialize (F1 p Hp i j Hi Hj c). rewrite compk_getc in *.
  destruct F1 as (Wf & F1). set (k := match c with Cr => 0 | Cphi => 1 | Cz => 2 end) in *. assert (Hk : 0 <= k < 3) by (unfold k; destruct c; lia).
  specialize (Sh k Hk). split; [eapply same_shape_wf; eauto|]. destruct Sh as (S1 & S2 & S3 & S4 & S5). repeat split; lia.
Qed.
(** the values of the cells after the exchange between ranks *)
Lemma exchanged_lv K m1 m2 : rank_fit W R C s m1 -> exchanged Rplus 0%R K W R C m1 m2 ->
  forall p i j c x y, 0 <= p < W -> 0 <= i < R -> 0 <= j < C -> inw s s x y -> lv (getc c (m2 p (i, j))) x y =
    (lv (getc c (m1 p (i, j))) x y + (if (0 <? p) && (j =? 0) && (y <? 2) then lv (getc c (m1 (p - 1)%Z (i, C - 1)%Z)) x (s + y)%Z
       else if (p <? W - 1) && (j =? C - 1) && (s - 2 <=? y) then lv (getc c (m1 (p + 1)%Z (i, 0%Z))) x (y - s)%Z else 0))%R.
Proof using HC Hs.
  intros F1 X p i j c x y Hp Hi Hj Hw. assert (F2 := exchanged_fit K m1 m2 F1 X).
  assert (V := exchanged_values Rplus 0%R W R C (s + 4) (s + 4) HC ltac:(lia) m1 (ready_fit m1 F1) ltac:(lia) K m2 X p i j (match c with Cr => 0 | Cphi => 1 | Cz => 2 end) (x + 2) (y + 2) Hp ltac:(destruct c; lia)).
  assert (Rv : forall p i j x y, 0 <= p < W -> 0 <= i < R -> 0 <= j < C -> cell (getc c (m1 p (i, j))) (x + 2) (y + 2) = lv (getc c (m1 p (i, j))) x y).
  { intros p' i' j' x' y' Hp' Hi' Hj'. unfold lv. now rewrite (proj1 (proj2 (F1 p' Hp' i' j' Hi' Hj' c))). }
  assert (L2 : lv (getc c (m2 p (i, j))) x y = cell (getc c (m2 p (i, j))) (x + 2) (y + 2)) by (unfold lv; now rewrite (proj1 (proj2 (F2 p Hp i j Hi Hj c)))).
  rewrite L2, compk_getc, V. unfold want. clear V L2 X. unfold inw in Hw.
  replace ((0 <=? i) && (i <? R) && (0 <=? x + 2) && (x + 2 <? s + 4)) with true by lia.
  rewrite <- !compk_getc.
  replace ((0 <? p) && (j =? 0) && (0 <=? y + 2) && (y + 2 <? 4)) with ((0 <? p) && (j =? 0) && (y <? 2)) by lia.
  replace ((p <? W - 1) && (j =? C - 1) && (s + 4 - 4 <=? y + 2) && (y + 2 <? s + 4)) with ((p <? W - 1) && (j =? C - 1) && (s - 2 <=? y)) by lia.
  destruct ((0 <? p) && (j =? 0) && (y <? 2)) eqn:B1.
  { rewrite Rv by auto. replace (s + 4 - 4 + (y + 2)) with (s + y + 2) by lia. rewrite Rv by lia. reflexivity. }
  destruct ((p <? W - 1) && (j =? C - 1) && (s - 2 <=? y)) eqn:B2.
  { rewrite Rv by auto. replace (y + 2 - (s + 4 - 4)) with (y - s + 2) by lia. rewrite Rv by lia. reflexivity. }
  rewrite Rv by auto. lra.
Qed.

(** every inner cell gets what all domains of all ranks stored for it, except what is lost in the corners *)
Lemma rank_stitch_sum K (m m1 m2 : Z -> doms (grid3 Rdefinitions.R)) : rank_fit W R C s m -> (forall p, 0 <= p < W -> pass3 Rplus R C (m p) = Ok (m1 p)) ->
  exchanged Rplus 0%R K W R C m1 m2 -> rank_fit W R C s m2 /\
  forall c (v : Z * Z -> Z -> Z -> Rdefinitions.R),
  (forall p i k x y, 0 <= p < W -> 0 <= i < R -> 0 <= k < C -> inw s s x y -> lv (getc c (m p (i, k))) x y = v (i, p * C + k) (i * s + x) ((p * C + k) * s + y)) ->
  (forall i k x y, 0 <= i < R -> 0 <= k < W * C -> ~ inw s s x y -> v (i, k) (i * s + x) (k * s + y) = 0%R) ->
  forall p i k x y, 0 <= p < W -> 0 <= i < R -> 0 <= k < C -> 0 <= x < s -> 0 <= y < s ->
  let X := i * s + x in let Y := (p * C + k) * s + y in
  lv (getc c (m2 p (i, k))) x y = sum2 R (W * C) (fun a b => if lost s (X - a * s) (Y - b * s) (b / C =? p) then 0%R else v (a, b) X Y).
Proof using HW HR HC Hs HsL.
  intros F E X.
  assert (St : forall p, 0 <= p < W -> all_fit R C s (m1 p) /\
    forall c (v : Z * Z -> Z -> Z -> Rdefinitions.R),
    (forall i k x y, 0 <= i < R -> 0 <= k < C -> inw s s x y -> lv (getc c (m p (i, k))) x y = v (i, k) (i * s + x) (k * s + y)) ->
    (forall i k x y, 0 <= i < R -> 0 <= k < C -> ~ inw s s x y -> v (i, k) (i * s + x) (k * s + y) = 0%R) ->
    forall i k x y, 0 <= i < R -> 0 <= k < C -> 0 <= x < s -> 0 <= y < s ->
    lv (getc c (m1 p (i, k))) x y = sum2 R C (fun a b => if anti s (i * s + x - a * s) (k * s + y - b * s) then 0%R else v (a, b) (i * s + x) (k * s + y))).
  { intros p Hp. destruct (stitch_sum R C s HR HC Hs HsL (m p) (F p Hp)) as (m' & E' & F' & V). rewrite (E p Hp) in E'. injection E' as <-. auto. }
  assert (F1 : rank_fit W R C s m1) by (intros p Hp; now apply St).
  split; [now apply (exchanged_fit K m1)|].
  intros c v A B p i k x y Hp Hi Hk Hx Hy X0 Y0.
  rewrite (exchanged_lv K m1 m2 F1 X p i k c x y Hp Hi Hk) by (unfold inw; lia).
  set (G := fun a b => if lost s (X0 - a * s) (Y0 - b * s) (b / C =? p) then 0%R else v (a, b) X0 Y0).
  rewrite sum2_blocks by lia.
  assert (Dv : forall q t, 0 <= t < C -> (q * C + t) / C = q) by (intros q t Ht; symmetry; apply (Z.div_unique _ _ _ t); lia).
  assert (Own : lv (getc c (m1 p (i, k))) x y = sum2 R C (fun a t => G a (p * C + t))).
  { destruct (St p Hp) as [_ V]. rewrite (V c (fun ab x y => v (fst ab, p * C + snd ab) x (p * C * s + y))); auto.
    - apply sum2_ext. intros a t Ha Ht. cbn [fst snd]. unfold G. rewrite Dv, Z.eqb_refl by exact Ht. unfold lost. cbn [negb orb].
      replace (Y0 - (p * C + t) * s) with (k * s + y - t * s) by (unfold Y0; ring). fold X0.
      replace (p * C * s + (k * s + y)) with Y0 by (unfold Y0; ring).
      assert (Q : anti s (X0 - a * s) (k * s + y - t * s) = corner s (X0 - a * s) (k * s + y - t * s) && anti s (X0 - a * s) (k * s + y - t * s)) by (unfold anti, corner; lia).
      now rewrite <- Q.
    - intros a t u w Ha Ht Hw. cbn [fst snd]. rewrite A by auto. f_equal; ring.
    - intros a t u w Ha Ht Hw. cbn [fst snd]. replace (p * C * s + (t * s + w)) with ((p * C + t) * s + w) by ring. apply B; auto. nia. }
  (* outside its window a domain stores nothing *)
  assert (Far : forall a b, 0 <= a < R -> 0 <= b < W * C -> Y0 - b * s < -2 \/ s + 2 <= Y0 - b * s \/ a <> i /\ b / C <> p -> G a b = 0%R).
  { intros a b Ha Hb N. unfold G. destruct (lost _ _ _ _) eqn:L; [reflexivity|].
    replace X0 with (a * s + (X0 - a * s)) by ring. replace Y0 with (b * s + (Y0 - b * s)) by ring. apply B; auto. unfold inw. intros [W1 W2].
    destruct N as [N|[N|[N1 N2]]]; [lia|lia|].
    unfold lost in L. replace (b / C =? p) with false in L by lia. cbn [negb orb] in L. rewrite andb_true_r in L. unfold corner in L.
    assert (U : X0 - a * s < 0 \/ s <= X0 - a * s) by (unfold X0; assert (D : a <= i - 1 \/ i + 1 <= a) by lia; clear - D Hx Hs; destruct D; [right|left]; nia).
    assert (V : Y0 - b * s < 0 \/ s <= Y0 - b * s).
    { assert (D : b <> p * C + k) by (intros ->; now rewrite Dv in N2). unfold Y0. set (n := p * C + k) in *. clearbody n. assert (D' : b <= n - 1 \/ n + 1 <= b) by lia. clear - D' Hy Hs. destruct D'; [right|left]; nia. }
    lia. }
  assert (Far2 : forall q t, 0 <= t < C -> q <> p -> forall n, n = q * C + t -> n <> p * C + k - 1 /\ n <> p * C + k + 1 -> Y0 - n * s < -2 \/ s + 2 <= Y0 - n * s).
  { intros q t Ht Nq n En [N1 N2]. assert (N0 : n <> p * C + k) by nia. unfold Y0. set (e := p * C + k) in *. clearbody e. clear - N0 N1 N2 Hy Hs.
    assert (D : n <= e - 2 \/ e + 2 <= n) by lia. destruct D; [right|left]; nia. }
  (* a neighbour *)
  assert (Edge : forall d, d = -1 \/ d = 1 -> (0 <= p + d < W) -> k = (if d =? -1 then 0 else C - 1) -> (if d =? -1 then y < 2 else s - 2 <= y) ->
    let t := if d =? -1 then C - 1 else 0 in lv (getc c (m1 (p + d) (i, t))) x (y - d * s) = sum2 R C (fun a t => G a ((p + d) * C + t))).
  { intros d Hd Hpd Ek Ey t. assert (Ht : 0 <= t < C) by (unfold t; destruct (d =? -1); lia).
    assert (Hw : inw s s x (y - d * s)) by (unfold inw; destruct Hd as [-> | ->]; cbn [Z.eqb Pos.eqb] in *; lia).
    rewrite (pass_edge R C s HR HC Hs HsL (m (p + d)) (m1 (p + d)) (F _ Hpd) (E _ Hpd) (F1 _ Hpd) i t c x (y - d * s) Hi Ht Hw)
      by (unfold t; destruct Hd as [-> | ->]; cbn [Z.eqb Pos.eqb] in *; lia).
    rewrite A by auto. rewrite (sum2_single R C _ i t Hi Ht).
    - assert (Eb : ((p + d) * C + t) * s = Y0 - (y - d * s)) by (unfold Y0, t; rewrite Ek; destruct Hd as [-> | ->]; cbn [Z.eqb Pos.eqb]; ring).
      rewrite Eb. unfold G. rewrite Dv by exact Ht. unfold lost. rewrite Eb. fold X0.
      replace (corner _ _ _) with false by (unfold corner, X0; lia). cbn [andb]. f_equal. ring.
    - intros a t' Ha Ht' N. apply Far; [exact Ha|clear - Hpd Ht' HC; set (e := p + d) in *; clearbody e; nia|].
      destruct (Z.eq_dec a i) as [->|Na]; [|right; right; split; [exact Na|rewrite Dv by exact Ht'; lia]].
      assert (Q : Y0 - ((p + d) * C + t') * s < -2 \/ s + 2 <= Y0 - ((p + d) * C + t') * s); [|lia].
      apply (Far2 (p + d) t' Ht' ltac:(lia) _ eq_refl). rewrite Ek. unfold t in N. clear - N Ht' Hd. destruct Hd as [-> | ->]; cbn [Z.eqb Pos.eqb] in *; nia. }
  (* all other ranks store nothing *)
  assert (Rest : forall q, 0 <= q < W -> q <> p -> ~ (q = p - 1 /\ k = 0 /\ y < 2) -> ~ (q = p + 1 /\ k = C - 1 /\ s - 2 <= y) -> sum2 R C (fun a t => G a (q * C + t)) = 0%R).
  { intros q Hq Nq N1 N2. apply sum2_zero. intros a t Ha Ht. apply Far; [exact Ha|clear - Hq Ht HC; nia|].
    assert (Q : Y0 - (q * C + t) * s < -2 \/ s + 2 <= Y0 - (q * C + t) * s); [|lia].
    destruct (Z.eq_dec (q * C + t) (p * C + k - 1)) as [M|M]; [|destruct (Z.eq_dec (q * C + t) (p * C + k + 1)) as [M'|M']].
    - rewrite M. unfold Y0. replace ((p * C + k) * s + y - (p * C + k - 1) * s) with (y + s) by ring.
      assert (q = p - 1 /\ k = 0) by (clear - M Ht Hk Nq HC; nia). lia.
    - rewrite M'. unfold Y0. replace ((p * C + k) * s + y - (p * C + k + 1) * s) with (y - s) by ring.
      assert (q = p + 1 /\ k = C - 1) by (clear - M' Ht Hk Nq HC; nia). lia.
    - apply (Far2 q t Ht Nq _ eq_refl). auto. }
  rewrite Own. clear Own. cbv beta.
  destruct ((0 <? p) && (k =? 0) && (y <? 2)) eqn:B1.
  - rewrite (sumz_two W _ p (-1)) by (try lia; intros q Hq Nq Nq'; apply Rest; lia). cbn [Z.eqb].
    assert (Q := Edge (-1) ltac:(auto) ltac:(lia) ltac:(cbn; lia) ltac:(cbn; lia)). cbv zeta in Q. cbn [Z.eqb Pos.eqb] in Q.
    replace (y - -1 * s) with (s + y) in Q by ring. replace (p + -1) with (p - 1) in * by lia. rewrite Q. reflexivity.
  - destruct ((p <? W - 1) && (k =? C - 1) && (s - 2 <=? y)) eqn:B2.
    + rewrite (sumz_two W _ p 1) by (try lia; intros q Hq Nq Nq'; apply Rest; lia). cbn [Z.eqb].
      assert (Q := Edge 1 ltac:(auto) ltac:(lia) ltac:(cbn; lia) ltac:(cbn; lia)). cbv zeta in Q. cbn [Z.eqb Pos.eqb] in Q.
      replace (y - 1 * s) with (y - s) in Q by ring. rewrite Q. reflexivity.
    + rewrite (sumz_two W _ p 0) by (try lia; intros q Hq Nq Nq'; apply Rest; lia). cbn [Z.eqb]. lra.
Qed.
End Ranks.

(** ** the deposits of all particles of all ranks *)
(** specification: which stored values survive, for domain column [b] of a run with [W] ranks of [C] columns *)
Definition dep_kept (W C s b : Z) (d : dep) : Prop := match d with Inc _ i k _ | Put _ i k _ =>
  anti s i k = false /\ (i < 0 -> k < 0 -> ~ (b mod C = 0 /\ 0 < b)) /\ (s <= i -> s <= k -> ~ (b mod C = C - 1 /\ b < W * C - 1)) end.
(** the same for a particle that moves by at most one cell: within a rank it does not come from the lower neighbour in the last column,
    nor from the left neighbour in the last row; at the border to another rank it is in no corner cell of its domain before or after *)
Definition off_corners (W C b : Z) (h : geo) (p : mover) : Prop :=
  off_corner h p /\ (b mod C = 0 -> 0 < b -> ~ (from_r h p < 0 /\ from_z h p < 0)) /\
  (b mod C = C - 1 -> b < W * C - 1 -> ~ (g_nr h - 1 <= from_r h p /\ g_nz h - 1 <= from_z h p) /\
     ~ (cell_number (m_r p) (g_dr h) - g_d0 h = g_nr h - 1 /\ cell_number (m_z p) (g_dz h) - g_d1 h = g_nz h - 1)).
Lemma zigzag_kept W C b h p n : g_nr h = n -> g_nz h = n -> lands_from_near h p -> off_corners W C b h p -> Forall (dep_kept W C n b) (zigzag h p).
Proof.
  intros <- N (L1 & L2 & _) ((O1 & O2) & O3 & O4). unfold from_r, from_z in *. rewrite N in *. unfold zigzag, dep_kept, anti.
  repeat apply Forall_cons; try apply Forall_nil; (split; [lia|split; intros; lia]).
Qed.

Section Deposits.
Variable g : geo.
Variables W R C s : Z.
Hypothesis HW : 1 <= W.
Hypothesis HR : 1 <= R.
Hypothesis HC : 1 <= C.
Hypothesis Hs : 4 <= s.
Hypothesis HsL : s + 4 < 2 ^ 32.
Let dom i k := dom_geo g R (W * C) s (i, k).

Lemma rank_stitched_amount (f : geo -> mover -> list dep) (ps : doms (list mover)) K m m1 m2 c :
  (forall i k p, f (dom i k) p = map (shiftd (i * s) (k * s)) (f g p)) ->
  rank_fit W R C s m -> (forall p, 0 <= p < W -> pass3 Rplus R C (m p) = Ok (m1 p)) -> exchanged Rplus 0%R K W R C m1 m2 ->
  (forall i k, 0 <= i < R -> 0 <= k < W * C -> Forall (in_win s s) (flat_map (f (dom i k)) (ps (i, k)))) ->
  (R = 1 \/ W * C = 1 \/ forall i k, 0 <= i < R -> 0 <= k < W * C -> Forall (dep_kept W C s k) (flat_map (f (dom i k)) (ps (i, k)))) ->
  (forall p i k x y, 0 <= p < W -> 0 <= i < R -> 0 <= k < C -> inw s s x y ->
     lv (getc c (m p (i, k))) x y = amount c x y (flat_map (f (dom i (p * C + k))) (ps (i, p * C + k)))) ->
  forall p i k x y, 0 <= p < W -> 0 <= i < R -> 0 <= k < C -> 0 <= x < s -> 0 <= y < s ->
  lv (getc c (m2 p (i, k))) x y = amount c (i * s + x) ((p * C + k) * s + y) (flat_map (f g) (everyone R (W * C) ps)).
Proof using HW HR HC Hs HsL.
  intros Sh F E X Wn D V p i k x y Hp Hi Hk Hx Hy.
  assert (Am : forall a b X Y, amount c X Y (flat_map (f g) (ps (a, b))) = amount c (X - a * s) (Y - b * s) (flat_map (f (dom a b)) (ps (a, b)))).
  { intros a b X' Y'. rewrite (flat_map_shift (f g) (f (dom a b)) (a * s) (b * s)) by (intros; apply Sh). rewrite amount_shift. f_equal; lia. }
  assert (Out : forall a b u w, 0 <= a < R -> 0 <= b < W * C -> ~ inw s s u w -> amount c u w (flat_map (f (dom a b)) (ps (a, b))) = 0%R).
  { intros a b u w Ha Hb N. apply (amount_none (inw s s)); [|exact N]. eapply Forall_impl; [|apply (Wn a b Ha Hb)]. intros []; auto. }
  destruct (rank_stitch_sum W R C s HW HR HC Hs HsL K m m1 m2 F E X) as [_ S].
  assert (S' := S c (fun q X Y => amount c X Y (flat_map (f g) (ps q)))). cbv zeta in S'. rewrite S'; auto; clear S S'.
  - rewrite amount_everyone by nia. apply sum2_ext. intros a b Ha Hb. destruct (lost _ _ _ _) eqn:L; [|reflexivity]. rewrite Am. symmetry.
    set (u := i * s + x - a * s) in *. set (w := (p * C + k) * s + y - b * s) in *.
    assert (Iw : inw s s u w \/ ~ inw s s u w) by (unfold inw; lia). destruct Iw as [Iw|Iw]; [|now apply Out].
    destruct D as [D|[D|D]]; [exfalso; assert (i = 0) by lia; assert (a = 0) by lia; subst; unfold u, lost, corner in L; lia| |].
    { exfalso. assert (Eb : b = p * C + k) by nia. unfold w in L. rewrite Eb in L. unfold lost, corner in L. lia. }
    apply (amount_none (fun u w => anti s u w = false /\ (u < 0 -> w < 0 -> ~ (b mod C = 0 /\ 0 < b)) /\ (s <= u -> s <= w -> ~ (b mod C = C - 1 /\ b < W * C - 1)))).
    + eapply Forall_impl; [|apply (D a b Ha Hb)]. intros []; auto.
    + intros (N1 & N2 & N3). unfold lost in L. rewrite N1, orb_false_r in L. unfold corner, anti in *. unfold inw in Iw.
      assert (Nb : b / C <> p) by lia. assert (Q := Z.div_mod b C ltac:(lia)). assert (Qm := Z.mod_pos_bound b C ltac:(lia)).
      set (q := b / C) in *. set (t := b mod C) in *. clearbody q t.
      assert (T : (u < 0 /\ w < 0) \/ (s <= u /\ s <= w)) by lia. destruct T as [[T1 T2]|[T1 T2]].
      * apply N2; auto. assert (Eb : b = p * C + k + 1) by (unfold w in T2, Iw; clear - T2 Iw Hy Hs; nia). clear - Eb Q Qm Nb Hk HC Hp. nia.
      * apply N3; auto. assert (Eb : b = p * C + k - 1) by (unfold w in T2, Iw; clear - T2 Iw Hy Hs; nia). clear - Eb Q Qm Nb Hk HC Hp. nia.
  - intros p' a b u w Hp' Ha Hb Iw. rewrite V by assumption. rewrite Am. f_equal; lia.
  - intros a b u w Ha Hb Iw. rewrite Am. replace (a * s + u - a * s) with u by lia. replace (b * s + w - b * s) with w by lia. now apply Out.
Qed.

Hypothesis Gr : g_nr g = R * s.
Hypothesis Gz : g_nz g = W * C * s.
Hypothesis GzL : g_nz g < 2 ^ 32.
Hypothesis G0 : g_d1 g = 0.
(** the deposits of the domains of rank [p] *)
Lemma rank_zigzag p (ps : doms (list mover)) (j : doms (grid3 Rdefinitions.R)) : 0 <= p < W -> all_fit R C s j ->
  (forall i k, 0 <= i < R -> 0 <= k < C -> Forall (lands_from_near (dom i (p * C + k))) (ps (i, k))) ->
  exists m m1, pass3 Rplus R C m = Ok m1 /\ rank_deposit zigzag_distribution g W (W * C) R s p ps j = Ok m1 /\ all_fit R C s m /\ all_fit R C s m1 /\
    forall i k c x y, 0 <= i < R -> 0 <= k < C -> inw s s x y -> lv (getc c (m (i, k))) x y = amount c x y (flat_map (zigzag (dom i (p * C + k))) (ps (i, k))).
Proof using HW HR HC Hs HsL Gz GzL G0.
  intros Hp Fj L. destruct (rank_geo_eq g W R C s HW HC Hs Gz GzL G0 p Hp) as (gr & Eg & Dg).
  unfold rank_deposit. rewrite Eg. cbn [bind]. unfold smb_current.
  destruct (each_dom_spec R C (fun q x => do a <- zero3 x; zigzag_distribution (dom_geo gr R C s q) (ps q) a) j
     (fun q x => fits3 s s x /\ forall c u w, inw s s u w -> lv (getc c x) u w = amount c u w (flat_map (zigzag (dom (fst q) (p * C + snd q))) (ps q)))) as (j1 & E1 & P1); [lia|lia| |].
  { intros i k Hi Hk. rewrite Dg by auto.
    destruct (zero_zigzag (dom i (p * C + k)) (ps (i, k)) (j (i, k)) (Fj i k Hi Hk) (L i k Hi Hk)) as (x & Ex & Fx & Vx).
    exists x. split; [exact Ex|]. split; [exact Fx|exact Vx]. }
  rewrite E1. cbn [bind].
  assert (Fj1 : all_fit R C s j1) by (intros i k Hi Hk; apply (P1 i k Hi Hk)).
  destruct (stitch_sum R C s HR HC Hs HsL j1 Fj1) as (j' & E' & F' & _).
  exists j1, j'. split; [exact E'|]. split; [exact E'|]. split; [exact Fj1|]. split; [exact F'|].
  intros i k c x y Hi Hk Iw. destruct (P1 i k Hi Hk) as [_ V]. now apply V.
Qed.
Lemma near_glob_rank i k p : 0 <= i < R -> 0 <= k < W * C -> lands_from_near (dom i k) p -> lands_from_near g p.
Proof using HW HR HC Hs Gr Gz. intros Hi Hk. apply (near_glob g R (W * C) s HR ltac:(nia) Hs Gr Gz i k p Hi Hk). Qed.

Lemma mpi_zigzag ps all K j j' J : rank_fit W R C s j -> fits3 (R * s) (W * C * s) J -> Permutation all (everyone R (W * C) (joined C ps)) ->
  (forall p i k, 0 <= p < W -> 0 <= i < R -> 0 <= k < C -> Forall (lands_from_near (dom_geo g R (W * C) s (i, p * C + k))) (ps p (i, k))) ->
  (R = 1 \/ W * C = 1 \/ forall p i k, 0 <= p < W -> 0 <= i < R -> 0 <= k < C -> Forall (off_corners W C (p * C + k) (dom_geo g R (W * C) s (i, p * C + k))) (ps p (i, k))) ->
  mpi_current zigzag_distribution g W (W * C) R s K ps j j' ->
  exists J', one_current zigzag_distribution g all J = Ok J' /\ rank_current W R C s j' J'.
Proof using HW HR HC Hs HsL Gr Gz GzL G0.
  intros Fj FJ P L D (jp & Dp & X).
  assert (DW : W * C / W = C) by (rewrite (Z.mul_comm W C); now rewrite Z.div_mul by lia). rewrite DW in X.
  assert (Lj : forall i k, 0 <= i < R -> 0 <= k < W * C -> Forall (lands_from_near (dom i k)) (joined C ps (i, k))).
  { intros i k Hi Hk. destruct (split_col W C HC k Hk) as (p & t & -> & Hp & Ht). rewrite (joined_at C HC) by auto. now apply L. }
  assert (Lg : Forall (lands_from_near g) all).
  { apply Forall_forall. intros p Hp. apply (Permutation_in _ P), In_everyone in Hp as (i & k & Hi & Hk & Hp).
    apply (near_glob_rank i k); auto. specialize (Lj i k Hi Hk). rewrite Forall_forall in Lj. now apply Lj. }
  destruct (zero_zigzag g all J) as (J' & EJ & FJ' & VJ); [now rewrite Gr, Gz|exact Lg|]. rewrite Gr, Gz in FJ', VJ.
  exists J'. split; [exact EJ|].
  assert (Ex : forall p, 0 <= p < W -> exists m, pass3 Rplus R C m = Ok (jp p) /\ all_fit R C s m /\ all_fit R C s (jp p) /\
    forall i k c x y, 0 <= i < R -> 0 <= k < C -> inw s s x y -> lv (getc c (m (i, k))) x y = amount c x y (flat_map (zigzag (dom i (p * C + k))) (ps p (i, k)))).
  { intros p Hp. destruct (rank_zigzag p (ps p) (j p) Hp (Fj p Hp) (fun i k => L p i k Hp)) as (m & m1 & E1 & E2 & F1 & F2 & V).
    rewrite (Dp p Hp) in E2. injection E2 as ->. exists m. auto. }
  destruct (choose_fun W _ HW Ex) as (m & Pm).
  assert (Fm : rank_fit W R C s m) by (intros p Hp; now apply Pm).
  destruct (rank_stitch_sum W R C s HW HR HC Hs HsL K m jp j' Fm (fun p Hp => proj1 (Pm p Hp)) X) as [Fj' _].
  split; [exact FJ'|]. split; [exact Fj'|]. intros p i k c x y Hp Hi Hk Hx Hy.
  rewrite (rank_stitched_amount zigzag (joined C ps) K m jp j' c) by
   (auto; try (intros; apply zigzag_shift); try (intros; now apply Pm);
    try (intros a b Ha Hb; apply Forall_fm; intros q Hq; apply (zigzag_win (dom a b)); specialize (Lj a b Ha Hb); rewrite Forall_forall in Lj; now apply Lj);
    try (destruct D as [D|[D|D]]; [now left|right; now left|right; right]; intros a b Ha Hb; apply Forall_fm; intros q Hq;
         specialize (Lj a b Ha Hb); rewrite Forall_forall in Lj; apply (zigzag_kept W C b (dom a b)); auto; destruct (split_col W C HC b Hb) as (p' & t & -> & Hp' & Ht);
         rewrite (joined_at C HC) in Hq by auto; specialize (D p' a t Hp' Ha Ht); rewrite Forall_forall in D; now apply D);
    intros p' a b u w Hp' Ha Hb Iw; rewrite (joined_at C HC) by auto; now apply (Pm p' Hp')).
  rewrite VJ.
  - apply amount_perm. apply Permutation_flat_map. now symmetry.
  - assert (0 <= p * C + k < W * C) by nia. set (n := p * C + k) in *. clearbody n. unfold inw. nia.
Qed.
Lemma mpi_zigzag_exists ps K j : (Z.to_nat R <= K)%nat -> rank_fit W R C s j ->
  (forall p i k, 0 <= p < W -> 0 <= i < R -> 0 <= k < C -> Forall (lands_from_near (dom_geo g R (W * C) s (i, p * C + k))) (ps p (i, k))) ->
  exists j', mpi_current zigzag_distribution g W (W * C) R s K ps j j'.
Proof using HW HR HC Hs HsL Gr Gz GzL G0.
  intros HK Fj L.
  assert (DW : W * C / W = C) by (rewrite (Z.mul_comm W C); now rewrite Z.div_mul by lia).
  assert (Ex : forall p, 0 <= p < W -> exists m1, rank_deposit zigzag_distribution g W (W * C) R s p (ps p) (j p) = Ok m1 /\ all_fit R C s m1).
  { intros p Hp. destruct (rank_zigzag p (ps p) (j p) Hp (Fj p Hp) (fun i k => L p i k Hp)) as (m & m1 & _ & E2 & _ & F2 & _). eauto. }
  destruct (choose_fun W _ HW Ex) as (jp & Pj).
  destruct (C13_takes_place Rdefinitions.R Rplus 0%R K W R C (s + 4) (s + 4) jp) as (j' & X); try lia.
  { apply ready_fit. intros p Hp. now apply Pj. }
  exists j', jp. split; [intros p Hp; now apply Pj|]. now rewrite DW.
Qed.
End Deposits.
