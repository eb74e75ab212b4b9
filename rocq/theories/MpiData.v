(** Lemmas about packing, unpacking and the whole exchange. *)
From Verif Require Import Base GridModel GridProofs OverlayModel MpiModel MpiNet.
From Coq Require Import ZifyBool.

(** three nested loops *)
Lemma nested3 {S} (P : Z -> Z -> Z -> S -> Prop) lo hi C K body (s : S) :
  lo <= hi -> 0 <= C -> 0 <= K ->
  P lo 0 0 s ->
  (forall j c k t, lo <= j < hi -> 0 <= c < C -> 0 <= k < K -> P j c k t -> exists t', body j c k t = Ok t' /\ P j c (k + 1) t') ->
  (forall j c t, lo <= j < hi -> 0 <= c < C -> P j c K t -> P j (c + 1) 0 t) ->
  (forall j t, lo <= j < hi -> P j C 0 t -> P (j + 1) 0 0 t) ->
  exists s', for_to lo hi (fun j => for_to 0 C (fun c => for_to 0 K (fun k => body j c k))) s = Ok s' /\ P hi 0 0 s'.
Proof.
  intros Hl HC HK H0 Hb Hc Hj.
  apply (for_inv (fun j t => P j 0 0 t)); auto.
  intros j t Hjr Ht.
  destruct (for_inv (fun c t => P j c 0 t) 0 C (fun c => for_to 0 K (fun k => body j c k)) t) as (t' & E & Ht'); auto.
  - intros c u Hcr Hu.
    destruct (for_inv (fun k t => P j c k t) 0 K (fun k => body j c k) u) as (u' & E & Hu'); auto.
    exists u'. split; auto.
  - exists t'. split; auto.
Qed.

Section Data.
Context {T : Type}.
Variable add : T -> T -> T.
Variable zero : T.

(** component [k] *)
Definition compk (g : grid3 T) (k : Z) : grid T := if k =? 0 then c_r g else if k =? 1 then c_phi g else c_z g.

(** a three-component grid of a domain: three well-formed grids of the same shape *)
Definition wf3 (g : grid3 T) : Prop :=
  wf (c_r g) /\ same_shape (c_r g) (c_phi g) /\ same_shape (c_r g) (c_z g).

Lemma component_compk g k : 0 <= k < 3 -> component g k = Ok (compk g k).
Proof.
  intros Hk. unfold component, compk. destruct (k =? 0) eqn:E0, (k =? 1) eqn:E1, (k =? 2) eqn:E2; try reflexivity; lia.
Qed.
Lemma compk_shape g k : wf3 g -> same_shape (c_r g) (compk g k) /\ wf (compk g k).
Proof.
  intros (W & S1 & S2). unfold compk. destruct (k =? 0); [split; auto; apply same_shape_refl|].
  destruct (k =? 1); split; auto; eapply same_shape_wf; eauto.
Qed.
Lemma compk_put g k x k' : 0 <= k < 3 -> 0 <= k' < 3 -> compk (put_comp g k x) k' = if k' =? k then x else compk g k'.
Proof.
  intros Hk Hk'. assert (k = 0 \/ k = 1 \/ k = 2) as [-> | [-> | ->]] by lia;
  assert (k' = 0 \/ k' = 1 \/ k' = 2) as [-> | [-> | ->]] by lia; reflexivity.
Qed.

Lemma get_raw (g : grid T) x y : wf g -> 0 <= x + os g < xr g -> 0 <= y + os g < yr g ->
  get g x y = Ok (cell g (x + os g) (y + os g)).
Proof.
  intros W Hx Hy. destruct W as (_ & _ & _ & _ & _ & W1 & W2). unfold get. rewrite !u32_small by lia. now apply rd_in.
Qed.
Lemma op_raw (g : grid T) x y v : wf g -> 0 <= x + os g < xr g -> 0 <= y + os g < yr g ->
  op_assign add g x y v =
    Ok (setc g (upd (cell g) (x + os g) (y + os g) (add (cell g (x + os g) (y + os g)) v))).
Proof.
  intros W Hx Hy. destruct W as (_ & _ & _ & _ & _ & W1 & W2). unfold op_assign. rewrite !u32_small by lia.
  rewrite rd_in by lia. cbn [bind]. now apply wr_in.
Qed.

Definition before (j c k j' c' k' : Z) : bool := (j' <? j) || ((j' =? j) && ((c' <? c) || ((c' =? c) && (k' <? k)))).

Lemma pack_plus_spec g i : wf3 g -> 4 <= yr (c_r g) ->
  exists m, pack_plus zero g i = Ok m /\ mlen m = xr (c_r g) /\ mdst m = i /\
    forall j c k, 0 <= j < xr (c_r g) -> 0 <= c < 4 -> 0 <= k < 3 ->
      mcol m c k j = cell (compk g k) j (yr (c_r g) - 4 + c).
Proof.
  intros W Hy. unfold pack_plus.
  pose proof (proj1 W) as Wr. destruct Wr as (W1 & W2 & W3 & W4 & W5 & W6 & W7).
  destruct (nested3 (fun j c k m => mlen m = xr (c_r g) /\ mdst m = i /\
      forall j' c' k', 0 <= j' < xr (c_r g) -> 0 <= c' < 4 -> 0 <= k' < 3 -> before j c k j' c' k' = true ->
        mcol m c' k' j' = cell (compk g k') j' (yr (c_r g) - 4 + c'))
    0 (xr (c_r g)) 4 3
    (fun j c k m => do gk <- component g k;
      do v <- get gk (j - os (c_r g)) (ys (c_r g) + os (c_r g) - (4 - c)); put m c k j v)
    (new_msg zero (xr (c_r g)) i)) as (m & E & M1 & M2 & M3); try lia.
  - cbn [mlen mdst new_msg]. repeat split; auto. unfold before. intros; lia.
  - intros j c k m Hj Hc Hk (M1 & M2 & M3). rewrite component_compk by lia. cbn [bind].
    destruct (compk_shape g k W) as [(S1 & S2 & S3 & S4 & S5) Wk].
    rewrite get_raw by (auto; lia). cbn [bind]. unfold put.
    replace ((0 <=? j) && (j <? mlen m)) with true by lia.
    eexists. split; [reflexivity|]. cbn [mlen mdst mcol]. repeat split; auto.
    intros j' c' k' Hj' Hc' Hk' Hb.
    destruct ((c' =? c) && (k' =? k) && (j' =? j)) eqn:E.
    + assert (c' = c /\ k' = k /\ j' = j) as (-> & -> & ->) by lia. f_equal; lia.
    + apply M3; auto. unfold before in *. lia.
  - intros j c m Hj Hc (M1 & M2 & M3). repeat split; auto. intros j' c' k' Hj' Hc' Hk' Hb. apply M3; auto. unfold before in *. lia.
  - intros j m Hj (M1 & M2 & M3). repeat split; auto. intros j' c' k' Hj' Hc' Hk' Hb. apply M3; auto. unfold before in *. lia.
  - exists m. split; [exact E|]. split; [exact M1|]. split; [exact M2|].
    intros j c k Hj Hc Hk. apply M3; auto. unfold before. lia.
Qed.

Lemma pack_minus_spec g i : wf3 g -> 4 <= yr (c_r g) ->
  exists m, pack_minus zero g i = Ok m /\ mlen m = xr (c_r g) /\ mdst m = i /\
    forall j c k, 0 <= j < xr (c_r g) -> 0 <= c < 4 -> 0 <= k < 3 ->
      mcol m c k j = cell (compk g k) j c.
Proof.
  intros W Hy. unfold pack_minus.
  pose proof (proj1 W) as Wr. destruct Wr as (W1 & W2 & W3 & W4 & W5 & W6 & W7).
  destruct (nested3 (fun j c k m => mlen m = xr (c_r g) /\ mdst m = i /\
      forall j' c' k', 0 <= j' < xr (c_r g) -> 0 <= c' < 4 -> 0 <= k' < 3 -> before (j + os (c_r g)) c k j' c' k' = true ->
        mcol m c' k' j' = cell (compk g k') j' c')
    (- os (c_r g)) (xs (c_r g) + os (c_r g)) 4 3
    (fun j c k m => do gk <- component g k;
      do v <- get gk j (c - os (c_r g)); put m c k (j + os (c_r g)) v)
    (new_msg zero (xs (c_r g) + 2 * os (c_r g)) i)) as (m & E & M1 & M2 & M3); try lia.
  - cbn [mlen mdst new_msg]. repeat split; auto. unfold before. intros; lia.
  - intros j c k m Hj Hc Hk (M1 & M2 & M3). rewrite component_compk by lia. cbn [bind].
    destruct (compk_shape g k W) as [(S1 & S2 & S3 & S4 & S5) Wk].
    rewrite get_raw by (auto; lia). cbn [bind]. unfold put.
    replace ((0 <=? j + os (c_r g)) && (j + os (c_r g) <? mlen m)) with true by lia.
    eexists. split; [reflexivity|]. cbn [mlen mdst mcol]. repeat split; auto.
    intros j' c' k' Hj' Hc' Hk' Hb.
    destruct ((c' =? c) && (k' =? k) && (j' =? j + os (c_r g))) eqn:E.
    + assert (c' = c /\ k' = k /\ j' = j + os (c_r g)) as (-> & -> & ->) by lia. f_equal; lia.
    + apply M3; auto. unfold before in *. lia.
  - intros j c m Hj Hc (M1 & M2 & M3). repeat split; auto. intros j' c' k' Hj' Hc' Hk' Hb. apply M3; auto. unfold before in *. lia.
  - intros j m Hj (M1 & M2 & M3). repeat split; auto. intros j' c' k' Hj' Hc' Hk' Hb. apply M3; auto. unfold before in *. lia.
  - exists m. split; [exact E|]. split; [exact M1|]. split; [exact M2|].
    intros j c k Hj Hc Hk. apply M3; auto. unfold before. lia.
Qed.

(** same shape in all components *)
Definition shape3 (g h : grid3 T) : Prop := forall k, 0 <= k < 3 -> same_shape (compk g k) (compk h k).
Lemma shape3_refl g : shape3 g g.
Proof. intros k _. apply same_shape_refl. Qed.
Lemma shape3_wf g h : shape3 g h -> wf3 g -> wf3 h.
Proof.
  intros S (W & W1 & W2). pose proof (S 0 ltac:(lia)) as S0. pose proof (S 1 ltac:(lia)) as S1. pose proof (S 2 ltac:(lia)) as S2.
  unfold compk in *. cbn in S0, S1, S2.
  split; [eapply same_shape_wf; eauto|]. unfold same_shape in *.
  split; intuition congruence.
Qed.

Lemma unpack_minus_spec m g : wf3 g -> 4 <= yr (c_r g) -> mlen m = xr (c_r g) ->
  exists h, unpack_minus add m g = Ok h /\ shape3 g h /\
    forall k a b, 0 <= k < 3 -> cell (compk h k) a b =
      if (0 <=? a) && (a <? xr (c_r g)) && (0 <=? b) && (b <? 4)
      then add (cell (compk g k) a b) (mcol m b k a) else cell (compk g k) a b.
Proof.
  intros W Hy Hm. unfold unpack_minus.
  pose proof (proj1 W) as Wr. destruct Wr as (W1 & W2 & W3 & W4 & W5 & W6 & W7).
  destruct (nested3 (fun j c k h => shape3 g h /\
      forall k' a b, 0 <= k' < 3 -> cell (compk h k') a b =
        if (0 <=? a) && (a <? xr (c_r g)) && (0 <=? b) && (b <? 4) && before (j + os (c_r g)) c k a b k'
        then add (cell (compk g k') a b) (mcol m b k' a) else cell (compk g k') a b)
    (- os (c_r g)) (xs (c_r g) + os (c_r g)) 4 3
    (fun j c k h => do v <- take m c k (j + os (c_r g));
      do hk <- component h k; do hk' <- op_assign add hk j (c - os (c_r g)) v; Ok (put_comp h k hk')) g)
    as (h & E & H1 & H2); try lia.
  - split; [apply shape3_refl|]. intros k' a b Hk'.
    match goal with |- _ = if ?c then _ else _ => destruct c eqn:E end; auto. unfold before in E. lia.
  - intros j c k h Hj Hc Hk (S & Hcells). unfold take.
    replace ((0 <=? j + os (c_r g)) && (j + os (c_r g) <? mlen m)) with true by lia. cbn [bind].
    rewrite component_compk by lia. cbn [bind].
    destruct (compk_shape g k W) as [Sk _]. pose proof (S k Hk) as Shk.
    pose proof (compk_shape h k (shape3_wf _ _ S W)) as [_ Whk].
    pose proof (same_shape_trans _ _ _ Sk Shk) as (T1 & T2 & T3 & T4 & T5).
    rewrite op_raw by (auto; lia). cbn [bind]. eexists. split; [reflexivity|]. split.
    + intros k' Hk'. rewrite compk_put by lia. destruct (k' =? k) eqn:E; [|now apply S].
      assert (k' = k) by lia; subst k'. eapply same_shape_trans; [exact Shk|]. repeat split.
    + intros k' a b Hk'. rewrite compk_put by lia. destruct (k' =? k) eqn:E.
      * assert (k' = k) by lia; subst k'. unfold setc; cbn [cell]. unfold upd.
        destruct ((a =? j + os (compk h k)) && (b =? c - os (c_r g) + os (compk h k))) eqn:E2.
        -- assert (a = j + os (c_r g) /\ b = c) as [-> ->] by lia.
           replace (j + os (compk h k)) with (j + os (c_r g)) by lia.
           replace (c - os (c_r g) + os (compk h k)) with c by lia.
           rewrite Hcells by lia.
           match goal with |- add (if ?x then _ else _) _ = if ?y then _ else _ => destruct x eqn:Ex, y eqn:Ey end;
             unfold before in *; try lia. reflexivity.
        -- rewrite Hcells by lia.
           match goal with |- (if ?x then _ else _) = if ?y then _ else _ => destruct x eqn:Ex, y eqn:Ey end;
             unfold before in *; try reflexivity; lia.
      * rewrite Hcells by lia.
        match goal with |- (if ?x then _ else _) = if ?y then _ else _ => destruct x eqn:Ex, y eqn:Ey end;
             unfold before in *; try reflexivity; lia.
  - intros j c h Hj Hc (S & Hcells). split; auto. intros k' a b Hk'. rewrite Hcells by auto.
    match goal with |- (if ?x then _ else _) = if ?y then _ else _ => destruct x eqn:Ex, y eqn:Ey end;
             unfold before in *; try reflexivity; lia.
  - intros j h Hj (S & Hcells). split; auto. intros k' a b Hk'. rewrite Hcells by auto.
    match goal with |- (if ?x then _ else _) = if ?y then _ else _ => destruct x eqn:Ex, y eqn:Ey end;
             unfold before in *; try reflexivity; lia.
  - exists h. split; [exact E|]. split; [exact H1|]. intros k a b Hk. rewrite H2 by auto.
    match goal with |- (if ?x then _ else _) = if ?y then _ else _ => destruct x eqn:Ex, y eqn:Ey end;
             unfold before in *; try reflexivity; lia.
Qed.

Lemma unpack_plus_spec m g : wf3 g -> 4 <= yr (c_r g) -> mlen m = xr (c_r g) ->
  exists h, unpack_plus add m g = Ok h /\ shape3 g h /\
    forall k a b, 0 <= k < 3 -> cell (compk h k) a b =
      if (0 <=? a) && (a <? xr (c_r g)) && (yr (c_r g) - 4 <=? b) && (b <? yr (c_r g))
      then add (cell (compk g k) a b) (mcol m (b - (yr (c_r g) - 4)) k a) else cell (compk g k) a b.
Proof.
  intros W Hy Hm. unfold unpack_plus.
  pose proof (proj1 W) as Wr. destruct Wr as (W1 & W2 & W3 & W4 & W5 & W6 & W7).
  destruct (nested3 (fun j c k h => shape3 g h /\
      forall k' a b, 0 <= k' < 3 -> cell (compk h k') a b =
        if (0 <=? a) && (a <? xr (c_r g)) && (yr (c_r g) - 4 <=? b) && (b <? yr (c_r g)) &&
           before (j + os (c_r g)) c k a (yr (c_r g) - 1 - b) k'
        then add (cell (compk g k') a b) (mcol m (b - (yr (c_r g) - 4)) k' a) else cell (compk g k') a b)
    (- os (c_r g)) (xs (c_r g) + os (c_r g)) 4 3
    (fun j c' k h => do v <- take m (3 - c') k (j + os (c_r g));
      do hk <- component h k; do hk' <- op_assign add hk j (ys (c_r g) + os (c_r g) - (1 + c')) v; Ok (put_comp h k hk')) g)
    as (h & E & H1 & H2); try lia.
  - split; [apply shape3_refl|]. intros k' a b Hk'.
    match goal with |- _ = if ?c then _ else _ => destruct c eqn:E end; auto. unfold before in E. lia.
  - intros j c k h Hj Hc Hk (S & Hcells). unfold take.
    replace ((0 <=? j + os (c_r g)) && (j + os (c_r g) <? mlen m)) with true by lia. cbn [bind].
    rewrite component_compk by lia. cbn [bind].
    destruct (compk_shape g k W) as [Sk _]. pose proof (S k Hk) as Shk.
    pose proof (compk_shape h k (shape3_wf _ _ S W)) as [_ Whk].
    pose proof (same_shape_trans _ _ _ Sk Shk) as (T1 & T2 & T3 & T4 & T5).
    rewrite op_raw by (auto; lia). cbn [bind]. eexists. split; [reflexivity|]. split.
    + intros k' Hk'. rewrite compk_put by lia. destruct (k' =? k) eqn:E; [|now apply S].
      assert (k' = k) by lia; subst k'. eapply same_shape_trans; [exact Shk|]. repeat split.
    + intros k' a b Hk'. rewrite compk_put by lia. destruct (k' =? k) eqn:E.
      * assert (k' = k) by lia; subst k'. unfold setc; cbn [cell]. unfold upd.
        destruct ((a =? j + os (compk h k)) && (b =? ys (c_r g) + os (c_r g) - (1 + c) + os (compk h k))) eqn:E2.
        -- assert (a = j + os (c_r g) /\ b = yr (c_r g) - 1 - c) as [-> ->] by lia.
           replace (j + os (compk h k)) with (j + os (c_r g)) by lia.
           replace (ys (c_r g) + os (c_r g) - (1 + c) + os (compk h k)) with (yr (c_r g) - 1 - c) by lia.
           rewrite Hcells by lia.
           match goal with |- add (if ?x then _ else _) _ = if ?y then _ else _ => destruct x eqn:Ex, y eqn:Ey end;
             unfold before in *; try lia. f_equal. f_equal; lia.
        -- rewrite Hcells by lia.
           match goal with |- (if ?x then _ else _) = if ?y then _ else _ => destruct x eqn:Ex, y eqn:Ey end;
             unfold before in *; try reflexivity; lia.
      * rewrite Hcells by lia.
        match goal with |- (if ?x then _ else _) = if ?y then _ else _ => destruct x eqn:Ex, y eqn:Ey end;
             unfold before in *; try reflexivity; lia.
  - intros j c h Hj Hc (S & Hcells). split; auto. intros k' a b Hk'. rewrite Hcells by auto.
    match goal with |- (if ?x then _ else _) = if ?y then _ else _ => destruct x eqn:Ex, y eqn:Ey end;
             unfold before in *; try reflexivity; lia.
  - intros j h Hj (S & Hcells). split; auto. intros k' a b Hk'. rewrite Hcells by auto.
    match goal with |- (if ?x then _ else _) = if ?y then _ else _ => destruct x eqn:Ex, y eqn:Ey end;
             unfold before in *; try reflexivity; lia.
  - exists h. split; [exact E|]. split; [exact H1|]. intros k a b Hk. rewrite H2 by auto.
    match goal with |- (if ?x then _ else _) = if ?y then _ else _ => destruct x eqn:Ex, y eqn:Ey end;
             unfold before in *; try reflexivity; lia.
Qed.
End Data.
