(** The iterations of one colour of the stitching pass, executed concurrently. *)
From Verif Require Import Base ListUtil GridModel GridProofs CollectorModel CollectorProofs OverlayModel Interleave.
From Coq Require Import ZifyBool.

Lemma peq_true p q : peq p q = true <-> p = q.
Proof. destruct p, q; unfold peq; cbn [fst snd]. split; [intros; f_equal; lia|intros [= -> ->]; lia]. Qed.
Lemma peq_false p q : peq p q = false <-> p <> q.
Proof. rewrite <- peq_true. destruct (peq p q); intuition congruence. Qed.
Lemma updp_eq {S} (m : doms S) p s : updp m p s p = s.
Proof. unfold updp. now rewrite (proj2 (peq_true p p) eq_refl). Qed.
Lemma updp_ne {S} (m : doms S) p s q : q <> p -> updp m p s q = m q.
Proof. intros H. unfold updp. now rewrite (proj2 (peq_false q p) H). Qed.

Definition area2 (R C : Z) : area := {| nr := 0; nz := 0; rd_ := R; zd_ := C |}.

(** the domains an iteration may touch *)
Definition foot (ij q : Z * Z) : bool :=
  ((fst q =? fst ij) || (fst q =? fst ij + 1)) && ((snd q =? snd ij) || (snd q =? snd ij + 1)).

Section Local.
Context {S : Type}.
Lemma pairop_local (D : Z * Z -> bool) f p q : D p = true -> D q = true -> local (S := S) D (pairop f p q).
Proof.
  intros Hp Hq m m' A. unfold pairop. rewrite (A p Hp), (A q Hq).
  destruct (f (m' p, m' q)) as [[a b]| |]; cbn [bind]; auto. split; [|split].
  - intros r Hr. unfold updp. destruct (peq r q); [reflexivity|]. destruct (peq r p); [reflexivity|]. now apply A.
  - intros r Hr. rewrite !updp_ne; [reflexivity| |]; intros ->; congruence.
  - intros r Hr. rewrite !updp_ne; [reflexivity| |]; intros ->; congruence.
Qed.

Definition oeq (x y : outcome (doms S)) : Prop :=
  match x, y with
  | Ok m, Ok n => forall p, m p = n p
  | Fatal, Fatal => True | UB, UB => True | _, _ => False
  end.
Lemma oeq_refl x : oeq x x.
Proof. now destruct x. Qed.
Lemma oeq_trans x y z : oeq x y -> oeq y z -> oeq x z.
Proof. destruct x, y, z; cbn; try tauto. intros H1 H2 p. now rewrite H1. Qed.
Lemma oeq_sym x y : oeq x y -> oeq y x.
Proof. destruct x, y; cbn; auto. Qed.

Fixpoint runp (l : list (S * S -> outcome (S * S))) (s : S * S) : outcome (S * S) :=
  match l with [] => Ok s | f :: l' => do s' <- f s; runp l' s' end.
Lemma runp_app l1 : forall l2 s, runp (l1 ++ l2) s = do s' <- runp l1 s; runp l2 s'.
Proof.
  induction l1 as [|a l1 IH]; intros l2 m; cbn [app runp bind]; [reflexivity|].
  destruct (a m); cbn [bind]; auto.
Qed.

Lemma run_ext (l : list (doms S -> outcome (doms S))) : (forall a, In a l -> local (fun _ => true) a) ->
  forall m m', (forall p, m p = m' p) -> oeq (run l m) (run l m').
Proof.
  intros Hl m m' E. pose proof (run_local (fun _ => true) l) as L.
  specialize (L ltac:(now apply Forall_forall) m m' ltac:(intros p _; apply E)).
  destruct (run l m), (run l m'); cbn; auto. intros p. now apply L.
Qed.

Lemma run_pairops p q l : p <> q -> forall m,
  oeq (run (map (fun f => pairop f p q) l) m) (do (a, b) <- runp l (m p, m q); Ok (updp (updp m p a) q b)).
Proof.
  intros Hpq. induction l as [|f l IH]; intros m; cbn [map run runp bind].
  - intros r. unfold updp. destruct (peq r q) eqn:E; [apply peq_true in E; now subst|].
    destruct (peq r p) eqn:E2; [apply peq_true in E2; now subst|reflexivity].
  - unfold pairop at 1. destruct (f (m p, m q)) as [[a b]| |]; cbn [bind]; try exact I.
    eapply oeq_trans; [apply IH|]. rewrite updp_eq, updp_ne, updp_eq by congruence.
    destruct (runp l (a, b)) as [[a' b']| |]; cbn; auto. intros r. unfold updp.
    destruct (peq r q); [reflexivity|]. now destruct (peq r p).
Qed.
End Local.

(** ** an overlay call is the sequence of its statements *)
Section Acts.
Context {T : Type}.
Variable add : T -> T -> T.
Local Notation gact := (grid T * grid T -> outcome (grid T * grid T)).

Lemma loop_acts n : forall i (st : Z -> list (gact)) s,
  runp (flat_map st (zseq n i)) s = loop n i (fun k => runp (st k)) s.
Proof.
  induction n as [|n IH]; intros i st s; cbn [zseq flat_map loop]; [reflexivity|].
  rewrite runp_app. destruct (runp (st i) s); cbn [bind]; auto.
Qed.
Lemma loop_ext {S} n : forall i (f g : Z -> S -> outcome S) s,
  (forall k t, f k t = g k t) -> loop n i f s = loop n i g s.
Proof.
  induction n as [|n IH]; intros i f g s H; cbn [loop]; [reflexivity|]. rewrite H.
  destruct (g i s); cbn [bind]; auto.
Qed.

Definition sh2 (s t : grid T * grid T) : Prop := same_shape (fst s) (fst t) /\ same_shape (snd s) (snd t).
Lemma sh2_refl s : sh2 s s.
Proof. split; apply same_shape_refl. Qed.
Lemma sh2_trans s t u : sh2 s t -> sh2 t u -> sh2 s u.
Proof. intros [] []; split; eapply same_shape_trans; eauto. Qed.

Lemma wr_shape (g : grid T) i j v g' : wr g i j v = Ok g' -> same_shape g g'.
Proof. intros H. apply wr_inv in H as (_ & _ & ->). repeat split. Qed.
Lemma acc_shape (g : grid T) i j v g' : acc add g i j v = Ok g' -> same_shape g g'.
Proof. unfold acc. destruct (rd g i j); cbn [bind]; try discriminate. apply wr_shape. Qed.

Definition keeps (f : gact) : Prop := forall s t, f s = Ok t -> sh2 s t.
Ltac kp := intros [a b] [a' b']; cbn [fst snd];
  repeat match goal with |- context [bind ?x _] => let E := fresh in destruct x eqn:E; cbn [bind]; try discriminate end;
  intros [= <- <-]; split; cbn [fst snd]; try apply same_shape_refl;
  first [eapply wr_shape; eassumption | eapply acc_shape; eassumption].
Lemma keeps_acc_rhs i1 j1 i2 j2 : keeps (st_acc_rhs add i1 j1 i2 j2). Proof. unfold st_acc_rhs. kp. Qed.
Lemma keeps_acc_this i1 j1 i2 j2 : keeps (st_acc_this add i1 j1 i2 j2). Proof. unfold st_acc_this. kp. Qed.
Lemma keeps_set_rhs i1 j1 i2 j2 : keeps (@st_set_rhs T i1 j1 i2 j2). Proof. unfold st_set_rhs. kp. Qed.
Lemma keeps_set_this i1 j1 i2 j2 : keeps (@st_set_this T i1 j1 i2 j2). Proof. unfold st_set_this. kp. Qed.

Lemma runp_keeps l : Forall keeps l -> forall s t, runp l s = Ok t -> sh2 s t.
Proof.
  induction 1 as [|f l Hf Hl IH]; intros s t; cbn [runp].
  - intros [= <-]. apply sh2_refl.
  - destruct (f s) as [s'| |] eqn:E; cbn [bind]; try discriminate. intros H. eapply sh2_trans; eauto.
Qed.
Lemma Forall_flat_map {A B} (P : B -> Prop) (f : A -> list B) l :
  (forall x, Forall P (f x)) -> Forall P (flat_map f l).
Proof. intros H. induction l; cbn [flat_map]; [constructor|]. apply Forall_app; auto. Qed.
Lemma acts_keep k a : Forall keeps (acts add k a).
Proof.
  destruct k; unfold acts; apply Forall_cons;
    try (intros s t; unfold check_x, check_y, check_xy; destruct (_ : bool); [intros [= <-]; apply sh2_refl|discriminate]);
    apply Forall_flat_map; intros d; apply Forall_flat_map; intros i;
    unfold stmts_x, stmts_y, stmts_xy; repeat (apply Forall_cons;
      [first [apply keeps_acc_rhs|apply keeps_acc_this|apply keeps_set_rhs|apply keeps_set_this]|]); apply Forall_nil.
Qed.

Lemma acts_shape k a a' : same_shape a a' -> acts add k a' = acts add k a.
Proof. intros (H1 & H2 & H3 & H4 & H5). unfold acts. now rewrite H1, H2, H5. Qed.

(** the statements of a loop body and the body of the model agree, for the sizes at the start of the call *)
Ltac bd := repeat match goal with
  |- context [bind ?x _] => lazymatch x with bind _ _ => fail | _ => let E := fresh "E" in destruct x eqn:E; cbn [bind fst snd]; try reflexivity end end.
Ltac body_tac s1 s2 :=
  intros Hs; destruct s1 as [a b], s2 as [p q]; destruct Hs as [(H1 & H2 & H3 & H4 & H5) _]; cbn [fst snd] in *;
  unfold overlay_x_body, overlay_y_body, overlay_xy_body, stmts_x, stmts_y, stmts_xy; cbn [runp]; rewrite <- ?H1, <- ?H2, <- ?H5;
  unfold st_acc_rhs, st_acc_this, st_set_rhs, st_set_this; cbn [bind fst snd]; bd.
Lemma body_y_acts (s s0 : grid T * grid T) d i : sh2 s0 s ->
  runp (stmts_y add (xr (fst s0)) (yr (fst s0)) (os (fst s0)) d i) s = overlay_y_body add d i s.
Proof. body_tac s0 s. Qed.
Lemma body_x_acts (s s0 : grid T * grid T) d i : sh2 s0 s ->
  runp (stmts_x add (xr (fst s0)) (yr (fst s0)) (os (fst s0)) d i) s = overlay_x_body add d i s.
Proof. body_tac s0 s. Qed.
Lemma body_xy_acts (s s0 : grid T * grid T) d i : sh2 s0 s ->
  runp (stmts_xy add (xr (fst s0)) (yr (fst s0)) (os (fst s0)) d i) s = overlay_xy_body add d i s.
Proof. body_tac s0 s. Qed.

(** loops of shape-preserving bodies *)
Lemma loop_shape n : forall i (f g : Z -> grid T * grid T -> outcome (grid T * grid T)) s0 s, sh2 s0 s ->
  (forall k t, sh2 s0 t -> f k t = g k t) -> (forall k t t', f k t = Ok t' -> sh2 t t') ->
  loop n i f s = loop n i g s /\ (forall t, loop n i f s = Ok t -> sh2 s t).
Proof.
  induction n as [|n IH]; intros i f g s0 s Hs H K; cbn [loop].
  - split; [reflexivity|]. intros t [= <-]. apply sh2_refl.
  - rewrite <- (H i s Hs). destruct (f i s) as [s'| |] eqn:E; cbn [bind]; try (split; [reflexivity|discriminate]).
    pose proof (K _ _ _ E) as K1.
    destruct (IH (i + 1) f g s0 s' (sh2_trans _ _ _ Hs K1) H K) as [E2 K2]. split; [exact E2|].
    intros t Ht. eapply sh2_trans; eauto.
Qed.

Lemma nest_acts (st : Z -> Z -> list (gact)) (body : Z -> Z -> grid T * grid T -> outcome (grid T * grid T)) s lo hi lo' hi' :
  (forall d i, Forall keeps (st d i)) ->
  (forall d i t, sh2 s t -> runp (st d i) t = body d i t) ->
  runp (flat_map (fun d => flat_map (st d) (zrange lo' hi')) (zrange lo hi)) s =
  for_to lo hi (fun d => for_to lo' hi' (body d)) s.
Proof.
  intros K H. unfold zrange. rewrite loop_acts. unfold for_to.
  set (n' := Z.to_nat (hi' - lo')).
  assert (KK : forall d t t', runp (flat_map (st d) (zseq n' lo')) t = Ok t' -> sh2 t t').
  { intros d t t'. apply runp_keeps. now apply Forall_flat_map. }
  refine (proj1 (loop_shape _ lo _ _ s s (sh2_refl s) _ KK)).
  intros d t Ht. rewrite loop_acts.
  refine (proj1 (loop_shape n' lo' _ _ s t Ht _ _)); [intros; now apply H|].
  intros k u u'. apply runp_keeps. apply K.
Qed.

Lemma stmts_keep X Y o d i :
  Forall keeps (stmts_x add X Y o d i) /\ Forall keeps (stmts_y add X Y o d i) /\ Forall keeps (stmts_xy add X Y o d i).
Proof.
  unfold stmts_x, stmts_y, stmts_xy; (split; [|split]); repeat (apply Forall_cons;
      [first [apply keeps_acc_rhs|apply keeps_acc_this|apply keeps_set_rhs|apply keeps_set_this]|]); apply Forall_nil.
Qed.

Definition opf1 (k : kind) := op_fun (overlay_x (T := T) add) (overlay_y add) (overlay_xy add) k.
Lemma acts_opf k a b : runp (acts add k a) (a, b) = opf1 k (a, b).
Proof.
  unfold opf1, op_fun, acts; destruct k; cbn [runp fst snd].
  - unfold check_x, overlay_x; cbn [fst snd]. destruct (yr a =? yr b); cbn [bind]; [|reflexivity].
    apply nest_acts; [intros; apply stmts_keep|]. intros d i t Ht. exact (body_x_acts t (a, b) d i Ht).
  - unfold check_y, overlay_y; cbn [fst snd]. destruct (xr a =? xr b); cbn [bind]; [|reflexivity].
    apply nest_acts; [intros; apply stmts_keep|]. intros d i t Ht. exact (body_y_acts t (a, b) d i Ht).
  - unfold check_xy, overlay_xy; cbn [fst snd]. destruct ((xr a =? xr b) && (yr a =? yr b)); cbn [bind]; [|reflexivity].
    apply nest_acts; [intros; apply stmts_keep|]. intros d i t Ht. exact (body_xy_acts t (a, b) d i Ht).
Qed.

(** three components *)
Definition sh3 (g h : grid3 T) : Prop := forall c, same_shape (getc c g) (getc c h).
Lemma sh3_refl g : sh3 g g. Proof. intros c; apply same_shape_refl. Qed.
Lemma sh3_trans g h k : sh3 g h -> sh3 h k -> sh3 g k.
Proof. intros H1 H2 c. eapply same_shape_trans; eauto. Qed.

Lemma putc_getc c (g : grid3 T) : putc c g (getc c g) = g. Proof. now destruct c, g. Qed.
Lemma putc_putc c (g : grid3 T) x y : putc c (putc c g x) y = putc c g y. Proof. now destruct c. Qed.
Lemma getc_putc c (g : grid3 T) x : getc c (putc c g x) = x. Proof. now destruct c. Qed.

Lemma runp_on_comp c (l : list gact) : forall g h : grid3 T,
  runp (map (on_comp c) l) (g, h) =
  do (a, b) <- runp l (getc c g, getc c h); Ok (putc c g a, putc c h b).
Proof.
  induction l as [|f l IH]; intros g h; cbn [map runp bind].
  - now rewrite !putc_getc.
  - unfold on_comp at 1; cbn [fst snd]. destruct (f (getc c g, getc c h)) as [[a b]| |]; cbn [bind]; try reflexivity.
    rewrite IH, !getc_putc. destruct (runp l (a, b)) as [[a' b']| |]; cbn [bind]; try reflexivity.
    now rewrite !putc_putc.
Qed.

Definition opf3 (k : kind) := op_fun (overlay_x3 (T := T) add) (overlay_y3 add) (overlay_xy3 add) k.
Lemma opf3_lift k g h : opf3 k (g, h) = lift3p (fun a b => opf1 k (a, b)) g h.
Proof. now destruct k. Qed.

Lemma acts3_opf k g h : runp (acts3 add k g) (g, h) = opf3 k (g, h).
Proof.
  rewrite opf3_lift. unfold acts3, lift3p. rewrite !runp_app, runp_on_comp. cbn [getc].
  rewrite acts_opf. destruct (opf1 k (c_r g, c_r h)) as [[a a']| |]; cbn [bind]; try reflexivity.
  rewrite runp_app, runp_on_comp. cbn [getc putc c_r c_phi c_z].
  rewrite acts_opf. destruct (opf1 k (c_phi g, c_phi h)) as [[b b']| |]; cbn [bind]; try reflexivity.
  rewrite runp_on_comp. cbn [getc putc c_r c_phi c_z].
  rewrite acts_opf. destruct (opf1 k (c_z g, c_z h)) as [[c c']| |]; cbn [bind]; reflexivity.
Qed.

Lemma acts3_shape k g g' : sh3 g g' -> acts3 add k g' = acts3 add k g.
Proof.
  intros H. unfold acts3.
  change (c_r g') with (getc Cr g'). change (c_phi g') with (getc Cphi g'). change (c_z g') with (getc Cz g').
  now rewrite (acts_shape k _ _ (H Cr)), (acts_shape k _ _ (H Cphi)), (acts_shape k _ _ (H Cz)).
Qed.

Lemma opf1_shape k s t : opf1 k s = Ok t -> sh2 s t.
Proof. destruct s as [a b]. rewrite <- acts_opf. apply runp_keeps, acts_keep. Qed.
Lemma opf3_shape k g h g' h' : opf3 k (g, h) = Ok (g', h') -> sh3 g g' /\ sh3 h h'.
Proof.
  rewrite opf3_lift. unfold lift3p.
  destruct (opf1 k (c_r g, c_r h)) as [[a a']| |] eqn:E1; cbn [bind]; try discriminate.
  destruct (opf1 k (c_phi g, c_phi h)) as [[b b']| |] eqn:E2; cbn [bind]; try discriminate.
  destruct (opf1 k (c_z g, c_z h)) as [[c c']| |] eqn:E3; cbn [bind]; try discriminate.
  intros [= <- <-]. apply opf1_shape in E1, E2, E3. destruct E1, E2, E3.
  split; intros []; cbn [getc c_r c_phi c_z fst snd] in *; assumption.
Qed.

Definition shd (m n : doms (grid3 T)) : Prop := forall p, sh3 (m p) (n p).
Definition apply3 := apply_op (overlay_x3 (T := T) add) (overlay_y3 add) (overlay_xy3 add).
Definition run3 := run_ops (overlay_x3 (T := T) add) (overlay_y3 add) (overlay_xy3 add).

Lemma src_dst o : src o <> dst o.
Proof. destruct o as [[] i j]; unfold src, dst; cbn; intros [= H]; lia. Qed.

Lemma apply3_shape o m n : apply3 o m = Ok n -> shd m n.
Proof.
  unfold apply3, apply_op, pairop. fold (opf3 (okind o)).
  destruct (opf3 (okind o) (m (src o), m (dst o))) as [[a b]| |] eqn:E; cbn [bind]; try discriminate.
  intros [= <-]. apply opf3_shape in E as [E1 E2]. intros p. unfold updp.
  destruct (peq p (dst o)) eqn:P1; [apply peq_true in P1; now subst|].
  destruct (peq p (src o)) eqn:P2; [apply peq_true in P2; now subst|apply sh3_refl].
Qed.

Lemma op_acts_run m0 o m : shd m0 m -> oeq (run (op_acts add m0 o) m) (apply3 o m).
Proof.
  intros Hs. unfold op_acts. rewrite <- (acts3_shape (okind o) _ _ (Hs (src o))).
  eapply oeq_trans; [apply run_pairops, src_dst|]. rewrite acts3_opf. apply oeq_refl.
Qed.

Lemma oeq_bind {S'} (x y : outcome (doms S')) (f g : doms S' -> outcome (doms S')) :
  oeq x y -> (forall m n, x = Ok m -> y = Ok n -> (forall p, m p = n p) -> oeq (f m) (g n)) -> oeq (bind x f) (bind y g).
Proof. intros H H2. destruct x, y; cbn in *; auto; contradiction. Qed.

Lemma pair_all_local {S'} f p q : local (S := S') (fun _ => true) (pairop f p q).
Proof. now apply pairop_local. Qed.

Lemma ops_acts_run m0 l : forall m n, shd m0 m -> (forall p, m p = n p) ->
  oeq (run (flat_map (op_acts add m0) l) m) (run3 l n).
Proof.
  induction l as [|o l IH]; intros m n Hs E; cbn [flat_map].
  - exact E.
  - rewrite run_app. unfold run3; cbn [run_ops]. apply oeq_bind.
    + eapply oeq_trans; [apply op_acts_run, Hs|]. unfold apply3.
      pose proof (pair_all_local (opf3 (okind o)) (src o) (dst o) m n ltac:(intros p _; apply E)) as L.
      unfold apply_op. fold (opf3 (okind o)).
      destruct (pairop (opf3 (okind o)) (src o) (dst o) m), (pairop (opf3 (okind o)) (src o) (dst o) n); cbn; auto.
      intros p; now apply L.
    + intros m1 n1 E1 E2 E3. apply IH; [|exact E3]. intros p. rewrite E3.
      apply apply3_shape in E2. eapply sh3_trans; [apply Hs|]. rewrite E. apply E2.
Qed.

(** ** one colour *)
Lemma op_acts_local D m o a : D (src o) = true -> D (dst o) = true -> In a (op_acts add m o) -> local D a.
Proof. intros H1 H2 Hin. apply in_map_iff in Hin as (f & <- & _). now apply pairop_local. Qed.

Lemma block_ops_foot R C ij o : In o (block_ops R C ij) -> foot ij (src o) = true /\ foot ij (dst o) = true.
Proof.
  destruct ij as [i j]. unfold block_ops, foot. rewrite !in_app_iff.
  intros [H|[H|H]].
  - destruct (i <? R - 1); [destruct H as [<-|[]]|destruct H]; unfold src, dst; cbn [okind orow ocol fst snd]; lia.
  - destruct (j <? C - 1); [destruct H as [<-|[]]|destruct H]; unfold src, dst; cbn [okind orow ocol fst snd]; lia.
  - destruct ((i <? R - 1) && (j <? C - 1)); [destruct H as [<-|[]]|destruct H]; unfold src, dst; cbn [okind orow ocol fst snd]; lia.
Qed.

Lemma iteration_local R C m ij : Forall (local (foot ij)) (iteration add R C m ij).
Proof.
  apply Forall_forall. intros a Ha. apply in_flat_map in Ha as (o & Ho & Ha).
  apply block_ops_foot in Ho as [H1 H2]. now apply (op_acts_local (foot ij) m o).
Qed.

Lemma colour_parity R C idx idy i j : idx = 0 \/ idx = 1 -> idy = 0 \/ idy = 1 -> 0 <= R -> 0 <= C ->
  In (i, j) (colour (area2 R C) idx idy) -> 0 <= i < R /\ 0 <= j < C /\ (i - idx) mod 2 = 0 /\ (j - idy) mod 2 = 0.
Proof.
  intros Hx Hy HR HC Hin. apply colour_In in Hin; cbn [rd_ zd_ area2] in *; try lia.
Qed.
Lemma steps2_nodup n : forall i hi, NoDup (steps2 n i hi) /\ (forall x, In x (steps2 n i hi) -> i <= x).
Proof.
  induction n as [|n IH]; intros i hi; cbn [steps2]; [split; [constructor|intros x []]|].
  destruct (i <? hi); [|split; [constructor|intros x []]]. destruct (IH (i + 2) hi) as [H1 H2]. split.
  - constructor; [|exact H1]. intros H. apply H2 in H. lia.
  - intros x [<-|H]; [lia|]. apply H2 in H. lia.
Qed.
Lemma colour_prod a idx idy : colour a idx idy = list_prod (every2 idx (rd_ a)) (every2 idy (zd_ a)).
Proof.
  unfold colour. induction (every2 idx (rd_ a)) as [|x l IH]; cbn [flat_map list_prod]; [reflexivity|]. now rewrite IH.
Qed.
Lemma colour_nodup a idx idy : NoDup (colour a idx idy).
Proof. rewrite colour_prod. apply nodup_prod; apply steps2_nodup. Qed.

Lemma foot_disjoint R C idx idy p q : idx = 0 \/ idx = 1 -> idy = 0 \/ idy = 1 -> 0 <= R -> 0 <= C ->
  In p (colour (area2 R C) idx idy) -> In q (colour (area2 R C) idx idy) -> p <> q ->
  forall r, foot p r = true -> foot q r = false.
Proof.
  intros Hx Hy HR HC Hp Hq Hne r. destruct p as [i j], q as [k l], r as [u v].
  apply colour_parity in Hp as (_ & _ & P1 & P2); auto. apply colour_parity in Hq as (_ & _ & Q1 & Q2); auto.
  assert (N : i <> k \/ j <> l) by (destruct (Z.eq_dec i k), (Z.eq_dec j l); subst; auto).
  unfold foot; cbn [fst snd].
  pose proof (Z.div_mod (i - idx) 2 ltac:(lia)). pose proof (Z.div_mod (j - idy) 2 ltac:(lia)).
  pose proof (Z.div_mod (k - idx) 2 ltac:(lia)). pose proof (Z.div_mod (l - idy) 2 ltac:(lia)). lia.
Qed.

Definition threads R C m idx idy : list (thread (S := grid3 T)) :=
  map (fun ij => (foot ij, iteration add R C m ij)) (colour (area2 R C) idx idy).
Lemma threads_ok R C m idx idy : idx = 0 \/ idx = 1 -> idy = 0 \/ idy = 1 -> 0 <= R -> 0 <= C ->
  ok_threads (threads R C m idx idy).
Proof.
  intros Hx Hy HR HC. split.
  - unfold threads. pose proof (colour_nodup (area2 R C) idx idy) as N.
    assert (D : forall p q, In p (colour (area2 R C) idx idy) -> In q (colour (area2 R C) idx idy) -> p <> q ->
       forall r, foot p r = true -> foot q r = false) by (intros p q Hp Hq Hn; exact (foot_disjoint R C idx idy p q Hx Hy HR HC Hp Hq Hn)).
    induction N as [|p l Hp N IH]; cbn [map]; [constructor|]. constructor.
    + apply Forall_forall. intros t Ht. apply in_map_iff in Ht as (q & <- & Hq). intros r Hr. cbn [fst] in *.
      apply (D p q); auto; [now left|now right|]. intros ->; contradiction.
    + apply IH. intros u v Hu Hv. apply D; now right.
  - apply Forall_forall. intros t Ht. apply in_map_iff in Ht as (q & <- & Hq). cbn [fst snd]. apply iteration_local.
Qed.

Lemma flat_map_flat_map {A B D} (f : B -> list D) (g : A -> list B) l :
  flat_map f (flat_map g l) = flat_map (fun x => flat_map f (g x)) l.
Proof. induction l as [|x l IH]; cbn [flat_map]; [reflexivity|]. now rewrite flat_map_app, IH. Qed.

Definition iterations R C m idx idy := map (iteration add R C m) (colour (area2 R C) idx idy).
Lemma iterations_threads R C m idx idy : map snd (threads R C m idx idy) = iterations R C m idx idy.
Proof. unfold threads, iterations. rewrite map_map. reflexivity. Qed.

Lemma colour_sequential R C m idx idy :
  oeq (run (concat (iterations R C m idx idy)) m) (run3 (colour_ops R C idx idy) m).
Proof.
  unfold iterations, iteration, colour_ops. rewrite <- flat_map_concat_map, <- flat_map_flat_map.
  apply ops_acts_run; [intros p; apply sh3_refl|reflexivity].
Qed.

Theorem colour_any_schedule R C idx idy m l : idx = 0 \/ idx = 1 -> idy = 0 \/ idy = 1 -> 0 <= R -> 0 <= C ->
  interleave (iterations R C m idx idy) l ->
  (forall n, run3 (colour_ops R C idx idy) m = Ok n -> exists m', run l m = Ok m' /\ forall p, m' p = n p) /\
  (forall m', run l m = Ok m' -> exists n, run3 (colour_ops R C idx idy) m = Ok n /\ forall p, n p = m' p).
Proof.
  intros Hx Hy HR HC HI. pose proof (colour_sequential R C m idx idy) as Sq.
  pose proof (threads_ok R C m idx idy Hx Hy HR HC) as OK.
  pose proof (interleave_concat (iterations R C m idx idy)) as HC0. split.
  - intros n En. rewrite En in Sq. destruct (run (concat (iterations R C m idx idy)) m) as [n0| |] eqn:E0; try contradiction.
    destruct (interleave_deterministic (threads R C m idx idy) (concat (iterations R C m idx idy)) l m n0)
      as (m2 & E2 & H2); rewrite ?iterations_threads; auto.
    exists m2. split; [exact E2|]. intros p. rewrite H2. apply Sq.
  - intros m' Em.
    destruct (interleave_deterministic (threads R C m idx idy) l (concat (iterations R C m idx idy)) m m')
      as (m2 & E2 & H2); rewrite ?iterations_threads; auto.
    rewrite E2 in Sq. destruct (run3 (colour_ops R C idx idy) m) as [n| |]; try contradiction.
    exists n. split; [reflexivity|]. intros p. rewrite <- Sq. apply H2.
Qed.

(** ** the whole pass: the four colours one after the other (the parallel loops end with a barrier), each
    executed with an arbitrary interleaving *)
Definition colour_sched R C idx idy m m' : Prop :=
  exists l, interleave (iterations R C m idx idy) l /\ run l m = Ok m'.
Definition pass_sched R C m m' : Prop := exists m1 m2 m3,
  colour_sched R C 0 0 m m1 /\ colour_sched R C 0 1 m1 m2 /\ colour_sched R C 1 0 m2 m3 /\ colour_sched R C 1 1 m3 m'.

Lemma run3_app l1 : forall l2 m, run3 (l1 ++ l2) m = do m' <- run3 l1 m; run3 l2 m'.
Proof.
  unfold run3. induction l1 as [|a l1 IH]; intros l2 m; cbn [app run_ops bind]; [reflexivity|].
  destruct (apply_op _ _ _ a m); cbn [bind]; auto.
Qed.
Lemma pass_ops_colours R C : pass_ops R C = colour_ops R C 0 0 ++ colour_ops R C 0 1 ++ colour_ops R C 1 0 ++ colour_ops R C 1 1.
Proof. unfold pass_ops, code_order, colour_ops. now rewrite !flat_map_app. Qed.

Lemma run3_ext l : forall m n, (forall p, m p = n p) -> oeq (run3 l m) (run3 l n).
Proof.
  induction l as [|o l IH]; intros m n E; unfold run3; cbn [run_ops]; [exact E|]. apply oeq_bind.
  - pose proof (pair_all_local (opf3 (okind o)) (src o) (dst o) m n ltac:(intros p _; apply E)) as L.
    unfold apply_op. fold (opf3 (okind o)).
    destruct (pairop (opf3 (okind o)) (src o) (dst o) m), (pairop (opf3 (okind o)) (src o) (dst o) n); cbn; auto.
    intros p; now apply L.
  - intros m1 n1 _ _ E1. now apply IH.
Qed.

Lemma colour_sched_run3 R C idx idy m m' n : idx = 0 \/ idx = 1 -> idy = 0 \/ idy = 1 -> 0 <= R -> 0 <= C ->
  (forall p, m p = n p) -> colour_sched R C idx idy m m' ->
  exists n', run3 (colour_ops R C idx idy) n = Ok n' /\ forall p, m' p = n' p.
Proof.
  intros Hx Hy HR HC E (l & HI & Hr).
  destruct (colour_any_schedule R C idx idy m l Hx Hy HR HC HI) as [_ H2].
  destruct (H2 _ Hr) as (k & Ek & Hk). pose proof (run3_ext (colour_ops R C idx idy) m n E) as X.
  rewrite Ek in X. destruct (run3 (colour_ops R C idx idy) n) as [n'| |]; try contradiction.
  exists n'. split; [reflexivity|]. intros p. rewrite <- Hk. apply X.
Qed.

Theorem pass_any_schedule R C m m' : 0 <= R -> 0 <= C -> pass_sched R C m m' ->
  exists n, pass3 add R C m = Ok n /\ forall p, m' p = n p.
Proof.
  intros HR HC (m1 & m2 & m3 & S1 & S2 & S3 & S4).
  destruct (colour_sched_run3 R C 0 0 m m1 m) as (n1 & E1 & H1); auto.
  destruct (colour_sched_run3 R C 0 1 m1 m2 n1) as (n2 & E2 & H2); auto.
  destruct (colour_sched_run3 R C 1 0 m2 m3 n2) as (n3 & E3 & H3); auto.
  destruct (colour_sched_run3 R C 1 1 m3 m' n3) as (n4 & E4 & H4); auto.
  exists n4. split; [|exact H4]. unfold pass3, pass. fold run3. rewrite pass_ops_colours, !run3_app.
  rewrite E1; cbn [bind]. rewrite run3_app, E2; cbn [bind]. rewrite run3_app, E3; cbn [bind]. exact E4.
Qed.
End Acts.
