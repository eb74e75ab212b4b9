(** Facts about rounds of collisions: the lists of the cells, what a round changes, sums over particles. *)
From Coq Require Import Reals Lra String Permutation.
From Verif Require Import Base PushModel CollModel CollOpModel CollPhaseModel.
From Verif Require Import ThmColl ThmColl2.
From Verif Require CheckModel.
Open Scope Z_scope.

(** * Sorting *)
(** the pointers of all species that count as electrons, or as ions *)
Definition ptrs_of (k : kind) (sp : list specie) : list nat :=
  flat_map sp_ptrs (filter (fun s => kind_eqb (kind_of s) k) sp).
Definition all_ptrs (sp : list specie) : list nat := flat_map sp_ptrs sp.
(** the particle is in cell (i, j) of the domain *)
Definition in_cell (d0 d1 : Z) (h : heap) (i j : Z) (p : nat) : bool :=
  (fst (cp_cell (h p)) =? i + d0) && (snd (cp_cell (h p)) =? j + d1).
(** not farther than two cells from the domain *)
Definition near (nr nz d0 d1 : Z) (h : heap) (p : nat) : Prop :=
  d0 - 2 <= fst (cp_cell (h p)) < d0 + nr + 2 /\ d1 - 2 <= snd (cp_cell (h p)) < d1 + nz + 2.

Section Sort.
Variables (nr nz d0 d1 : Z).
Lemma kind_eqb_eq a b : kind_eqb a b = true <-> a = b.
Proof. destruct a, b; cbn; split; congruence. Qed.
Lemma kind_eqb_refl a : kind_eqb a a = true.
Proof. now destruct a. Qed.
Lemma sort_ptrs_spec h k l : forall m m', sort_ptrs nr nz d0 d1 h k l m = Ok m' ->
  forall k' i j, m' k' i j = m k' i j ++ (if kind_eqb k k' then filter (in_cell d0 d1 h i j) l else []).
Proof.
  induction l as [|p l IH]; intros m m' E k' i j; cbn [sort_ptrs] in E.
  - injection E as <-. destruct (kind_eqb k k'); now rewrite app_nil_r.
  - unfold push in E. set (i0 := fst (cp_cell (h p)) - d0) in *. set (j0 := snd (cp_cell (h p)) - d1) in *.
    destruct ((-2 <=? i0) && (i0 <? nr + 2) && (-2 <=? j0) && (j0 <? nz + 2)); [|discriminate]. cbn [bind] in E.
    rewrite (IH _ _ E). cbn [filter].
    assert (C : in_cell d0 d1 h i j p = (i0 =? i) && (j0 =? j)). { unfold in_cell, i0, j0. lia. }
    rewrite C. destruct (kind_eqb k k'); cbn [andb]; [|reflexivity].
    destruct ((i0 =? i) && (j0 =? j)); cbn [andb]; [|reflexivity]. rewrite <- app_assoc. reflexivity.
Qed.
Lemma sort_ptrs_total h k l : forall m, (forall p, In p l -> near nr nz d0 d1 h p) -> exists m', sort_ptrs nr nz d0 d1 h k l m = Ok m'.
Proof.
  induction l as [|p l IH]; intros m H; cbn [sort_ptrs]; [now exists m|].
  destruct (H p (or_introl eq_refl)) as [A B]. unfold push.
  replace ((-2 <=? fst (cp_cell (h p)) - d0) && (fst (cp_cell (h p)) - d0 <? nr + 2) && (-2 <=? snd (cp_cell (h p)) - d1) && (snd (cp_cell (h p)) - d1 <? nz + 2))
    with true by lia.
  cbn [bind]. apply IH. intros q I. apply H. now right.
Qed.
Lemma sort_ptrs_near h k l : forall m m', sort_ptrs nr nz d0 d1 h k l m = Ok m' -> forall p, In p l -> near nr nz d0 d1 h p.
Proof.
  induction l as [|q l IH]; intros m m' E p I; [destruct I|]. cbn [sort_ptrs] in E. unfold push in E.
  destruct ((-2 <=? fst (cp_cell (h q)) - d0) && (fst (cp_cell (h q)) - d0 <? nr + 2) && (-2 <=? snd (cp_cell (h q)) - d1) && (snd (cp_cell (h q)) - d1 <? nz + 2)) eqn:F;
    [|discriminate].
  cbn [bind] in E. destruct I as [<-|I]; [unfold near; lia|]. exact (IH _ _ E p I).
Qed.
Lemma sort_ptrs_died h k l m : sort_ptrs nr nz d0 d1 h k l m <> Fatal.
Proof.
  revert m. induction l as [|p l IH]; intros m; cbn [sort_ptrs]; [discriminate|]. unfold push.
  destruct (_ && _); cbn [bind]; [apply IH|discriminate].
Qed.
Lemma sort_spec h sp : forall m m', sort_to_cells nr nz d0 d1 h sp m = Ok m' ->
  forall k i j, m' k i j = m k i j ++ filter (in_cell d0 d1 h i j) (ptrs_of k sp).
Proof.
  induction sp as [|s sp IH]; intros m m' E k i j; cbn [sort_to_cells] in E.
  - injection E as <-. cbn. now rewrite app_nil_r.
  - destruct (sort_ptrs nr nz d0 d1 h (kind_of s) (sp_ptrs s) m) as [m1| |] eqn:F; try discriminate. cbn [bind] in E.
    rewrite (IH _ _ E), (sort_ptrs_spec _ _ _ _ _ F), <- app_assoc. f_equal. unfold ptrs_of. cbn [filter].
    destruct (kind_eqb (kind_of s) k); cbn [flat_map app]; [|reflexivity]. now rewrite filter_app.
Qed.
Lemma sort_total h sp : forall m, (forall p, In p (all_ptrs sp) -> near nr nz d0 d1 h p) -> exists m', sort_to_cells nr nz d0 d1 h sp m = Ok m'.
Proof.
  induction sp as [|s sp IH]; intros m H; cbn [sort_to_cells]; [now exists m|].
  destruct (sort_ptrs_total h (kind_of s) (sp_ptrs s) m) as [m1 ->].
  { intros p I. apply H. unfold all_ptrs. cbn [flat_map]. apply in_or_app. now left. }
  cbn [bind]. apply IH. intros p I. apply H. unfold all_ptrs. cbn [flat_map]. apply in_or_app. now right.
Qed.
Lemma sort_near h sp : forall m m', sort_to_cells nr nz d0 d1 h sp m = Ok m' -> forall p, In p (all_ptrs sp) -> near nr nz d0 d1 h p.
Proof.
  induction sp as [|s sp IH]; intros m m' E p I; [destruct I|]. cbn [sort_to_cells] in E.
  destruct (sort_ptrs nr nz d0 d1 h (kind_of s) (sp_ptrs s) m) as [m1| |] eqn:F; try discriminate. cbn [bind] in E.
  unfold all_ptrs in I. cbn [flat_map] in I. apply in_app_or in I. destruct I as [I|I]; [exact (sort_ptrs_near _ _ _ _ _ F p I)|exact (IH _ _ E p I)].
Qed.
Lemma sort_died h sp : forall m, sort_to_cells nr nz d0 d1 h sp m <> Fatal.
Proof.
  induction sp as [|s sp IH]; intros m; cbn [sort_to_cells]; [discriminate|].
  assert (D := sort_ptrs_died h (kind_of s) (sp_ptrs s) m).
  destruct (sort_ptrs nr nz d0 d1 h (kind_of s) (sp_ptrs s) m); cbn [bind]; [apply IH|congruence|discriminate].
Qed.
Lemma clear_inner m k i j : inner nr nz i j = true -> clear nr nz m k i j = [].
Proof. intros H. unfold clear. now rewrite H. Qed.
Lemma in_indices' n k : In k (indices n) <-> 0 <= k < n.
Proof.
  unfold indices. rewrite in_map_iff. split.
  - intros (x & <- & I). apply in_seq in I. lia.
  - intros H. exists (Z.to_nat k). split; [lia|]. apply in_seq. lia.
Qed.
Lemma in_cells i j : In (i, j) (all_cells nr nz) <-> inner nr nz i j = true.
Proof.
  unfold all_cells. rewrite in_flat_map. unfold inner. split.
  - intros (x & I & J). rewrite in_indices' in I. apply in_map_iff in J. destruct J as (y & E & J). rewrite in_indices' in J.
    injection E as -> ->. lia.
  - intros H. exists i. rewrite in_indices'. split; [lia|]. apply in_map_iff. exists j. rewrite in_indices'. split; [reflexivity|lia].
Qed.
Lemma indices_nodup n : NoDup (indices n).
Proof. unfold indices. apply FinFun.Injective_map_NoDup; [intros x y E; lia|apply seq_NoDup]. Qed.
Lemma cells_nodup : NoDup (all_cells nr nz).
Proof.
  unfold all_cells. assert (N := indices_nodup nr). induction N as [|i l NI N IH]; [constructor|]. cbn [flat_map].
  assert (A : NoDup (map (fun j => (i, j)) (indices nz))).
  { apply FinFun.Injective_map_NoDup; [intros x y E; congruence|apply indices_nodup]. }
  assert (D : forall c, In c (map (fun j => (i, j)) (indices nz)) -> ~ In c (flat_map (fun i => map (fun j => (i, j)) (indices nz)) l)).
  { intros c I J. apply in_map_iff in I. destruct I as (j & <- & _). apply in_flat_map in J. destruct J as (i' & I' & J).
    apply in_map_iff in J. destruct J as (j' & E & _). injection E as -> _. contradiction. }
  revert A D. generalize (map (fun j : Z => (i, j)) (indices nz)). intros l0 A D. induction A as [|c l0 NC A IH2]; [exact IH|].
  cbn [app]. constructor.
  - intros I. apply in_app_or in I. destruct I as [I|I]; [contradiction|]. exact (D c (or_introl eq_refl) I).
  - apply IH2. intros c' I. apply D. now right.
Qed.
End Sort.

(** a list splits into the parts chosen by exclusive conditions and the rest *)
Lemma filter_split {A} (f g : A -> bool) l : (forall x, f x = true -> g x = false) ->
  Permutation (filter (fun x => f x || g x) l) (filter f l ++ filter g l).
Proof.
  intros H. induction l as [|x l IH]; [constructor|]. cbn [filter]. specialize (H x). destruct (f x); cbn [orb].
  - rewrite H by reflexivity. cbn [app]. now constructor.
  - destruct (g x); [|exact IH]. eapply perm_trans; [constructor; exact IH|]. apply Permutation_middle.
Qed.
Lemma split_cells {A B} (f : B -> A -> bool) (cs : list B) (l : list A) : NoDup cs ->
  (forall x y a, In x cs -> In y cs -> f x a = true -> f y a = true -> x = y) ->
  Permutation l (flat_map (fun c => filter (f c) l) cs ++ filter (fun a => negb (existsb (fun c => f c a) cs)) l).
Proof.
  intros N E. assert (G : Permutation (filter (fun a => existsb (fun c => f c a) cs) l) (flat_map (fun c => filter (f c) l) cs)).
  { induction N as [|c cs NC N IH].
    - cbn. induction l; [constructor|exact IHl].
    - cbn [existsb flat_map]. eapply perm_trans; [apply filter_split|].
      + intros a Fa. apply not_true_is_false. intros X. apply existsb_exists in X. destruct X as (c' & I & Fc').
        assert (c = c') by (apply (E c c' a); [now left|now right|assumption|assumption]). subst. contradiction.
      + apply Permutation_app_head. apply IH. intros x y a Ix Iy. apply E; now right. }
  eapply perm_trans; [|apply Permutation_app_tail, G]. clear. induction l as [|a l IH]; [constructor|]. cbn [filter].
  destruct (existsb _ cs); cbn [negb app].
  - now constructor.
  - eapply perm_trans; [constructor; exact IH|]. apply Permutation_middle.
Qed.

(** * What a round leaves alone *)
(** only velocities change *)
Definition same_but_velocity (h h' : heap) : Prop :=
  forall p, cp_cell (h' p) = cp_cell (h p) /\ weight (cp_part (h' p)) = weight (cp_part (h p)).
Lemma same_refl h : same_but_velocity h h.
Proof. now split. Qed.
Lemma same_trans a b c : same_but_velocity a b -> same_but_velocity b c -> same_but_velocity a c.
Proof. intros H G p. destruct (H p), (G p). split; congruence. Qed.
Lemma set_same h p v : same_but_velocity h (set_velocity h p v).
Proof. intros q. unfold set_velocity. destruct (Nat.eqb q p); now split. Qed.
Lemma set_other h p v q : q <> p -> set_velocity h p v q = h q.
Proof. intros N. unfold set_velocity. apply Nat.eqb_neq in N. now rewrite N. Qed.
Lemma set_here h p v : cp_part (set_velocity h p v p) = Part (weight (cp_part (h p))) v.
Proof. unfold set_velocity. now rewrite Nat.eqb_refl. Qed.
Lemma update_same h p u h' : apply_update h p u = Some h' -> same_but_velocity h h' /\ forall q, q <> p -> h' q = h q.
Proof.
  destruct u; cbn; intros E; try discriminate; injection E as <-.
  - split; [apply same_refl|reflexivity].
  - split; [apply set_same|intros; now apply set_other].
Qed.
Lemma parts_weights h h' l : same_but_velocity h h' -> map weight (parts h' l) = map weight (parts h l).
Proof. intros H. unfold parts. rewrite !map_map. apply map_ext. intros p. apply H. Qed.
Lemma parts_frame h h' l : (forall p, In p l -> h' p = h p) -> parts h' l = parts h l.
Proof. intros H. apply map_ext_in. intros p I. now rewrite H. Qed.

Section Frame.
Variables (nr nz d0 d1 : Z) (dr dz ev : R) (mass : kind -> R) (D : Type).
Variable single : kind -> kind -> part -> part -> R -> R -> R -> D -> coll.
Variable draw : Z -> Z -> nat -> D.
Variable m : maps.

Lemma pair_frame i j ne ni db x d h h' : collide_pair single m i j ne ni db x d h = Ok (Some h') ->
  same_but_velocity h h' /\ forall p, ~ In p (m El i j) -> ~ In p (m Ion i j) -> h' p = h p.
Proof.
  destruct x as [[ka a] [kb b]]. cbn [collide_pair].
  destruct (nth_error (m ka i j) (Z.to_nat a)) as [p|] eqn:Ep; [|discriminate].
  destruct (nth_error (m kb i j) (Z.to_nat b)) as [q|] eqn:Eq; [|discriminate].
  destruct (single _ _ _ _ _ _ _ _) as [|u v]; [discriminate|]. intros E. injection E as E.
  destruct (apply_update h p u) as [h1|] eqn:U; [|discriminate].
  destruct (update_same _ _ _ _ U) as [S1 F1]. destruct (update_same _ _ _ _ E) as [S2 F2]. split; [now apply same_trans with h1|].
  intros r Ne Ni. apply nth_error_In in Ep. apply nth_error_In in Eq.
  rewrite F2, F1; [reflexivity| |]; intros ->; [destruct ka|destruct kb]; contradiction.
Qed.
Lemma pairs_frame i j ne ni db l : forall n h h', collide_pairs single draw m i j ne ni db l n h = Ok (Some h') ->
  same_but_velocity h h' /\ forall p, ~ In p (m El i j) -> ~ In p (m Ion i j) -> h' p = h p.
Proof.
  induction l as [|x l IH]; intros n h h' E; cbn [collide_pairs] in E.
  - injection E as <-. split; [apply same_refl|reflexivity].
  - destruct (collide_pair single m i j ne ni db x (draw i j n) h) as [[h1|]| |] eqn:F; try discriminate. cbn [bind] in E.
    destruct (pair_frame _ _ _ _ _ _ _ _ _ F) as [S1 F1]. destruct (IH _ _ _ E) as [S2 F2].
    split; [now apply same_trans with h1|]. intros p A B. now rewrite F2, F1.
Qed.
Lemma cell_frame h0 i j h h' : collide_cell d0 dr dz mass single draw ev m h0 (i, j) h = Ok (Some h') ->
  same_but_velocity h h' /\ forall p, ~ In p (m El i j) -> ~ In p (m Ion i j) -> h' p = h p.
Proof.
  unfold collide_cell. destruct (CheckModel.debye_length _ _ _ _) as [db| |]; try discriminate. cbn [bind]. apply pairs_frame.
Qed.
Lemma list_frame h0 l : forall h h', collide_list d0 dr dz mass single draw ev m h0 l h = Ok (Some h') ->
  same_but_velocity h h' /\ forall p, (forall i j, In (i, j) l -> ~ In p (m El i j) /\ ~ In p (m Ion i j)) -> h' p = h p.
Proof.
  induction l as [|[i j] l IH]; intros h h' E; cbn [collide_list] in E.
  - injection E as <-. split; [apply same_refl|reflexivity].
  - destruct (collide_cell d0 dr dz mass single draw ev m h0 (i, j) h) as [[h1|]| |] eqn:F; try discriminate. cbn [bind] in E.
    destruct (cell_frame _ _ _ _ _ F) as [S1 F1]. destruct (IH _ _ E) as [S2 F2]. split; [now apply same_trans with h1|].
    intros p A. rewrite F2 by (intros i' j' I; apply A; now right). destruct (A i j (or_introl eq_refl)). now apply F1.
Qed.

(** * Correction *)
Lemma write_back_frame l : forall h ps, same_but_velocity h (write_back h ps l) /\ forall q, ~ In q ps -> write_back h ps l q = h q.
Proof.
  induction l as [|x l IH]; intros h ps; destruct ps as [|p ps]; cbn [write_back]; try (split; [apply same_refl|reflexivity]).
  destruct (IH (set_velocity h p (velocity x)) ps) as [S F]. split.
  - eapply same_trans; [apply set_same|exact S].
  - intros q N. rewrite F by (intros I; apply N; now right). apply set_other. intros ->. apply N. now left.
Qed.
Lemma write_back_parts l : forall h ps, NoDup ps -> map weight l = map weight (parts h ps) -> parts (write_back h ps l) ps = l.
Proof.
  induction l as [|x l IH]; intros h ps N W.
  - destruct ps; [reflexivity|discriminate].
  - destruct ps as [|p ps]; [discriminate|]. cbn [parts map] in W. injection W as W1 W2. inversion N as [|? ? NP N']; subst.
    cbn [write_back]. cbn [parts map]. f_equal.
    + destruct (write_back_frame l (set_velocity h p (velocity x)) ps) as [_ F]. rewrite F by assumption. rewrite set_here, <- W1. now destruct x.
    + apply IH; [assumption|]. rewrite W2. symmetry. apply parts_weights. apply set_same.
Qed.
Lemma correct_weights ms a0 p0 e0 l : map weight (correct_velocities ms a0 p0 e0 l) = map weight l.
Proof.
  unfold correct_velocities. cbv zeta. destruct (req _ 0); [reflexivity|]. destruct (normal_quot _ _); [|reflexivity].
  rewrite map_map. reflexivity.
Qed.
(** the lists of a round: distinct pointers, no pointer in two lists *)
Definition separate : Prop :=
  (forall k i j, inner nr nz i j = true -> NoDup (m k i j)) /\
  (forall k i j k' i' j' p, inner nr nz i j = true -> inner nr nz i' j' = true -> In p (m k i j) -> In p (m k' i' j') ->
     k = k' /\ i = i' /\ j = j').
Definition fixed_list (h0 h : heap) (k : kind) (l : list nat) : list part :=
  let l0 := parts h0 l in
  correct_velocities (mass k) (amount_tot l0) (moment_tot (mass k) l0) (energy_tot (mass k) l0) (parts h l).
Lemma correct_list_frame h0 c k h : same_but_velocity h (correct_list mass m h0 c k h) /\
  forall q, ~ In q (m k (fst c) (snd c)) -> correct_list mass m h0 c k h q = h q.
Proof. unfold correct_list. cbv zeta. apply write_back_frame. Qed.
Lemma correct_list_parts h0 c k h : NoDup (m k (fst c) (snd c)) ->
  parts (correct_list mass m h0 c k h) (m k (fst c) (snd c)) = fixed_list h0 h k (m k (fst c) (snd c)).
Proof. intros N. unfold correct_list, fixed_list. cbv zeta. apply write_back_parts; [assumption|]. apply correct_weights. Qed.
Lemma correct_fold h0 cs : separate -> NoDup cs -> (forall c, In c cs -> inner nr nz (fst c) (snd c) = true) -> forall h,
  let h' := fold_left (fun h c => correct_list mass m h0 c El (correct_list mass m h0 c Ion h)) cs h in
  same_but_velocity h h' /\
  (forall q, (forall c k, In c cs -> ~ In q (m k (fst c) (snd c))) -> h' q = h q) /\
  (forall c k, In c cs -> parts h' (m k (fst c) (snd c)) = fixed_list h0 h k (m k (fst c) (snd c))).
Proof.
  intros [SN SD] N. induction N as [|c cs NC N IH]; intros I h; cbv zeta; cbn [fold_left].
  - split; [apply same_refl|]. split; [reflexivity|]. intros c k [].
  - set (h1 := correct_list mass m h0 c Ion h). set (h2 := correct_list mass m h0 c El h1).
    destruct (IH (fun c' Ic => I c' (or_intror Ic)) h2) as (S3 & F3 & P3).
    destruct (correct_list_frame h0 c Ion h) as [S1 F1]. destruct (correct_list_frame h0 c El h1) as [S2 F2].
    fold h1 in S1, F1. fold h2 in S2, F2. assert (Ic := I c (or_introl eq_refl)).
    assert (S12 : same_but_velocity h h2) by (now apply same_trans with h1).
    set (h' := fold_left _ cs h2) in *. split; [now apply same_trans with h2|]. split.
    + intros q Q. rewrite F3 by (intros c' k Ic'; apply Q; now right). rewrite F2 by (apply Q; now left). apply F1. apply Q. now left.
    + assert (K : forall k, parts h2 (m k (fst c) (snd c)) = fixed_list h0 h k (m k (fst c) (snd c))).
      { intros [].
        - unfold h2. rewrite correct_list_parts by (now apply SN). unfold fixed_list. cbv zeta. f_equal. apply parts_frame. intros p Ip.
          apply F1. intros J. destruct (SD El (fst c) (snd c) Ion (fst c) (snd c) p Ic Ic Ip J). discriminate.
        - rewrite (parts_frame h1 h2).
          + unfold h1. apply correct_list_parts. now apply SN.
          + intros p Ip. apply F2. intros J. destruct (SD El (fst c) (snd c) Ion (fst c) (snd c) p Ic Ic J Ip). discriminate. }
      intros c' k [<-|Ic'].
      * rewrite <- K. apply parts_frame. intros p Ip. apply F3. intros c' k' Ic' J.
        destruct (SD k (fst c) (snd c) k' (fst c') (snd c') p Ic (I c' (or_intror Ic')) Ip J) as (_ & E1 & E2).
        apply NC. replace c with c'; [exact Ic'|]. destruct c, c'. cbn in *. congruence.
      * rewrite P3 by assumption. unfold fixed_list. cbv zeta. f_equal. apply parts_frame. intros p Ip.
        assert (X : forall k', ~ In p (m k' (fst c) (snd c))).
        { intros k' J. destruct (SD k (fst c') (snd c') k' (fst c) (snd c) p (I c' (or_intror Ic')) Ic Ip J) as (_ & E1 & E2).
          apply NC. replace c with c'; [exact Ic'|]. destruct c, c'. cbn in *. congruence. }
        rewrite F2, F1 by apply X. reflexivity.
Qed.
Lemma correct_spec h0 h : separate -> let h' := correct nr nz mass m h0 h in
  same_but_velocity h h' /\
  (forall q, (forall k i j, inner nr nz i j = true -> ~ In q (m k i j)) -> h' q = h q) /\
  (forall k i j, inner nr nz i j = true -> parts h' (m k i j) = fixed_list h0 h k (m k i j)).
Proof.
  intros S. cbv zeta. unfold correct.
  destruct (correct_fold h0 (all_cells nr nz) S (cells_nodup nr nz)) with (h := h) as (A & B & C).
  { intros [i j] I. now apply in_cells. }
  split; [exact A|]. split.
  - intros q Q. apply B. intros [i j] k I. apply Q. now apply in_cells.
  - intros k i j I. apply (C (i, j) k). now apply in_cells.
Qed.
End Frame.
