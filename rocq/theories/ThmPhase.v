(** C127, C128: a round of collisions of a domain. *)
From Coq Require Import Reals Lra String Permutation.
From Verif Require Import Base PushModel CollModel CollOpModel CollPhaseModel CollPhaseProofs.
From Verif Require Import ThmPush ThmColl ThmColl2 CollOpProofs.
From Verif Require CheckModel.
Open Scope Z_scope.

(** * C127: every particle takes part in the collisions of its cell, once *)
(** the lists of the inner cells: exactly the particles that are in the cell, in the order of the species *)
Theorem C127_lists : forall nr nz d0 d1 h sp m0 m, sort_to_cells nr nz d0 d1 h sp (clear nr nz m0) = Ok m ->
  forall k i j, inner nr nz i j = true ->
  m k i j = filter (fun p => (fst (cp_cell (h p)) =? i + d0) && (snd (cp_cell (h p)) =? j + d1))
                   (flat_map sp_ptrs (filter (fun s => match k with Ion => is_ion s | El => negb (is_ion s) end) sp)).
Proof.
  intros nr nz d0 d1 h sp m0 m E k i j I. rewrite (sort_spec _ _ _ _ _ _ _ _ E), (clear_inner nr nz m0 k i j I). cbn [app].
  unfold ptrs_of. do 2 f_equal. apply filter_ext. intros s. unfold kind_of. destruct (is_ion s), k; reflexivity.
Qed.

Lemma kinds_split sp : Permutation (all_ptrs sp) (ptrs_of El sp ++ ptrs_of Ion sp).
Proof.
  induction sp as [|s sp IH]; [constructor|]. unfold all_ptrs, ptrs_of. cbn [flat_map filter].
  destruct (kind_of s); cbn [kind_eqb flat_map].
  - rewrite <- app_assoc. now apply Permutation_app_head.
  - eapply perm_trans; [apply Permutation_app_head; exact IH|]. rewrite !app_assoc. apply Permutation_app_tail. apply Permutation_app_comm.
Qed.
Lemma nodup_app {A} (l l' : list A) : NoDup (l ++ l') -> NoDup l /\ NoDup l' /\ forall x, In x l -> In x l' -> False.
Proof.
  induction l as [|a l IH]; cbn [app]; intros N.
  - split; [constructor|]. split; [exact N|]. intros x [].
  - inversion N as [|? ? NI N']; subst. destruct (IH N') as (A1 & A2 & A3). split; [|split; [exact A2|]].
    + constructor; [|exact A1]. intros I. apply NI. apply in_or_app. now left.
    + intros x [<-|I] J; [|exact (A3 x I J)]. apply NI. apply in_or_app. now right.
Qed.
Lemma kinds_nodup sp : NoDup (all_ptrs sp) ->
  (forall k, NoDup (ptrs_of k sp)) /\ forall k k' p, In p (ptrs_of k sp) -> In p (ptrs_of k' sp) -> k = k'.
Proof.
  intros N. apply (Permutation_NoDup (kinds_split sp)) in N. destruct (nodup_app _ _ N) as (A & B & C). split.
  - intros []; assumption.
  - intros [] [] p I J; try reflexivity; exfalso; [exact (C p I J)|exact (C p J I)].
Qed.

(** a particle inside of the domain is in the list of its cell once, and in no other list of an inner cell *)
Theorem C127_once : forall nr nz d0 d1 h sp m0 m p, sort_to_cells nr nz d0 d1 h sp (clear nr nz m0) = Ok m ->
  NoDup (all_ptrs sp) -> In p (all_ptrs sp) ->
  inner nr nz (fst (cp_cell (h p)) - d0) (snd (cp_cell (h p)) - d1) = true ->
  exists k, count_occ Nat.eq_dec (m k (fst (cp_cell (h p)) - d0) (snd (cp_cell (h p)) - d1)) p = 1%nat /\
  forall k' i j, inner nr nz i j = true -> (k', i, j) <> (k, fst (cp_cell (h p)) - d0, snd (cp_cell (h p)) - d1) -> ~ In p (m k' i j).
Proof.
  intros nr nz d0 d1 h sp m0 m p E N I In0. destruct (kinds_nodup sp N) as [NK DK].
  assert (L := C127_lists nr nz d0 d1 h sp m0 m E). assert (S := sort_spec nr nz d0 d1 h sp _ _ E).
  apply (Permutation_in p (kinds_split sp)) in I. assert (K : exists k, In p (ptrs_of k sp)).
  { apply in_app_or in I. destruct I; [exists El|exists Ion]; assumption. }
  destruct K as [k K]. exists k. split.
  - rewrite S, (clear_inner nr nz m0 k _ _ In0). cbn [app]. apply NoDup_count_occ'.
    + apply NoDup_filter, NK.
    + apply filter_In. split; [assumption|]. unfold in_cell. lia.
  - intros k' i j Iij Ne J. rewrite S, (clear_inner nr nz m0 k' _ _ Iij) in J. cbn [app] in J. apply filter_In in J. destruct J as [J1 J2].
    apply Ne. rewrite (DK k' k p J1 K). unfold in_cell in J2. f_equal; [f_equal|]; lia.
Qed.
(** the lists exist if no particle is farther than two cells from the domain, otherwise the walk leaves the grid *)
Theorem C127_defined : forall nr nz d0 d1 h sp m0,
  (exists m, sort_to_cells nr nz d0 d1 h sp (clear nr nz m0) = Ok m) <-> forall p, In p (all_ptrs sp) -> near nr nz d0 d1 h p.
Proof.
  intros. split.
  - intros [m E]. exact (sort_near _ _ _ _ _ _ _ _ E).
  - apply sort_total.
Qed.
(** [clear] does not empty the lists of the cells around the domain: they grow, and keep the pointers of particles that may
    be deleted since.  Only inner cells are ever read, see C127_unread *)
Theorem C127_stale_refuted : forall nr nz d0 d1 h sp m0 m, sort_to_cells nr nz d0 d1 h sp (clear nr nz m0) = Ok m ->
  forall k i j, inner nr nz i j = false -> exists l, m k i j = m0 k i j ++ l.
Proof.
  intros nr nz d0 d1 h sp m0 m E k i j I. rewrite (sort_spec _ _ _ _ _ _ _ _ E). unfold clear. rewrite I. now eexists.
Qed.

Section Unread.
Variables (nr nz d0 d1 : Z) (dr dz ev : R) (mass : kind -> R) (D : Type).
Variable single : kind -> kind -> part -> part -> R -> R -> R -> D -> coll.
Variable draw : Z -> Z -> nat -> D.
Variables m m' : maps.
Hypothesis same : forall k i j, inner nr nz i j = true -> m k i j = m' k i j.
Lemma pairs_unread i j ne ni db l : inner nr nz i j = true -> forall n h,
  collide_pairs single draw m i j ne ni db l n h = collide_pairs single draw m' i j ne ni db l n h.
Proof using same.
  intros I. induction l as [|[[ka a] [kb b]] l IH]; intros n h; [reflexivity|]. cbn [collide_pairs].
  assert (E : collide_pair single m i j ne ni db (ka, a, (kb, b)) (draw i j n) h = collide_pair single m' i j ne ni db (ka, a, (kb, b)) (draw i j n) h).
  { cbn [collide_pair]. now rewrite !same. }
  rewrite E. destruct (collide_pair single m' i j ne ni db (ka, a, (kb, b)) (draw i j n) h) as [[h1|]| |]; cbn [bind]; auto.
Qed.
Lemma list_unread h0 l : (forall i j, In (i, j) l -> inner nr nz i j = true) -> forall h,
  collide_list d0 dr dz mass single draw ev m h0 l h = collide_list d0 dr dz mass single draw ev m' h0 l h.
Proof using same.
  induction l as [|[i j] l IH]; intros I h; [reflexivity|]. cbn [collide_list]. assert (Ii := I i j (or_introl eq_refl)).
  assert (E : collide_cell d0 dr dz mass single draw ev m h0 (i, j) h = collide_cell d0 dr dz mass single draw ev m' h0 (i, j) h).
  { unfold collide_cell. rewrite !(same _ i j Ii). destruct (CheckModel.debye_length _ _ _ _); cbn [bind]; try reflexivity. now apply pairs_unread. }
  rewrite E. destruct (collide_cell d0 dr dz mass single draw ev m' h0 (i, j) h) as [[h1|]| |]; cbn [bind]; try reflexivity.
  apply IH. intros i' j' J. apply I. now right.
Qed.
Lemma row_bounds ok i : forall f j p, In p (collide_row ok i j f) -> fst p = i /\ j <= snd p < j + Z.of_nat f.
Proof.
  induction f as [|f IH]; intros j p I; [destruct I|]. cbn [collide_row] in I. destruct (ok j); [|destruct I].
  destruct I as [<-|I]; [cbn; lia|]. destruct (IH _ _ I). lia.
Qed.
Lemma colliding_inner mm h i j : In (i, j) (colliding nr nz d0 dr dz mass mm h) -> inner nr nz i j = true.
Proof.
  unfold colliding, collide_cells. intros I. apply in_flat_map in I. destruct I as (x & X & I). apply in_seq in X. apply row_bounds in I.
  unfold inner. cbn in I. lia.
Qed.
Lemma row_unread ok ok' i : forall f j, (forall x, j <= x < j + Z.of_nat f -> ok x = ok' x) -> collide_row ok i j f = collide_row ok' i j f.
Proof.
  induction f as [|f IH]; intros j H; [reflexivity|]. cbn [collide_row]. rewrite (H j) by lia. destruct (ok' j); [|reflexivity]. f_equal. apply IH.
  intros. apply H. lia.
Qed.
Lemma colliding_unread h : colliding nr nz d0 dr dz mass m h = colliding nr nz d0 dr dz mass m' h.
Proof using same.
  unfold colliding, collide_cells.
  assert (G : forall l, (forall x, In x l -> (x < Z.to_nat nr)%nat) ->
    flat_map (fun i => collide_row (fun j => cell_normal (mass Ion) (mass El) dr dz d0 (Z.of_nat i) (cells h m (Z.of_nat i) j)) (Z.of_nat i) 0 (Z.to_nat nz)) l =
    flat_map (fun i => collide_row (fun j => cell_normal (mass Ion) (mass El) dr dz d0 (Z.of_nat i) (cells h m' (Z.of_nat i) j)) (Z.of_nat i) 0 (Z.to_nat nz)) l).
  { induction l as [|x l IH]; intros H; [reflexivity|]. cbn [flat_map]. rewrite IH by (intros; apply H; now right). f_equal.
    assert (B := H x (or_introl eq_refl)). apply row_unread. intros y Y. unfold cells.
    rewrite !(same _ (Z.of_nat x) y) by (unfold inner; lia). reflexivity. }
  apply G. intros x X. apply in_seq in X. lia.
Qed.
Lemma correct_unread h0 h : correct nr nz mass m h0 h = correct nr nz mass m' h0 h.
Proof using same.
  unfold correct. assert (G : forall l, (forall i j, In (i, j) l -> inner nr nz i j = true) -> forall h,
    fold_left (fun h c => correct_list mass m h0 c El (correct_list mass m h0 c Ion h)) l h =
    fold_left (fun h c => correct_list mass m' h0 c El (correct_list mass m' h0 c Ion h)) l h).
  { induction l as [|[i j] l IH]; intros H g; [reflexivity|]. cbn [fold_left]. rewrite IH by (intros; apply H; now right). f_equal.
    unfold correct_list. cbn [fst snd]. now rewrite !(same _ i j (H i j (or_introl eq_refl))). }
  apply G. intros i j I. now apply in_cells.
Qed.
End Unread.
(** what earlier rounds left in the lists has no influence on the particles *)
Theorem C127_unread : forall nr nz d0 d1 dr dz ev co (D : Type) (single : (kind -> R) -> (kind -> R) -> kind -> kind -> part -> part -> R -> R -> R -> D -> coll) draw shuffle sp m0 m0' h,
  let result := fun m => match phase nr nz d0 d1 dr dz ev co single draw shuffle sp m h with
                         | Ok r => Ok (option_map snd r) | Fatal => Fatal | UB => UB end in
  result m0 = result m0'.
Proof.
  intros. unfold result, phase.
  assert (T := fun m X => sort_total nr nz d0 d1 h sp m X). assert (S1 := sort_spec nr nz d0 d1 h sp (clear nr nz m0)).
  assert (S2 := sort_spec nr nz d0 d1 h sp (clear nr nz m0')).
  assert (N1 := sort_near nr nz d0 d1 h sp (clear nr nz m0)). assert (N2 := sort_near nr nz d0 d1 h sp (clear nr nz m0')).
  assert (D1 := sort_died nr nz d0 d1 h sp (clear nr nz m0)). assert (D2 := sort_died nr nz d0 d1 h sp (clear nr nz m0')).
  destruct (sort_to_cells nr nz d0 d1 h sp (clear nr nz m0)) as [m1| |] eqn:E1; [| congruence |].
  - destruct (T (clear nr nz m0')) as [m2 E2]; [exact (N1 _ eq_refl)|]. rewrite E2 in *. cbn [bind].
    destruct (find_last is_el sp) as [e|]; [|reflexivity]. destruct (find_last is_ion sp) as [i|]; [|reflexivity].
    assert (Q : forall k x y, inner nr nz x y = true -> random_sort nr nz shuffle m1 k x y = random_sort nr nz shuffle m2 k x y).
    { intros k x y I. unfold random_sort. rewrite I. rewrite (S1 _ eq_refl), (S2 _ eq_refl), !clear_inner by assumption. reflexivity. }
    unfold collide. rewrite (colliding_unread nr nz d0 dr dz _ _ _ Q).
    rewrite (list_unread nr nz d0 dr dz ev _ D _ draw _ _ Q) by (intros i0 j0 I0; exact (colliding_inner nr nz d0 dr dz _ _ _ _ _ I0)).
    destruct (collide_list _ _ _ _ _ _ _ _ _ _ _) as [[h1|]| |]; cbn [bind option_map snd]; try reflexivity.
    destruct co; [|reflexivity]. now rewrite (correct_unread nr nz _ _ _ Q).
  - destruct (sort_to_cells nr nz d0 d1 h sp (clear nr nz m0')) as [m2| |] eqn:E2; [| congruence |reflexivity].
    destruct (T (clear nr nz m0)) as [m3 E3]; [exact (N2 _ eq_refl)|]. congruence.
Qed.
(** a round needs a species called electrons and one called ions (with a small or a capital first letter), whatever the
    particles are: without them the operator works with uninitialised pointers *)
Lemma find_last_none f sp : (forall s, In s sp -> f s = false) -> find_last f sp = None.
Proof.
  unfold find_last. induction sp as [|s l IH] using rev_ind; intros Hf; [reflexivity|]. rewrite fold_left_app. cbn [fold_left].
  rewrite Hf by (apply in_or_app; right; now left). apply IH. intros s' I. apply Hf. apply in_or_app. now left.
Qed.
Theorem C127_names_refuted : forall nr nz d0 d1 dr dz ev co (D : Type) (single : (kind -> R) -> (kind -> R) -> kind -> kind -> part -> part -> R -> R -> R -> D -> coll) draw shuffle sp m h,
  (forall s, In s sp -> is_el s = false) \/ (forall s, In s sp -> is_ion s = false) ->
  phase nr nz d0 d1 dr dz ev co single draw shuffle sp m h = UB.
Proof.
  intros. unfold phase. assert (Dd := sort_died nr nz d0 d1 h sp (clear nr nz m)).
  destruct (sort_to_cells nr nz d0 d1 h sp (clear nr nz m)); cbn [bind]; [|congruence|reflexivity].
  destruct H as [H|H]; rewrite (find_last_none _ _ H); [reflexivity|]. now destruct (find_last is_el sp).
Qed.

(** * What holds in every round *)
Section Round.
Variables (nr nz d0 d1 : Z) (dr dz ev : R).
Variable shuffle : kind -> Z -> Z -> list nat -> list nat.
Hypothesis shuffles : forall k i j l, Permutation (shuffle k i j l) l.
Variables (sp : list specie) (h : heap) (m0 m1 : maps).
Hypothesis distinct : NoDup (all_ptrs sp).
Hypothesis sorted : sort_to_cells nr nz d0 d1 h sp (clear nr nz m0) = Ok m1.
Let m := random_sort nr nz shuffle m1.
Lemma round_list k i j : inner nr nz i j = true -> Permutation (m k i j) (filter (in_cell d0 d1 h i j) (ptrs_of k sp)).
Proof using shuffles sorted.
  intros I. unfold m, random_sort. rewrite I. eapply perm_trans; [apply shuffles|].
  rewrite (sort_spec _ _ _ _ _ _ _ _ sorted), (clear_inner nr nz m0 k i j I). apply Permutation_refl.
Qed.
Lemma round_in k i j p : inner nr nz i j = true -> In p (m k i j) <-> In p (ptrs_of k sp) /\ in_cell d0 d1 h i j p = true.
Proof using shuffles sorted.
  intros I. assert (P := round_list k i j I). rewrite <- filter_In. split; apply Permutation_in; [exact P|now apply Permutation_sym].
Qed.
Lemma round_separate : separate nr nz m.
Proof using shuffles sorted distinct.
  destruct (kinds_nodup sp distinct) as [NK DK]. split.
  - intros k i j I. eapply Permutation_NoDup; [apply Permutation_sym, round_list, I|]. apply NoDup_filter, NK.
  - intros k i j k' i' j' p I I' J J'. apply round_in in J; [|assumption]. apply round_in in J'; [|assumption].
    destruct J as [J C], J' as [J' C']. split; [exact (DK k k' p J J')|]. unfold in_cell in *. lia.
Qed.
(** sums over all particles of a kind, cell by cell *)
Definition sum_over (g : nat -> R) (l : list nat) : R := fold_right (fun p acc => g p + acc)%R 0%R l.
Lemma sum_perm g l l' : Permutation l l' -> sum_over g l = sum_over g l'.
Proof. induction 1; unfold sum_over in *; cbn [fold_right] in *; lra. Qed.
Lemma sum_app g l l' : sum_over g (l ++ l') = (sum_over g l + sum_over g l')%R.
Proof. unfold sum_over. induction l as [|p l IH]; cbn [app fold_right]; [lra|]. rewrite IH. lra. Qed.
Lemma sum_ext g g' l : (forall p, In p l -> g p = g' p) -> sum_over g l = sum_over g' l.
Proof. induction l as [|p l IH]; intros H; [reflexivity|]. unfold sum_over in *. cbn. rewrite IH by (intros; apply H; now right). now rewrite H by now left. Qed.
Lemma sum_by_cell g g' k : (forall i j, inner nr nz i j = true -> sum_over g (m k i j) = sum_over g' (m k i j)) ->
  (forall p, (forall i j, inner nr nz i j = true -> ~ In p (m k i j)) -> In p (ptrs_of k sp) -> g p = g' p) ->
  sum_over g (ptrs_of k sp) = sum_over g' (ptrs_of k sp).
Proof using shuffles sorted.
  intros H G. set (f := fun c : Z * Z => in_cell d0 d1 h (fst c) (snd c)).
  assert (P := split_cells f (all_cells nr nz) (ptrs_of k sp) (cells_nodup nr nz)).
  rewrite (sum_perm g _ _ (P ltac:(intros x y a _ _ X Y; unfold f, in_cell in X, Y; destruct x, y; cbn in *; f_equal; lia))).
  rewrite (sum_perm g' _ _ (P ltac:(intros x y a _ _ X Y; unfold f, in_cell in X, Y; destruct x, y; cbn in *; f_equal; lia))).
  rewrite !sum_app. f_equal.
  - assert (A : forall l, (forall i j, In (i, j) l -> inner nr nz i j = true) ->
      sum_over g (flat_map (fun c => filter (f c) (ptrs_of k sp)) l) = sum_over g' (flat_map (fun c => filter (f c) (ptrs_of k sp)) l)).
    { induction l as [|[i j] l IH]; intros I; [reflexivity|]. cbn [flat_map]. rewrite !sum_app, IH by (intros; apply I; now right). f_equal.
      assert (Q := round_list k i j (I i j (or_introl eq_refl))). apply Permutation_sym in Q. unfold f. cbn [fst snd].
      rewrite (sum_perm g _ _ Q), (sum_perm g' _ _ Q). apply H. apply I. now left. }
    apply A. intros i j I. now apply in_cells.
  - apply sum_ext. intros p I. apply filter_In in I. destruct I as [I J]. apply G; [|exact I]. intros i j Ii In'.
    apply round_in in In'; [|assumption]. apply negb_true_iff in J. assert (X : existsb (fun c => f c p) (all_cells nr nz) = true).
    { apply existsb_exists. exists (i, j). split; [now apply in_cells|]. exact (proj2 In'). }
    congruence.
Qed.
End Round.

(** * C128: a round of TA77S collisions conserves momentum and energy *)
(** ** Specification *)
(** sum of [f mass particle] over all particles of all species *)
Definition total (f : R -> part -> R) (h : heap) (sp : list specie) : R :=
  fold_right (fun s acc => fold_right (fun p acc => f (sp_mass s) (cp_part (h p)) + acc) 0 (sp_ptrs s) + acc)%R 0%R sp.
Definition momentum (h : heap) (sp : list specie) : v3 :=
  V3 (total (fun m p => weight p * m * vx (velocity p)) h sp)%R
     (total (fun m p => weight p * m * vy (velocity p)) h sp)%R
     (total (fun m p => weight p * m * vz (velocity p)) h sp)%R.
Definition kinetic (h : heap) (sp : list specie) : R := total (fun m p => weight p * m * len2 (velocity p) / 2)%R h sp.

Lemma total_kinds f h sp (mass : kind -> R) : (forall s, In s sp -> sp_mass s = mass (kind_of s)) ->
  total f h sp = (sum_over (fun p => f (mass El) (cp_part (h p))) (ptrs_of El sp) + sum_over (fun p => f (mass Ion) (cp_part (h p))) (ptrs_of Ion sp))%R.
Proof.
  induction sp as [|s sp IH]; intros H; [unfold sum_over; cbn; lra|]. unfold total in *. cbn [fold_right]. rewrite IH by (intros; apply H; now right).
  rewrite (H s (or_introl eq_refl)). unfold ptrs_of. cbn [filter].
  destruct (kind_of s); cbn [kind_eqb flat_map]; rewrite sum_app; unfold sum_over; lra.
Qed.
Lemma moment_sums mk h l : moment_tot mk (parts h l) =
  V3 (sum_over (fun p => weight (cp_part (h p)) * mk * vx (velocity (cp_part (h p)))) l)%R
     (sum_over (fun p => weight (cp_part (h p)) * mk * vy (velocity (cp_part (h p)))) l)%R
     (sum_over (fun p => weight (cp_part (h p)) * mk * vz (velocity (cp_part (h p)))) l)%R.
Proof.
  induction l as [|p l IH]; [reflexivity|]. cbn [parts map moment_tot]. unfold parts in IH. rewrite IH. unfold vadd, vscale, sum_over. cbn. f_equal; ring.
Qed.
Lemma energy_sums mk h l : energy_tot mk (parts h l) = sum_over (fun p => weight (cp_part (h p)) * mk * len2 (velocity (cp_part (h p))) / 2)%R l.
Proof. induction l as [|p l IH]; [reflexivity|]. cbn [parts map energy_tot]. unfold parts in IH. rewrite IH. reflexivity. Qed.

(** a list is restored: it is empty, or it is warm before and after the collisions, or it does not collide *)
Definition restored (mk : R) (collides : Prop) (l0 l : list part) : Prop :=
  l0 = [] \/ (thermal mk l0 <> 0 /\ thermal mk l <> 0)%R \/ ~ collides.
Lemma fixed_conserves mk l0 l : (0 < mk)%R -> Forall (fun p => 0 < weight p)%R l0 -> map weight l = map weight l0 ->
  l0 = [] \/ (thermal mk l0 <> 0 /\ thermal mk l <> 0)%R \/ l = l0 ->
  let l' := correct_velocities mk (amount_tot l0) (moment_tot mk l0) (energy_tot mk l0) l in
  moment_tot mk l' = moment_tot mk l0 /\ energy_tot mk l' = energy_tot mk l0.
Proof.
  intros Hm F W H. cbv zeta. destruct l0 as [|x l0'].
  { destruct l; [|discriminate]. split; unfold correct_velocities; cbv zeta; destruct (req _ 0); try reflexivity; destruct (normal_quot _ _); reflexivity. }
  destruct H as [H|[[H1 H2]|H]]; [discriminate| |].
  - destruct (C52_correct mk (x :: l0') l Hm) as (_ & A & B); auto. discriminate.
  - subst. destruct (Req_dec (thermal mk (x :: l0')) 0) as [Z0|N0].
    + rewrite C52_cold_refuted; auto. discriminate.
    + destruct (C52_correct mk (x :: l0') (x :: l0') Hm) as (_ & A & B); auto. discriminate.
Qed.

Theorem C128_partial : forall nr nz d0 d1 dr dz ev draw shuffle sp e i m0 h m h',
  (forall k i j l, Permutation (shuffle k i j l) l) -> NoDup (all_ptrs sp) ->
  find_last is_el sp = Some e -> find_last is_ion sp = Some i -> (0 < sp_mass e)%R -> (0 < sp_mass i)%R ->
  (forall s, In s sp -> sp_mass s = if is_ion s then sp_mass i else sp_mass e) ->
  (forall p, In p (all_ptrs sp) -> 0 < weight (cp_part (h p)))%R ->
  phase nr nz d0 d1 dr dz ev true ta77 draw shuffle sp m0 h = Ok (Some (m, h')) ->
  let mass := per_kind (sp_mass e) (sp_mass i) in
  (forall h1, collide nr nz d0 dr dz mass (ta77 mass (per_kind (sp_charge e) (sp_charge i))) draw ev m h = Ok (Some h1) ->
   forall k x y, inner nr nz x y = true ->
   restored (mass k) (In (x, y) (colliding nr nz d0 dr dz mass m h)) (parts h (m k x y)) (parts h1 (m k x y))) ->
  momentum h' sp = momentum h sp /\ kinetic h' sp = kinetic h sp /\
  forall k x y, inner nr nz x y = true ->
    moment_tot (mass k) (parts h' (m k x y)) = moment_tot (mass k) (parts h (m k x y)) /\
    energy_tot (mass k) (parts h' (m k x y)) = energy_tot (mass k) (parts h (m k x y)).
Proof.
  intros nr nz d0 d1 dr dz ev draw shuffle sp e i m0 h m h' Sh N Fe Fi Me Mi Ms W E mass Hr.
  unfold phase in E. destruct (sort_to_cells nr nz d0 d1 h sp (clear nr nz m0)) as [m1| |] eqn:So; try discriminate. cbn [bind] in E.
  rewrite Fe, Fi in E. fold mass in E. set (mm := random_sort nr nz shuffle m1) in *.
  destruct (collide nr nz d0 dr dz mass (ta77 mass _) draw ev mm h) as [[h1|]| |] eqn:C; try discriminate. cbn [bind] in E. injection E as <- <-.
  specialize (Hr h1 C). assert (Sep : separate nr nz mm) by (exact (round_separate nr nz d0 d1 shuffle Sh sp h m0 m1 N So)).
  destruct (list_frame d0 dr dz ev mass _ _ _ mm h _ _ _ C) as [S1 F1].
  destruct (correct_spec nr nz mass mm h h1 Sep) as (S2 & F2 & P2). set (h' := correct nr nz mass mm h h1) in *.
  assert (Mk : forall k, (0 < mass k)%R) by (intros []; assumption).
  assert (Inc : forall k x y p, inner nr nz x y = true -> In p (mm k x y) -> In p (all_ptrs sp)).
  { intros k x y p I J. apply (round_in nr nz d0 d1 shuffle Sh sp h m0 m1 So) in J; [|assumption].
    apply (Permutation_in p (Permutation_sym (kinds_split sp))). apply in_or_app. destruct k; [left|right]; apply J. }
  assert (Con : forall k x y, inner nr nz x y = true ->
    moment_tot (mass k) (parts h' (mm k x y)) = moment_tot (mass k) (parts h (mm k x y)) /\
    energy_tot (mass k) (parts h' (mm k x y)) = energy_tot (mass k) (parts h (mm k x y))).
  { intros k x y I. rewrite (P2 k x y I). unfold fixed_list. cbv zeta. apply fixed_conserves.
    - apply Mk.
    - apply Forall_forall. intros q Q. unfold parts in Q. apply in_map_iff in Q. destruct Q as (p & <- & Ip). apply W. now apply (Inc k x y).
    - now apply parts_weights.
    - destruct (Hr k x y I) as [A|[A|A]]; [now left|right; now left|]. right. right. apply parts_frame. intros p Ip. apply F1.
      intros x' y' J. assert (I' := colliding_inner nr nz d0 dr dz mass mm h x' y' J). destruct Sep as [_ SD].
      split; intros J'; destruct (SD _ _ _ _ _ _ p I I' Ip J') as (_ & -> & ->); contradiction. }
  assert (Rest : forall k p, (forall x y, inner nr nz x y = true -> ~ In p (mm k x y)) -> In p (ptrs_of k sp) -> h' p = h p).
  { intros k p H Ip. assert (O : forall k' x y, inner nr nz x y = true -> ~ In p (mm k' x y)).
    { intros k' x y I J. assert (Jp := J). apply (round_in nr nz d0 d1 shuffle Sh sp h m0 m1 So) in J; [|assumption].
      destruct (kinds_nodup sp N) as [_ DK]. rewrite (DK k' k p (proj1 J) Ip) in Jp. exact (H x y I Jp). }
    rewrite F2 by assumption. apply F1. intros x y J. assert (I := colliding_inner nr nz d0 dr dz mass mm h x y J). split; now apply O. }
  assert (Tot : forall f, (forall k x y, inner nr nz x y = true ->
      sum_over (fun p => f (mass k) (cp_part (h' p))) (mm k x y) = sum_over (fun p => f (mass k) (cp_part (h p))) (mm k x y)) ->
    total f h' sp = total f h sp).
  { intros f Hf. assert (Mm : forall s, In s sp -> sp_mass s = mass (kind_of s)).
    { intros s I. rewrite (Ms s I). unfold kind_of, mass. now destruct (is_ion s). }
    rewrite !(total_kinds f _ sp mass Mm).
    f_equal; apply (sum_by_cell nr nz d0 d1 shuffle Sh sp h m0 m1 So).
    - intros; now apply Hf. - intros p A B. now rewrite (Rest El p A B).
    - intros; now apply Hf. - intros p A B. now rewrite (Rest Ion p A B). }
  split; [|split; [|exact Con]].
  - unfold momentum. f_equal; apply Tot; intros k x y I; destruct (Con k x y I) as [A _]; rewrite !moment_sums in A; now injection A.
  - unfold kinetic. apply Tot. intros k x y I. destruct (Con k x y I) as [_ A]. now rewrite !energy_sums in A.
Qed.
(** for any of the three operators a round changes velocities only *)
Theorem C128_velocities : forall nr nz d0 d1 dr dz ev co (D : Type) (single : (kind -> R) -> (kind -> R) -> kind -> kind -> part -> part -> R -> R -> R -> D -> coll) draw shuffle sp m0 h m h',
  (forall k i j l, Permutation (shuffle k i j l) l) -> NoDup (all_ptrs sp) ->
  phase nr nz d0 d1 dr dz ev co single draw shuffle sp m0 h = Ok (Some (m, h')) ->
  (forall p, cp_cell (h' p) = cp_cell (h p) /\ weight (cp_part (h' p)) = weight (cp_part (h p))) /\
  forall p, inner nr nz (fst (cp_cell (h p)) - d0) (snd (cp_cell (h p)) - d1) = false \/ ~ In p (all_ptrs sp) -> h' p = h p.
Proof.
  intros nr nz d0 d1 dr dz ev co D single draw shuffle sp m0 h m h' Sh N E.
  unfold phase in E. destruct (sort_to_cells nr nz d0 d1 h sp (clear nr nz m0)) as [m1| |] eqn:So; try discriminate. cbn [bind] in E.
  destruct (find_last is_el sp) as [e|]; [|discriminate]. destruct (find_last is_ion sp) as [i|]; [|discriminate].
  set (mass := per_kind (sp_mass e) (sp_mass i)) in *. set (mm := random_sort nr nz shuffle m1) in *.
  destruct (collide nr nz d0 dr dz mass (single mass _) draw ev mm h) as [[h1|]| |] eqn:C; try discriminate. cbn [bind] in E. injection E as <- <-.
  assert (Sep : separate nr nz mm) by (exact (round_separate nr nz d0 d1 shuffle Sh sp h m0 m1 N So)).
  destruct (list_frame d0 dr dz ev mass _ _ _ mm h _ _ _ C) as [S1 F1].
  destruct (correct_spec nr nz mass mm h h1 Sep) as (S2 & F2 & P2).
  assert (O : forall p, inner nr nz (fst (cp_cell (h p)) - d0) (snd (cp_cell (h p)) - d1) = false \/ ~ In p (all_ptrs sp) ->
    forall k x y, inner nr nz x y = true -> ~ In p (mm k x y)).
  { intros p H k x y I J. apply (round_in nr nz d0 d1 shuffle Sh sp h m0 m1 So) in J; [|assumption]. destruct H as [H|H].
    - unfold in_cell in J. replace (fst (cp_cell (h p)) - d0) with x in H by lia. replace (snd (cp_cell (h p)) - d1) with y in H by lia. congruence.
    - apply H. apply (Permutation_in p (Permutation_sym (kinds_split sp))). apply in_or_app. destruct k; [left|right]; apply J. }
  assert (O1 : forall p, inner nr nz (fst (cp_cell (h p)) - d0) (snd (cp_cell (h p)) - d1) = false \/ ~ In p (all_ptrs sp) -> h1 p = h p).
  { intros p H. apply F1. intros x y J. assert (I := colliding_inner nr nz d0 dr dz mass mm h x y J). split; now apply O. }
  destruct co.
  - split; [exact (same_trans _ _ _ S1 S2)|]. intros p H. rewrite F2 by (now apply O). now apply O1.
  - split; assumption.
Qed.

(** * C127, continued: no round leaves the lists *)
Section Runs.
Variables (nr nz d0 d1 : Z) (dr dz ev : R) (mass : kind -> R) (D : Type).
Variable single : kind -> kind -> part -> part -> R -> R -> R -> D -> coll.
Variable draw : Z -> Z -> nat -> D.
Variable m : maps.
Lemma same_inside n p : 0 <= n -> In p (pairs_same n) -> inside n n p.
Proof.
  intros H I. destruct (Z_le_gt_dec 2 n) as [G|G]; [now apply C49_inside|]. destruct C49_alone as [A B].
  assert (n = 0 \/ n = 1) as [-> | ->] by lia; [rewrite B in I|rewrite A in I]; destruct I.
Qed.
Lemma cell_pairs_inside els ions x : 0 <= els < 2 ^ 23 -> 0 <= ions < 2 ^ 23 -> In x (cell_pairs els ions) ->
  let n := per_kind els ions in 0 <= snd (fst x) < n (fst (fst x)) /\ 0 <= snd (snd x) < n (fst (snd x)).
Proof.
  intros He Hi I. cbv zeta. unfold cell_pairs in I. cbv zeta in I.
  assert (S : forall k n even, 0 <= n -> In x (if Bool.eqb (n mod 2 =? 0) even then map (fun p : Z * Z => ((k, fst p), (k, snd p))) (pairs_same n) else []) ->
    fst (fst x) = k /\ fst (snd x) = k /\ 0 <= snd (fst x) < n /\ 0 <= snd (snd x) < n).
  { intros k n even Hn J. destruct (Bool.eqb (n mod 2 =? 0) even); [|destruct J]. apply in_map_iff in J. destruct J as (p & <- & J).
    apply same_inside in J; [|assumption]. unfold inside in J. cbn. split; [reflexivity|]. split; [reflexivity|]. lia. }
  repeat (apply in_app_or in I; destruct I as [I|I]; [apply S in I; [|lia]; destruct I as (-> & -> & A & B); cbn; lia|]).
  apply in_map_iff in I. destruct I as (p & <- & I). apply C50_inside in I; assumption.
Qed.
Lemma nth_inside {A} (l : list A) n : 0 <= n < Z.of_nat (List.length l) -> exists a, nth_error l (Z.to_nat n) = Some a.
Proof. intros H. destruct (nth_error l (Z.to_nat n)) as [a|] eqn:E; [now exists a|]. apply nth_error_None in E. lia. Qed.
Lemma pairs_defined i j ne ni db l :
  (forall x, In x l -> 0 <= snd (fst x) < Z.of_nat (List.length (m (fst (fst x)) i j)) /\ 0 <= snd (snd x) < Z.of_nat (List.length (m (fst (snd x)) i j))) ->
  forall n h, collide_pairs single draw m i j ne ni db l n h <> UB /\
  ((forall a b pa pb na nb db d, exists va vb, single a b pa pb na nb db d = Pair (Set_to va) (Set_to vb)) ->
   exists h', collide_pairs single draw m i j ne ni db l n h = Ok (Some h')).
Proof.
  induction l as [|[[ka a] [kb b]] l IH]; intros H n h; cbn [collide_pairs].
  - split; [discriminate|]. intros _. now exists h.
  - destruct (H _ (or_introl eq_refl)) as [A B]. cbn [fst snd] in A, B. cbn [collide_pair].
    destruct (nth_inside _ _ A) as [p ->]. destruct (nth_inside _ _ B) as [q ->]. split.
    + destruct (single _ _ _ _ _ _ _ _) as [|u v]; [discriminate|]. cbn [bind].
      destruct (match apply_update h p u with Some h => apply_update h q v | None => None end) as [h1|]; [|discriminate].
      apply IH. intros x I. apply H. now right.
    + intros T. destruct (T ka kb (cp_part (h p)) (cp_part (h q)) (match ka with El => ne | Ion => ni end) (match kb with El => ne | Ion => ni end) db (draw i j n)) as (va & vb & ->).
      cbn [apply_update bind]. apply IH; [|exact T]. intros x I. apply H. now right.
Qed.
Hypothesis sizes : forall k i j, inner nr nz i j = true -> Z.of_nat (List.length (m k i j)) < 2 ^ 23.
Lemma cell_defined h0 i j h : inner nr nz i j = true -> collide_cell d0 dr dz mass single draw ev m h0 (i, j) h <> UB.
Proof using sizes.
  intros I. unfold collide_cell. unfold CheckModel.debye_length. destruct (rlt 0 _); [|discriminate]. destruct (rlt 0 _); [|discriminate].
  cbn [bind]. apply pairs_defined. intros x J. apply cell_pairs_inside in J.
  - cbv zeta in J. destruct x as [[ka a] [kb b]]. cbn [fst snd] in *. destruct ka, kb; cbn in J; exact J.
  - split; [lia|]. now apply sizes.
  - split; [lia|]. now apply sizes.
Qed.
Lemma list_defined h0 l : (forall i j, In (i, j) l -> inner nr nz i j = true) -> forall h,
  collide_list d0 dr dz mass single draw ev m h0 l h <> UB.
Proof using sizes.
  induction l as [|[i j] l IH]; intros I h; cbn [collide_list]; [discriminate|].
  assert (U := cell_defined h0 i j h (I i j (or_introl eq_refl))).
  destruct (collide_cell d0 dr dz mass single draw ev m h0 (i, j) h) as [[h1|]| |]; cbn [bind]; try discriminate; try congruence.
  apply IH. intros; apply I; now right.
Qed.
Hypothesis total_single : forall a b pa pb na nb db d, exists va vb, single a b pa pb na nb db d = Pair (Set_to va) (Set_to vb).
Hypothesis Hd0 : 0 <= d0.
Hypothesis Hdr : (0 < dr)%R.
Hypothesis Hdz : (0 < dz)%R.
Lemma density_pos h h0 k i j : inner nr nz i j = true -> same_but_velocity h0 h -> (forall p, In p (m k i j) -> 0 < weight (cp_part (h0 p)))%R ->
  amount_tot (parts h0 (m k i j)) <> 0%R -> (0 < density dr dz d0 i (parts h (m k i j)))%R.
Proof using Hd0 Hdr Hdz.
  intros I S W A. unfold density. rewrite (amount_weights _ _ (parts_weights _ _ (m k i j) S)).
  assert (P : (0 <= amount_tot (parts h0 (m k i j)))%R).
  { apply amount_nonneg. apply Forall_forall. intros x X. unfold parts in X. apply in_map_iff in X. destruct X as (p & <- & Ip). now apply W. }
  assert (V : (0 < geometry_cell_volume dr dz d0 i)%R). { apply cell_volume_pos; try assumption. unfold inner in I. lia. }
  apply Rdiv_lt_0_compat; lra.
Qed.
Lemma cell_runs h0 i j h : inner nr nz i j = true -> same_but_velocity h0 h ->
  (forall k p, In p (m k i j) -> 0 < weight (cp_part (h0 p)))%R -> (forall k, amount_tot (parts h0 (m k i j)) <> 0%R) ->
  exists h', collide_cell d0 dr dz mass single draw ev m h0 (i, j) h = Ok (Some h').
Proof using sizes total_single Hd0 Hdr Hdz.
  intros I S W A. unfold collide_cell, CheckModel.debye_length.
  assert (P1 := density_pos h h0 El i j I S (W El) (A El)). assert (P2 := density_pos h h0 Ion i j I S (W Ion) (A Ion)).
  rewrite !rlt_t by assumption. cbn [bind].
  apply pairs_defined; [|exact total_single]. intros x J. apply cell_pairs_inside in J.
  - cbv zeta in J. destruct x as [[ka a] [kb b]]. cbn [fst snd] in *. destruct ka, kb; cbn in J; exact J.
  - split; [lia|]. now apply sizes.
  - split; [lia|]. now apply sizes.
Qed.
Lemma list_runs h0 l : (forall i j, In (i, j) l -> inner nr nz i j = true /\ (forall k p, In p (m k i j) -> 0 < weight (cp_part (h0 p)))%R /\
    forall k, amount_tot (parts h0 (m k i j)) <> 0%R) ->
  forall h, same_but_velocity h0 h -> exists h', collide_list d0 dr dz mass single draw ev m h0 l h = Ok (Some h').
Proof using sizes total_single Hd0 Hdr Hdz.
  induction l as [|[i j] l IH]; intros I h S; cbn [collide_list]; [now exists h|].
  destruct (I i j (or_introl eq_refl)) as (A & B & C). destruct (cell_runs h0 i j h A S B C) as [h1 E]. rewrite E. cbn [bind].
  apply IH; [intros; apply I; now right|]. apply same_trans with h; [assumption|]. exact (proj1 (cell_frame _ _ _ _ _ _ _ _ _ _ _ _ _ _ E)).
Qed.
Lemma colliding_amounts h i j : In (i, j) (colliding nr nz d0 dr dz mass m h) -> forall k, amount_tot (parts h (m k i j)) <> 0%R.
Proof using.
  intros I. assert (J := colliding_inner nr nz d0 dr dz mass m h i j I). unfold colliding in I. unfold inner in J.
  rewrite collide_cells_spec in I by lia. specialize (I j ltac:(lia)). unfold cell_normal, normal_quot, cells in I. cbn [fst snd] in I.
  intros [] E; rewrite E in I; rewrite (req_t _ _ eq_refl) in I; cbn in I; rewrite ?andb_false_r in I; discriminate.
Qed.
End Runs.
Lemma filter_length_le {A} (f : A -> bool) l : (List.length (filter f l) <= List.length l)%nat.
Proof. induction l as [|x l IH]; [reflexivity|]. cbn. destruct (f x); cbn; lia. Qed.
(** whatever the operator does with a pair: a round stays inside of the lists of the cells, as long as the species are
    there and no cell holds 2^23 particles of a kind *)
Theorem C127_no_ub : forall nr nz d0 d1 dr dz ev co (D : Type) (single : (kind -> R) -> (kind -> R) -> kind -> kind -> part -> part -> R -> R -> R -> D -> coll) draw shuffle sp e i m0 h,
  (forall k i j l, Permutation (shuffle k i j l) l) ->
  find_last is_el sp = Some e -> find_last is_ion sp = Some i ->
  (forall p, In p (all_ptrs sp) -> near nr nz d0 d1 h p) ->
  Z.of_nat (List.length (all_ptrs sp)) < 2 ^ 23 ->
  phase nr nz d0 d1 dr dz ev co single draw shuffle sp m0 h <> UB.
Proof.
  intros nr nz d0 d1 dr dz ev co D single draw shuffle sp e i m0 h Sh Fe Fi Nr Sz. unfold phase.
  destruct (sort_total nr nz d0 d1 h sp (clear nr nz m0) Nr) as [m1 So]. rewrite So. cbn [bind]. rewrite Fe, Fi.
  set (mm := random_sort nr nz shuffle m1). set (mass := per_kind (sp_mass e) (sp_mass i)).
  assert (Sizes : forall k x y, inner nr nz x y = true -> Z.of_nat (List.length (mm k x y)) < 2 ^ 23).
  { intros k x y I. unfold mm. rewrite (Permutation_length (round_list nr nz d0 d1 shuffle Sh sp h m0 m1 So k x y I)).
    assert (A := filter_length_le (in_cell d0 d1 h x y) (ptrs_of k sp)). assert (B := Permutation_length (kinds_split sp)).
    rewrite app_length in B. destruct k; lia. }
  assert (U := list_defined nr nz d0 dr dz ev mass D (single mass (per_kind (sp_charge e) (sp_charge i))) draw mm Sizes h (colliding nr nz d0 dr dz mass mm h)
    (colliding_inner nr nz d0 dr dz mass mm h) h).
  fold (collide nr nz d0 dr dz mass (single mass (per_kind (sp_charge e) (sp_charge i))) draw ev mm h) in U.
  destruct (collide nr nz d0 dr dz mass _ draw ev mm h) as [[h1|]| |]; cbn [bind]; congruence.
Qed.
(** TA77S ends with numbers for every velocity *)
Theorem C127_runs : forall nr nz d0 d1 dr dz ev co draw shuffle sp e i m0 h,
  (forall k i j l, Permutation (shuffle k i j l) l) ->
  find_last is_el sp = Some e -> find_last is_ion sp = Some i ->
  (forall p, In p (all_ptrs sp) -> near nr nz d0 d1 h p /\ 0 < weight (cp_part (h p)))%R ->
  Z.of_nat (List.length (all_ptrs sp)) < 2 ^ 23 -> 0 <= d0 -> (0 < dr)%R -> (0 < dz)%R ->
  exists m h', phase nr nz d0 d1 dr dz ev co ta77 draw shuffle sp m0 h = Ok (Some (m, h')).
Proof.
  intros nr nz d0 d1 dr dz ev co draw shuffle sp e i m0 h Sh Fe Fi Nr Sz Hd0 Hdr Hdz. unfold phase.
  destruct (sort_total nr nz d0 d1 h sp (clear nr nz m0) (fun p I => proj1 (Nr p I))) as [m1 So]. rewrite So. cbn [bind]. rewrite Fe, Fi.
  set (mm := random_sort nr nz shuffle m1). set (mass := per_kind (sp_mass e) (sp_mass i)).
  assert (Sizes : forall k x y, inner nr nz x y = true -> Z.of_nat (List.length (mm k x y)) < 2 ^ 23).
  { intros k x y I. unfold mm. rewrite (Permutation_length (round_list nr nz d0 d1 shuffle Sh sp h m0 m1 So k x y I)).
    assert (A := filter_length_le (in_cell d0 d1 h x y) (ptrs_of k sp)). assert (B := Permutation_length (kinds_split sp)).
    rewrite app_length in B. destruct k; lia. }
  destruct (list_runs nr nz d0 dr dz ev mass (R * R * R)%type (ta77 mass (per_kind (sp_charge e) (sp_charge i))) draw mm Sizes) with (h0 := h) (l := colliding nr nz d0 dr dz mass mm h) (h := h)
    as [h1 C]; try assumption.
  - intros a b pa pb na nb db [[de ph] z]. unfold ta77. destruct (ta77_single _ _ _ _ _ _ _) as [va vb]. now exists va, vb.
  - intros x y J. assert (I := colliding_inner nr nz d0 dr dz mass mm h x y J). split; [exact I|]. split.
    + intros k p Ip. apply Nr. apply (round_in nr nz d0 d1 shuffle Sh sp h m0 m1 So) in Ip; [|exact I].
      apply (Permutation_in p (Permutation_sym (kinds_split sp))). apply in_or_app. destruct k; [left|right]; apply Ip.
    + exact (colliding_amounts nr nz d0 dr dz mass mm h x y J).
  - apply same_refl.
  - fold (collide nr nz d0 dr dz mass (ta77 mass (per_kind (sp_charge e) (sp_charge i))) draw ev mm h) in C. rewrite C. cbn [bind]. eexists. eexists. reflexivity.
Qed.

(** * Examples and refutations *)
(** a draw of zero does not deflect *)
Lemma delta_none u phi : ta77_delta u 0 1 phi = zero3.
Proof.
  unfold ta77_delta, zero3. cbv zeta. destruct (req _ 0); f_equal; unfold Rdiv; ring.
Qed.
Lemma theta_none w : sin_theta 0 = 0%R /\ cos_theta 0 = 1%R /\ sin_theta2 w 0 = 0%R /\ cos_theta2 w 0 = 1%R.
Proof.
  assert (S : sin_theta 0 = 0%R) by (unfold sin_theta; field). assert (C : cos_theta 0 = 1%R) by (unfold cos_theta; field).
  split; [exact S|]. split; [exact C|]. unfold sin_theta2, cos_theta2. cbv zeta. rewrite S, C. split; [|ring].
  replace (w * (0 * 0) + w * (1 - w) * ((1 - 1) * (1 - 1)))%R with 0%R by ring. rewrite sqrt_0. rewrite rlt_f by lra. reflexivity.
Qed.
Lemma sorted_none ma mb w va vb phi dz : ta77_sorted ma mb w va vb 0 phi dz = (va, vb).
Proof.
  unfold ta77_sorted. destruct (req _ 0); [reflexivity|]. cbv zeta. destruct (theta_none w) as (-> & -> & -> & ->). rewrite !delta_none.
  unfold vadd, vscale, zero3. destruct va, vb. cbn. f_equal; f_equal; ring.
Qed.
Lemma single_none ma mb pa pb phi dz : ta77_single ma mb pa pb 0 phi dz = (velocity pa, velocity pb).
Proof. unfold ta77_single. cbv zeta. destruct (rlt 1 _); now rewrite sorted_none. Qed.

(** one cell: particles 0 and 1 fly along r against each other, 2 and 3 along phi *)
Definition four : heap := fun p =>
  match p with
  | O => CPart (0, 0) (Part 1 (V3 1 0 0))
  | 1%nat => CPart (0, 0) (Part 2 (V3 (-1) 0 0))
  | 2%nat => CPart (0, 0) (Part 2 (V3 0 1 0))
  | _ => CPart (0, 0) (Part 2 (V3 0 (-1) 0))
  end.
(** the second pair of the cell (particles 0 and 1) is deflected *)
Definition draws (i j : Z) (n : nat) : R * R * R := match n with 1%nat => (1 / 2, 0, 1)%R | _ => (0, 0, 0)%R end.
Definition keep_order (k : kind) (i j : Z) (l : list nat) : list nat := l.
Definition nothing : maps := fun _ _ _ => [].
(** two species *)
Definition plasma : list specie := [Specie "Electrons" 1 (-1) [0; 1]%nat; Specie "ions" 1 1 [2; 3]%nat].
(** the same particles, but the second one is a proton beam, say, twice as heavy *)
Definition with_beam : list specie := [Specie "Electrons" 1 (-1) [0]%nat; Specie "beam" 2 1 [1]%nat; Specie "ions" 1 1 [2; 3]%nat].

Lemma deflected : ta77_single 1 1 (Part 1 (V3 1 0 0)) (Part 2 (V3 (-1) 0 0)) (1 / 2) 0 1 = (V3 (3 / 5) 0 (4 / 5), V3 (-6 / 5) 0 (3 / 5))%R.
Proof.
  unfold ta77_single. cbn [weight velocity]. cbv zeta. rewrite rlt_f by lra. unfold ta77_sorted, vsub. cbn [vx vy vz].
  replace ((1 - -1) * (1 - -1) + (0 - 0) * (0 - 0) + (0 - 0) * (0 - 0))%R with (2 * 2)%R by ring. rewrite sqrt_square by lra. rewrite req_f by lra. cbv zeta.
  assert (S : sin_theta (1 / 2) = (4 / 5)%R) by (unfold sin_theta; field). assert (C : cos_theta (1 / 2) = (3 / 5)%R) by (unfold cos_theta; field).
  assert (C2 : cos_theta2 (1 / 2) (1 / 2) = (4 / 5)%R) by (unfold cos_theta2; rewrite C; field).
  assert (S2 : sin_theta2 (1 / 2) (1 / 2) = (3 / 5)%R).
  { unfold sin_theta2. cbv zeta. rewrite S, C.
    replace (1 / 2 * (4 / 5 * (4 / 5)) + 1 / 2 * (1 - 1 / 2) * ((1 - 3 / 5) * (1 - 3 / 5)))%R with (3 / 5 * (3 / 5))%R by field. rewrite sqrt_square by lra.
    rewrite rlt_f by lra. reflexivity. }
  rewrite S, C, C2, S2. replace (0 + 2 * PI * (1 - sqrt (1 / 2)) * (1 - 1))%R with 0%R by ring.
  unfold ta77_delta. cbn [vx vy vz]. cbv zeta.
  replace ((1 - -1) * (1 - -1) + (0 - 0) * (0 - 0) + (0 - 0) * (0 - 0))%R with (2 * 2)%R by ring.
  replace ((1 - -1) * (1 - -1) + (0 - 0) * (0 - 0))%R with (2 * 2)%R by ring. rewrite sqrt_square by lra. rewrite req_f by lra.
  rewrite cos_0, sin_0. unfold vadd, vscale. cbn [vx vy vz]. f_equal; f_equal; field.
Qed.
Section Four.
Variable m : maps.
Hypothesis els : m El 0 0 = [0; 1]%nat.
Hypothesis ions : m Ion 0 0 = [2; 3]%nat.
Variable charge : kind -> R.
Let mass := per_kind 1%R 1%R.
Lemma four_colliding : colliding 1 1 0 1 1 mass m four = [(0, 0)].
Proof using els ions.
  unfold colliding, collide_cells. change (Z.to_nat 1) with 1%nat. cbn [seq flat_map collide_row app]. change (Z.of_nat 0) with 0.
  rewrite cell_normal_t; try (cbn; lra); try lia; [reflexivity| | | |].
  1: split; [unfold cells; cbn [fst]; rewrite ions; discriminate|unfold cells; cbn [fst]; rewrite ions; repeat constructor; cbn; lra].
  1: split; [unfold cells; cbn [snd]; rewrite els; discriminate|unfold cells; cbn [snd]; rewrite els; repeat constructor; cbn; lra].
  1: exists (Part 2 (V3 0 1 0)); unfold cells; cbn [fst]; rewrite ions; split; [now left|cbn; intros E; injection E; lra].
  1: exists (Part 1 (V3 1 0 0)); unfold cells; cbn [snd]; rewrite els; split; [now left|cbn; intros E; injection E; lra].
Qed.
Lemma four_collide : exists h1, collide 1 1 0 1 1 mass (ta77 mass charge) draws 1 m four = Ok (Some h1) /\
  cp_part (h1 0%nat) = Part 1 (V3 (3 / 5) 0 (4 / 5)) /\ cp_part (h1 1%nat) = Part 2 (V3 (-6 / 5) 0 (3 / 5)) /\
  cp_part (h1 2%nat) = cp_part (four 2%nat) /\ cp_part (h1 3%nat) = cp_part (four 3%nat).
Proof using els ions.
  unfold collide. rewrite four_colliding. cbn [collide_list]. unfold collide_cell.
  assert (I : inner 1 1 0 0 = true) by reflexivity.
  assert (P : forall k, (0 < density 1 1 0%Z 0%Z (parts four (m k 0%Z 0%Z)))%R).
  { intros k. apply (density_pos 1 1 0 1 1 m) with four; try lra; try lia; try assumption; [apply same_refl| |].
    - intros p _. destruct p as [|[|[|p]]]; cbn; lra.
    - destruct k; [rewrite els|rewrite ions]; cbn; lra. }
  unfold CheckModel.debye_length. rewrite !rlt_t by apply P. cbn [bind]. generalize (density 1 1 0 0 (parts four (m El 0 0))). generalize (density 1 1 0 0 (parts four (m Ion 0 0))).
  intros ni ne. set (db := if _ || _ then _ else _). clearbody db. rewrite els, ions. cbn [List.length].
  change (cell_pairs (Z.of_nat 2) (Z.of_nat 2)) with [((Ion, 0), (Ion, 1)); ((El, 0), (El, 1)); ((El, 0), (Ion, 0)); ((El, 1), (Ion, 1))].
  assert (St : forall x n h, collide_pair (ta77 mass charge) m 0 0 ne ni db x (draws 0 0 n) h =
    let '((ka, a), (kb, b)) := x in
    match nth_error (m ka 0 0) (Z.to_nat a), nth_error (m kb 0 0) (Z.to_nat b) with
    | Some p, Some q => let '(va, vb) := ta77_single 1 1 (cp_part (h p)) (cp_part (h q)) (fst (fst (draws 0 0 n))) (snd (fst (draws 0 0 n))) (snd (draws 0 0 n)) in
        Ok (Some (set_velocity (set_velocity h p va) q vb))
    | _, _ => UB end).
  { intros [[ka a] [kb b]] n h. cbn [collide_pair]. destruct (nth_error (m ka 0 0) (Z.to_nat a)) as [p|]; [|reflexivity].
    destruct (nth_error (m kb 0 0) (Z.to_nat b)) as [q|]; [|reflexivity]. unfold ta77, mass.
    assert (Mk : forall k, per_kind 1%R 1%R k = 1%R) by (intros []; reflexivity). rewrite !Mk. destruct (draws 0 0 n) as [[x y] z]. cbn [fst snd].
    destruct (ta77_single 1 1 (cp_part (h p)) (cp_part (h q)) x y z). reflexivity. }
  cbn [collide_pairs]. rewrite St. cbv iota beta. rewrite ions. change (Z.to_nat 0) with 0%nat. change (Z.to_nat 1) with 1%nat. cbn [nth_error]. change (draws 0 0 0) with (0, 0, 0)%R. cbn [fst snd].
  rewrite single_none. cbn [bind]. rewrite St. cbv iota beta. rewrite els. change (Z.to_nat 0) with 0%nat. change (Z.to_nat 1) with 1%nat. cbn [nth_error]. change (draws 0 0 1) with (1 / 2, 0, 1)%R. cbn [fst snd].
  set (ha := set_velocity (set_velocity four 2 _) 3 _).
  replace (cp_part (ha 0%nat)) with (Part 1 (V3 1 0 0)) by reflexivity. replace (cp_part (ha 1%nat)) with (Part 2 (V3 (-1) 0 0)) by reflexivity.
  rewrite deflected. cbn [bind]. rewrite St. cbv iota beta. rewrite els, ions. change (Z.to_nat 0) with 0%nat. cbn [nth_error]. change (draws 0 0 2) with (0, 0, 0)%R. cbn [fst snd].
  rewrite single_none. cbn [bind]. rewrite St. cbv iota beta. rewrite els, ions. change (Z.to_nat 1) with 1%nat. cbn [nth_error]. change (draws 0 0 3) with (0, 0, 0)%R. cbn [fst snd].
  rewrite single_none. cbn [bind]. eexists. split; [reflexivity|]. repeat split.
Qed.
End Four.
Lemma sorted_plasma : exists m1, sort_to_cells 1 1 0 0 four plasma (clear 1 1 nothing) = Ok m1 /\ m1 El 0 0 = [0; 1]%nat /\ m1 Ion 0 0 = [2; 3]%nat.
Proof. eexists. split; [reflexivity|]. split; reflexivity. Qed.
Lemma sorted_beam : exists m1, sort_to_cells 1 1 0 0 four with_beam (clear 1 1 nothing) = Ok m1 /\ m1 El 0 0 = [0; 1]%nat /\ m1 Ion 0 0 = [2; 3]%nat.
Proof. eexists. split; [reflexivity|]. split; reflexivity. Qed.
Lemma keep_permutes : forall k i j l, Permutation (keep_order k i j l) l.
Proof. intros. apply Permutation_refl. Qed.
Lemma inner_one x y : inner 1 1 x y = true -> x = 0 /\ y = 0.
Proof. unfold inner. lia. Qed.
Lemma mean_of mk l : mean_velocity mk l = vscale (/ (mk * amount_tot l)) (moment_tot mk l).
Proof. reflexivity. Qed.
Section Corrected.
Variables (m : maps) (h1 : heap).
Hypothesis els : m El 0 0 = [0; 1]%nat.
Hypothesis ions : m Ion 0 0 = [2; 3]%nat.
Hypothesis sep : separate 1 1 m.
Hypothesis H0 : cp_part (h1 0%nat) = Part 1 (V3 (3 / 5) 0 (4 / 5)).
Hypothesis H1 : cp_part (h1 1%nat) = Part 2 (V3 (-6 / 5) 0 (3 / 5)).
Hypothesis H2 : cp_part (h1 2%nat) = cp_part (four 2%nat).
Hypothesis H3 : cp_part (h1 3%nat) = cp_part (four 3%nat).
Let h' := correct 1 1 (per_kind 1%R 1%R) m four h1.
Lemma warm_els : thermal 1 (parts four [0; 1]%nat) <> 0%R /\ thermal 1 (parts h1 [0; 1]%nat) <> 0%R.
Proof using H0 H1.
  unfold thermal, parts. cbn [map]. rewrite H0, H1, !mean_of. cbn. unfold vscale, vadd, vsub, len2. cbn. lra.
Qed.
Lemma warm_ions : thermal 1 (parts four [2; 3]%nat) <> 0%R /\ thermal 1 (parts h1 [2; 3]%nat) <> 0%R.
Proof using H2 H3.
  unfold thermal, parts. cbn [map]. rewrite H2, H3, !mean_of. cbn. unfold vscale, vadd, vsub, len2. cbn. lra.
Qed.
(** the relative velocity of particles 0 and 1 has turned *)
Lemma four_turned : vz (velocity (cp_part (h' 0%nat))) <> vz (velocity (cp_part (h' 1%nat))).
Proof using els sep H0 H1.
  destruct warm_els as [T0 T1].
  destruct (correct_spec 1 1 (per_kind 1%R 1%R) m four h1 sep) as (_ & _ & P). specialize (P El 0 0 eq_refl). rewrite els in P.
  fold h' in P. unfold fixed_list in P. cbv zeta in P. unfold correct_velocities in P. cbv zeta in P.
  cbn [per_kind] in P. rewrite req_f in P by (cbn; lra).
  assert (M0 : total_mass 1 (parts four [0; 1]%nat) = (amount_tot (parts four [0; 1]%nat) * 1)%R) by (unfold total_mass; ring).
  rewrite <- M0 in P. assert (Q0 : total_mass 1 (parts four [0; 1]%nat) <> 0%R) by (cbn; unfold total_mass; cbn; lra).
  assert (Q1 : total_mass 1 (parts h1 [0; 1]%nat) <> 0%R) by (unfold total_mass, parts; cbn [map]; rewrite H0, H1; cbn; lra).
  rewrite normal_quot_t in P.
  - set (al := sqrt _) in P. assert (Al : al <> 0%R).
    { unfold al. match goal with |- sqrt (if req ?x 0 then 1%R else ?x) <> 0%R => set (z := x) end.
      destruct (req z 0) eqn:Z; [rewrite sqrt_1; lra|]. apply req_false in Z. intros S0. apply Z.
      assert (P0 : (0 <= z)%R). { unfold z. destruct (rlt _ 0) eqn:L; [apply rlt_true in L; lra|apply rlt_false in L; exact L]. }
      now apply sqrt_eq_0. }
    clearbody al. unfold parts at 1 in P. cbn [map] in P. unfold parts at 1 in P. cbn [map] in P. injection P as P0 P1. rewrite P0, P1, H0, H1.
    cbn [velocity]. unfold vadd, vscale, vsub. cbn [vx vy vz]. intros E. apply Al. lra.
  - intros Z. apply T0. rewrite thermal_eq by exact Q0. unfold mean_velocity. lra.
  - intros Z. apply T1. rewrite thermal_eq by exact Q1. revert Z. unfold mean_velocity, total_mass, parts. cbn [map]. rewrite H0, H1.
    cbn. unfold len2, vadd, vscale, vsub. cbn. lra.
Qed.
(** the momentum that the code believes in is conserved *)
Lemma four_kept k : moment_tot 1 (parts h' (m k 0 0)) = moment_tot 1 (parts four (m k 0 0)).
Proof using els ions sep H0 H1 H2 H3.
  destruct (correct_spec 1 1 (per_kind 1%R 1%R) m four h1 sep) as (_ & _ & P). specialize (P k 0 0 eq_refl). fold h' in P. rewrite P.
  unfold fixed_list. cbv zeta. replace (per_kind 1%R 1%R k) with 1%R by (now destruct k). apply fixed_conserves; [lra| | |].
  - destruct k; [rewrite els|rewrite ions]; repeat constructor; cbn; lra.
  - destruct k; [rewrite els|rewrite ions]; unfold parts; cbn [map]; rewrite ?H0, ?H1, ?H2, ?H3; reflexivity.
  - right. left. destruct k; [rewrite els; exact warm_els|rewrite ions; exact warm_ions].
Qed.
End Corrected.
(** the round of [plasma] meets the hypotheses of C128_partial, and it changes velocities *)
Example C128_ex : exists m h', phase 1 1 0 0 1 1 1 true ta77 draws keep_order plasma nothing four = Ok (Some (m, h')) /\
  NoDup (all_ptrs plasma) /\ (forall p, In p (all_ptrs plasma) -> 0 < weight (cp_part (four p)))%R /\
  (forall s, In s plasma -> sp_mass s = if is_ion s then 1%R else 1%R) /\
  find_last is_el plasma = Some (Specie "Electrons" 1 (-1) [0; 1]%nat) /\ find_last is_ion plasma = Some (Specie "ions" 1 1 [2; 3]%nat) /\
  (let mass := per_kind 1%R 1%R in
   forall h1, collide 1 1 0 1 1 mass (ta77 mass (per_kind (-1)%R 1%R)) draws 1 m four = Ok (Some h1) ->
   forall k x y, inner 1 1 x y = true ->
   restored (mass k) (In (x, y) (colliding 1 1 0 1 1 mass m four)) (parts four (m k x y)) (parts h1 (m k x y))) /\
  vz (velocity (cp_part (h' 0%nat))) <> vz (velocity (cp_part (h' 1%nat))).
Proof.
  destruct sorted_plasma as (m1 & So & Le & Li). set (m := random_sort 1 1 keep_order m1).
  assert (Me : m El 0 0 = [0; 1]%nat) by exact Le. assert (Mi : m Ion 0 0 = [2; 3]%nat) by exact Li.
  destruct (four_collide m Me Mi (per_kind (-1)%R 1%R)) as (h1 & C & H0 & H1 & H2 & H3).
  assert (N : NoDup (all_ptrs plasma)) by (cbn; repeat constructor; cbn; intuition lia).
  exists m, (correct 1 1 (per_kind 1%R 1%R) m four h1).
  assert (We := warm_els h1 H0 H1). assert (Wi := warm_ions h1 H2 H3).
  split; [|split; [exact N|split; [|split; [|split; [reflexivity|split; [reflexivity|split]]]]]].
  - unfold phase. rewrite So. cbn [bind]. change (find_last is_el plasma) with (Some (Specie "Electrons" 1 (-1) [0; 1]%nat)).
    change (find_last is_ion plasma) with (Some (Specie "ions" 1 1 [2; 3]%nat)). cbn [sp_mass sp_charge]. fold m. rewrite C. reflexivity.
  - intros p _. destruct p as [|[|[|p]]]; cbn; lra.
  - intros s [<-|[<-|[]]]; reflexivity.
  - cbv zeta. intros h2 C2 k x y I. rewrite C in C2. injection C2 as <-. destruct (inner_one x y I) as [-> ->]. right. left.
    destruct k; [rewrite Me|rewrite Mi]; assumption.
  - apply four_turned; try assumption. exact (round_separate 1 1 0 0 keep_order keep_permutes plasma four nothing m1 N So).
Qed.
(** every species that is not called ions counts as electrons: with a beam of heavier particles the round conserves the sums
    taken with the mass of the electrons, not the momentum *)
Theorem C128_beam_refuted : exists m h', phase 1 1 0 0 1 1 1 true ta77 draws keep_order with_beam nothing four = Ok (Some (m, h')) /\
  momentum h' with_beam <> momentum four with_beam.
Proof.
  destruct sorted_beam as (m1 & So & Le & Li). set (m := random_sort 1 1 keep_order m1).
  assert (Me : m El 0 0 = [0; 1]%nat) by exact Le. assert (Mi : m Ion 0 0 = [2; 3]%nat) by exact Li.
  destruct (four_collide m Me Mi (per_kind (-1)%R 1%R)) as (h1 & C & H0 & H1 & H2 & H3).
  assert (N : NoDup (all_ptrs with_beam)) by (cbn; repeat constructor; cbn; intuition lia).
  assert (Sep : separate 1 1 m) by (exact (round_separate 1 1 0 0 keep_order keep_permutes with_beam four nothing m1 N So)).
  exists m, (correct 1 1 (per_kind 1%R 1%R) m four h1). split.
  - unfold phase. rewrite So. cbn [bind]. change (find_last is_el with_beam) with (Some (Specie "Electrons" 1 (-1) [0]%nat)).
    change (find_last is_ion with_beam) with (Some (Specie "ions" 1 1 [2; 3]%nat)). cbn [sp_mass sp_charge]. fold m. rewrite C. reflexivity.
  - assert (T := four_turned m h1 Me Sep H0 H1). assert (K := four_kept m h1 Me Mi Sep H0 H1 H2 H3).
    destruct (correct_spec 1 1 (per_kind 1%R 1%R) m four h1 Sep) as (S2 & _ & _).
    set (h' := correct 1 1 (per_kind 1%R 1%R) m four h1) in *. assert (Ke := K El). assert (Ki := K Ion). rewrite Me in Ke. rewrite Mi in Ki.
    rewrite !moment_sums in Ke, Ki. injection Ke as _ _ Ke. injection Ki as _ _ Ki. unfold sum_over in Ke, Ki. cbn [fold_right] in Ke, Ki.
    intros E. injection E as _ _ E. unfold total in E. cbn [with_beam fold_right sp_mass sp_ptrs] in E.
    assert (W : forall p, weight (cp_part (h' p)) = weight (cp_part (h1 p))) by (intros p; apply S2).
    rewrite !W, H0, H1, H2, H3 in *. cbn [four cp_part weight velocity vx vy vz] in *. lra.
Qed.
(** a cell with one electron and one ion: both change their velocities, and nothing is corrected *)
Definition two : heap := fun p =>
  match p with O => CPart (0, 0) (Part 1 (V3 1 0 0)) | _ => CPart (0, 0) (Part 2 (V3 (-1) 0 0)) end.
Definition pair_of : list specie := [Specie "electrons" 1 (-1) [0]%nat; Specie "ions" 1 1 [1]%nat].
Theorem C128_cold_refuted : exists m h', phase 1 1 0 0 1 1 1 true ta77 (fun _ _ _ => (1 / 2, 0, 1)%R) keep_order pair_of nothing two = Ok (Some (m, h')) /\
  momentum h' pair_of <> momentum two pair_of.
Proof.
  assert (So : exists m1, sort_to_cells 1 1 0 0 two pair_of (clear 1 1 nothing) = Ok m1 /\ m1 El 0 0 = [0]%nat /\ m1 Ion 0 0 = [1]%nat)
    by (eexists; split; [reflexivity|split; reflexivity]).
  destruct So as (m1 & So & Le & Li). set (m := random_sort 1 1 keep_order m1).
  assert (Me : m El 0 0 = [0]%nat) by exact Le. assert (Mi : m Ion 0 0 = [1]%nat) by exact Li.
  assert (N : NoDup (all_ptrs pair_of)) by (cbn; repeat constructor; cbn; intuition lia).
  assert (Sep : separate 1 1 m) by (exact (round_separate 1 1 0 0 keep_order keep_permutes pair_of two nothing m1 N So)).
  set (mass := per_kind 1%R 1%R).
  assert (Co : colliding 1 1 0 1 1 mass m two = [(0, 0)]).
  { unfold colliding, collide_cells. change (Z.to_nat 1) with 1%nat. cbn [seq flat_map collide_row app]. change (Z.of_nat 0) with 0.
    rewrite cell_normal_t; try (cbn; lra); try lia; [reflexivity| | | |]; unfold cells; cbn [fst snd]; rewrite ?Me, ?Mi.
    1,2: split; [discriminate|repeat constructor; cbn; lra].
    1: exists (Part 2 (V3 (-1) 0 0)). 2: exists (Part 1 (V3 1 0 0)). all: split; [now left|cbn; intros E; injection E; lra]. }
  set (h1 := set_velocity (set_velocity two 0 (V3 (3 / 5) 0 (4 / 5))) 1 (V3 (-6 / 5) 0 (3 / 5))).
  assert (C : collide 1 1 0 1 1 mass (ta77 mass (per_kind (-1)%R 1%R)) (fun _ _ _ => (1 / 2, 0, 1)%R) 1 m two = Ok (Some h1)).
  { unfold collide. rewrite Co. cbn [collide_list]. unfold collide_cell.
    assert (P : forall k, (0 < density 1 1 0%Z 0%Z (parts two (m k 0%Z 0%Z)))%R).
    { intros k. apply (density_pos 1 1 0 1 1 m) with two; try lra; try lia; try reflexivity; [apply same_refl| |].
      - intros p _. destruct p as [|p]; cbn; lra.
      - destruct k; [rewrite Me|rewrite Mi]; cbn; lra. }
    unfold CheckModel.debye_length. rewrite !rlt_t by apply P. cbn [bind]. rewrite Me, Mi. cbn [List.length].
    change (cell_pairs (Z.of_nat 1) (Z.of_nat 1)) with [((El, 0), (Ion, 0))]. cbn [collide_pairs collide_pair]. rewrite Me, Mi.
    change (Z.to_nat 0) with 0%nat. cbn [nth_error]. unfold ta77, mass. cbn [per_kind]. cbn [two cp_part]. rewrite deflected. reflexivity. }
  exists m, (correct 1 1 mass m two h1). split.
  - unfold phase. rewrite So. cbn [bind]. change (find_last is_el pair_of) with (Some (Specie "electrons" 1 (-1) [0]%nat)).
    change (find_last is_ion pair_of) with (Some (Specie "ions" 1 1 [1]%nat)). cbn [sp_mass sp_charge]. fold m. fold mass. rewrite C. reflexivity.
  - destruct (correct_spec 1 1 mass m two h1 Sep) as (_ & _ & P).
    assert (F : forall k, parts (correct 1 1 mass m two h1) (m k 0 0) = parts h1 (m k 0 0)).
    { intros k. rewrite (P k 0 0 eq_refl). unfold fixed_list. cbv zeta. replace (mass k) with 1%R by (now destruct k).
      apply C52_cold_refuted; [lra| | | |]; destruct k; rewrite ?Me, ?Mi; try discriminate; try reflexivity; try (repeat constructor; cbn; lra).
      - unfold thermal. rewrite mean_of. cbn. unfold vscale, vadd, vsub, len2. cbn. lra.
      - unfold thermal. rewrite mean_of. cbn. unfold vscale, vadd, vsub, len2. cbn. lra. }
    assert (Fe := F El). assert (Fi := F Ion). rewrite Me in Fe. rewrite Mi in Fi. unfold parts in Fe, Fi. cbn [map] in Fe, Fi.
    injection Fe as Fe. injection Fi as Fi. intros E. injection E as _ _ E. unfold total in E. cbn [pair_of fold_right sp_mass sp_ptrs] in E.
    rewrite Fe, Fi in E. cbn [two h1 set_velocity Nat.eqb cp_part weight velocity vx vy vz] in E. lra.
Qed.
(** the lists of [with_beam]; a particle two cells off is accepted, three cells off it is not *)
Example C127_ex : (exists m, sort_to_cells 1 1 0 0 four with_beam (clear 1 1 nothing) = Ok m /\ m El 0 0 = [0; 1]%nat /\ m Ion 0 0 = [2; 3]%nat) /\
  NoDup (all_ptrs with_beam) /\ (forall p, In p (all_ptrs with_beam) -> near 1 1 0 0 four p) /\
  sort_to_cells 1 1 3 0 four with_beam (clear 1 1 nothing) = UB.
Proof.
  split; [exact sorted_beam|]. split; [cbn; repeat constructor; cbn; intuition lia|]. split; [|reflexivity].
  intros p _. unfold near. destruct p as [|[|[|p]]]; cbn; lia.
Qed.

Print Assumptions C127_lists.
Print Assumptions C127_once.
Print Assumptions C127_defined.
Print Assumptions C127_stale_refuted.
Print Assumptions C127_unread.
Print Assumptions C127_names_refuted.
Print Assumptions C127_no_ub.
Print Assumptions C127_runs.
Print Assumptions C128_partial.
Print Assumptions C128_velocities.
Print Assumptions C128_beam_refuted.
Print Assumptions C128_cold_refuted.
