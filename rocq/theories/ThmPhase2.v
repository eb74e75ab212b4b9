(** C129: a round of collisions with the relativistic operators SK98 and P12. *)
From Coq Require Import Reals Lra String Permutation.
From Verif Require Import Base PushModel CollModel CollOpModel CollPhaseModel CollPhaseProofs.
From Verif Require Import ThmPush ThmColl ThmColl2 CollOpProofs ThmColl3 ThmPhase.
From Verif Require CheckModel.
Open Scope Z_scope.

(** ** Specification *)
(** relativistic momentum and energy (over c) of all particles of all species, with their weights *)
Definition rel_momentum (c : R) (h : heap) (sp : list specie) : v3 :=
  V3 (total (fun m p => weight p * vx (lab_momentum c m (velocity p)))%R h sp)
     (total (fun m p => weight p * vy (lab_momentum c m (velocity p)))%R h sp)
     (total (fun m p => weight p * vz (lab_momentum c m (velocity p)))%R h sp).
Definition rel_energy (c : R) (h : heap) (sp : list specie) : R :=
  total (fun m p => weight p * lab_energy c m (velocity p))%R h sp.

(** ** Sums when one particle changes *)
Lemma sum_update g g' p l : NoDup l -> (forall q, q <> p -> g' q = g q) ->
  sum_over g' l = (sum_over g l + if in_dec Nat.eq_dec p l then g' p - g p else 0)%R.
Proof.
  intros N E. induction N as [|q l NQ N IH]; [cbn; lra|]. unfold sum_over in *. cbn [fold_right]. rewrite IH. clear IH.
  destruct (Nat.eq_dec q p) as [->|D].
  - destruct (in_dec Nat.eq_dec p l); [contradiction|]. destruct (in_dec Nat.eq_dec p (p :: l)) as [_|X]; [lra|]. exfalso. apply X. now left.
  - rewrite (E q D). destruct (in_dec Nat.eq_dec p l) as [I|I], (in_dec Nat.eq_dec p (q :: l)) as [J|J]; try lra; exfalso.
    + apply J. now right.
    + destruct J; [congruence|contradiction].
Qed.

Section Conserve.
Variables (nr nz d0 d1 : Z) (dr dz ev c : R) (mass : kind -> R) (D : Type).
Variable single : kind -> kind -> part -> part -> R -> R -> R -> D -> coll.
Variable draw : Z -> Z -> nat -> D.
Variables (sp : list specie) (w : R).
Hypothesis distinct : NoDup (all_ptrs sp).
(** what the operator does with a pair of particles of weight [w] *)
Hypothesis pair_ok : forall a b pa pb na nb db i j n, subluminal c (velocity pa) -> subluminal c (velocity pb) ->
  weight pa = w -> weight pb = w ->
  let r := single a b pa pb na nb db (draw i j n) in
  r = Pair Keep Keep \/
  (exists va' vb', r = Pair (Set_to va') (Set_to vb') /\ conserved c (mass a) (mass b) (velocity pa) (velocity pb) va' vb' /\
                   subluminal c va' /\ subluminal c vb') \/
  r = Pair SetNaN SetNaN.

Definition slow (h : heap) : Prop := forall p, In p (all_ptrs sp) -> subluminal c (velocity (cp_part (h p))) /\ weight (cp_part (h p)) = w.
Definition sums (f : R -> part -> R) (h : heap) : R :=
  (sum_over (fun p => f (mass El) (cp_part (h p))) (ptrs_of El sp) + sum_over (fun p => f (mass Ion) (cp_part (h p))) (ptrs_of Ion sp))%R.
(** momentum and energy are the same *)
Definition same_sums (h h' : heap) : Prop :=
  sums (fun m p => weight p * vx (lab_momentum c m (velocity p)))%R h' = sums (fun m p => weight p * vx (lab_momentum c m (velocity p)))%R h /\
  sums (fun m p => weight p * vy (lab_momentum c m (velocity p)))%R h' = sums (fun m p => weight p * vy (lab_momentum c m (velocity p)))%R h /\
  sums (fun m p => weight p * vz (lab_momentum c m (velocity p)))%R h' = sums (fun m p => weight p * vz (lab_momentum c m (velocity p)))%R h /\
  sums (fun m p => weight p * lab_energy c m (velocity p))%R h' = sums (fun m p => weight p * lab_energy c m (velocity p))%R h.
Lemma same_sums_refl h : same_sums h h.
Proof. now repeat split. Qed.
Lemma same_sums_trans a b d : same_sums a b -> same_sums b d -> same_sums a d.
Proof. unfold same_sums. intros (? & ? & ? & ?) (? & ? & ? & ?). repeat split; congruence. Qed.
Lemma in_all k p : In p (ptrs_of k sp) -> In p (all_ptrs sp).
Proof. intros I. apply (Permutation_in p (Permutation_sym (kinds_split sp))). apply in_or_app. destruct k; auto. Qed.
Lemma sums_update f h k p v : In p (ptrs_of k sp) ->
  sums f (set_velocity h p v) = (sums f h + (f (mass k) (Part (weight (cp_part (h p))) v) - f (mass k) (cp_part (h p))))%R.
Proof using distinct.
  intros I. destruct (kinds_nodup sp distinct) as [NK DK]. unfold sums.
  rewrite (sum_update (fun p => f (mass El) (cp_part (h p))) _ p (ptrs_of El sp) (NK El)) by (intros q Q; now rewrite set_other).
  rewrite (sum_update (fun p => f (mass Ion) (cp_part (h p))) _ p (ptrs_of Ion sp) (NK Ion)) by (intros q Q; now rewrite set_other).
  rewrite set_here.
  destruct (in_dec Nat.eq_dec p (ptrs_of El sp)) as [A|A], (in_dec Nat.eq_dec p (ptrs_of Ion sp)) as [B|B].
  - discriminate (DK _ _ p A B).
  - destruct k; [lra|contradiction].
  - destruct k; [contradiction|lra].
  - destruct k; contradiction.
Qed.
Lemma pair_sums h k p k' q va vb : In p (ptrs_of k sp) -> In q (ptrs_of k' sp) -> p <> q ->
  weight (cp_part (h p)) = w -> weight (cp_part (h q)) = w ->
  conserved c (mass k) (mass k') (velocity (cp_part (h p))) (velocity (cp_part (h q))) va vb ->
  same_sums h (set_velocity (set_velocity h p va) q vb).
Proof using distinct.
  intros I J N Wp Wq [C1 C2]. assert (X := f_equal vx C1). assert (Y := f_equal vy C1). assert (Z := f_equal vz C1).
  unfold vadd in X, Y, Z. cbn [vx vy vz] in X, Y, Z. unfold same_sums.
  rewrite !(sums_update _ _ k' q vb J), !(sums_update _ _ k p va I). rewrite (set_other h p va q) by auto. cbn [weight velocity].
  rewrite Wp, Wq. repeat split.
  - replace (vx (lab_momentum c (mass k) va)) with (vx (lab_momentum c (mass k) (velocity (cp_part (h p)))) + vx (lab_momentum c (mass k') (velocity (cp_part (h q)))) - vx (lab_momentum c (mass k') vb))%R by lra. ring.
  - replace (vy (lab_momentum c (mass k) va)) with (vy (lab_momentum c (mass k) (velocity (cp_part (h p)))) + vy (lab_momentum c (mass k') (velocity (cp_part (h q)))) - vy (lab_momentum c (mass k') vb))%R by lra. ring.
  - replace (vz (lab_momentum c (mass k) va)) with (vz (lab_momentum c (mass k) (velocity (cp_part (h p)))) + vz (lab_momentum c (mass k') (velocity (cp_part (h q)))) - vz (lab_momentum c (mass k') vb))%R by lra. ring.
  - replace (lab_energy c (mass k) va) with (lab_energy c (mass k) (velocity (cp_part (h p))) + lab_energy c (mass k') (velocity (cp_part (h q))) - lab_energy c (mass k') vb)%R by lra. ring.
Qed.
Lemma set_slow h p v : slow h -> subluminal c v -> slow (set_velocity h p v).
Proof.
  intros S V q I. unfold set_velocity. destruct (Nat.eqb q p); [|now apply S]. cbn. split; [exact V|]. now apply S.
Qed.

Variable m : maps.
Hypothesis listed : forall k i j p, inner nr nz i j = true -> In p (m k i j) -> In p (ptrs_of k sp).
Hypothesis apart : separate nr nz m.
Lemma cell_pairs_apart els ions x : In x (cell_pairs els ions) -> 0 <= els -> 0 <= ions -> 
  fst (fst x) <> fst (snd x) \/ (fst (fst x) = fst (snd x) /\ 0 <= snd (fst x) /\ 0 <= snd (snd x) /\ snd (fst x) <> snd (snd x)).
Proof using.
  intros I He Hi. unfold cell_pairs in I. cbv zeta in I.
  assert (S : forall k n even, 0 <= n -> In x (if Bool.eqb (n mod 2 =? 0) even then map (fun p : Z * Z => ((k, fst p), (k, snd p))) (pairs_same n) else []) ->
    fst (fst x) = fst (snd x) /\ 0 <= snd (fst x) /\ 0 <= snd (snd x) /\ snd (fst x) <> snd (snd x)).
  { intros k n even Hn J. destruct (Bool.eqb (n mod 2 =? 0) even); [|destruct J]. apply in_map_iff in J. destruct J as (p & <- & J).
    destruct (Z_le_gt_dec 2 n) as [G|G].
    - apply C49_inside in J; [|assumption]. unfold inside in J. cbn. intuition lia.
    - destruct C49_alone as [A B]. assert (n = 0 \/ n = 1) as [-> | ->] by lia; [rewrite B in J|rewrite A in J]; destruct J. }
  repeat (apply in_app_or in I; destruct I as [I|I]; [right; apply S in I; assumption|]).
  left. apply in_map_iff in I. destruct I as (p & <- & I). cbn. discriminate.
Qed.
(** one pair: not fatal, and if there are numbers, momentum and energy are kept *)
Lemma pair_conserves i j ne ni db ka a kb b n h : inner nr nz i j = true -> slow h ->
  ka <> kb \/ (ka = kb /\ 0 <= a /\ 0 <= b /\ a <> b) ->
  match collide_pair single m i j ne ni db ((ka, a), (kb, b)) (draw i j n) h with
  | Ok (Some h') => slow h' /\ same_sums h h'
  | Ok None => True | Fatal => False | UB => True end.
Proof using distinct pair_ok listed apart.
  intros I S X. cbn [collide_pair].
  destruct (nth_error (m ka i j) (Z.to_nat a)) as [p|] eqn:Ep; [|exact Logic.I].
  destruct (nth_error (m kb i j) (Z.to_nat b)) as [q|] eqn:Eq; [|exact Logic.I].
  assert (Ip := nth_error_In _ _ Ep). assert (Iq := nth_error_In _ _ Eq).
  assert (Lp := listed ka i j p I Ip). assert (Lq := listed kb i j q I Iq).
  assert (N : p <> q).
  { intros <-. destruct apart as [NL SD]. destruct X as [X|(-> & A & B & X)].
    - destruct (SD ka i j kb i j p I I Ip Iq). contradiction.
    - assert (E : Z.to_nat a = Z.to_nat b); [|lia]. apply (proj1 (NoDup_nth_error (m kb i j)) (NL kb i j I)).
      + apply nth_error_Some. congruence.
      + congruence. }
  destruct (S p (in_all ka p Lp)) as [Sp Wp]. destruct (S q (in_all kb q Lq)) as [Sq Wq].
  destruct (pair_ok ka kb (cp_part (h p)) (cp_part (h q)) (match ka with El => ne | Ion => ni end) (match kb with El => ne | Ion => ni end) db i j n Sp Sq Wp Wq)
    as [E|[(va & vb & E & C & Sa & Sb)|E]]; cbv zeta in E; rewrite E; cbn [apply_update].
  - split; [exact S|apply same_sums_refl].
  - split; [now apply set_slow; [apply set_slow|]|]. now apply pair_sums with ka kb.
  - exact Logic.I.
Qed.
Lemma pairs_conserve i j ne ni db l : inner nr nz i j = true ->
  (forall x, In x l -> fst (fst x) <> fst (snd x) \/ (fst (fst x) = fst (snd x) /\ 0 <= snd (fst x) /\ 0 <= snd (snd x) /\ snd (fst x) <> snd (snd x))) ->
  forall n h, slow h ->
  match collide_pairs single draw m i j ne ni db l n h with
  | Ok (Some h') => slow h' /\ same_sums h h'
  | Ok None => True | Fatal => False | UB => True end.
Proof using distinct pair_ok listed apart.
  intros I. induction l as [|[[ka a] [kb b]] l IH]; intros X n h S; cbn [collide_pairs].
  - split; [exact S|apply same_sums_refl].
  - assert (P := pair_conserves i j ne ni db ka a kb b n h I S (X _ (or_introl eq_refl))).
    destruct (collide_pair single m i j ne ni db (ka, a, (kb, b)) (draw i j n) h) as [[h1|]| |]; cbn [bind]; try exact P; try exact Logic.I.
    destruct P as [S1 E1]. specialize (IH (fun x J => X x (or_intror J)) (Datatypes.S n) h1 S1).
    destruct (collide_pairs _ _ _ _ _ _ _ _ _ _ _) as [[h2|]| |]; auto. destruct IH as [S2 E2]. split; [exact S2|]. now apply same_sums_trans with h1.
Qed.
Lemma cell_conserves h0 i j h : inner nr nz i j = true -> slow h -> 
  (forall k, 0 < density dr dz d0 i (parts h (m k i j)))%R ->
  match collide_cell d0 dr dz mass single draw ev m h0 (i, j) h with
  | Ok (Some h') => slow h' /\ same_sums h h'
  | Ok None => True | Fatal => False | UB => True end.
Proof using distinct pair_ok listed apart.
  intros I S P. unfold collide_cell, CheckModel.debye_length. rewrite !rlt_t by apply P. cbn [bind].
  apply pairs_conserve; [exact I| |exact S]. intros x J. eapply cell_pairs_apart; [exact J|lia|lia].
Qed.
Hypothesis Hd0 : 0 <= d0.
Hypothesis Hdr : (0 < dr)%R.
Hypothesis Hdz : (0 < dz)%R.
Hypothesis Hw : (0 < w)%R.
Lemma list_conserves h0 l : (forall i j, In (i, j) l -> inner nr nz i j = true /\ forall k, amount_tot (parts h0 (m k i j)) <> 0%R) -> slow h0 ->
  forall h, slow h -> same_but_velocity h0 h ->
  match collide_list d0 dr dz mass single draw ev m h0 l h with
  | Ok (Some h') => slow h' /\ same_sums h h'
  | Ok None => True | Fatal => False | UB => True end.
Proof using distinct pair_ok listed apart Hd0 Hdr Hdz Hw.
  induction l as [|[i j] l IH]; intros X S0 h S E; cbn [collide_list].
  - split; [exact S|apply same_sums_refl].
  - destruct (X i j (or_introl eq_refl)) as [I A].
    assert (P : forall k, (0 < density dr dz d0 i (parts h (m k i j)))%R).
    { intros k. apply (density_pos nr nz d0 dr dz m Hd0 Hdr Hdz h h0 k i j I E); [|apply A].
      intros p Ip. destruct (S0 p (in_all k p (listed k i j p I Ip))) as [_ ->]. exact Hw. }
    assert (C := cell_conserves h0 i j h I S P). assert (F := cell_frame d0 dr dz ev mass D single draw m h0 i j h).
    destruct (collide_cell d0 dr dz mass single draw ev m h0 (i, j) h) as [[h1|]| |]; cbn [bind]; try exact C; try exact Logic.I.
    destruct C as [S1 E1]. destruct (F h1 eq_refl) as [F1 _].
    specialize (IH (fun i' j' J => X i' j' (or_intror J)) S0 h1 S1 (same_trans _ _ _ E F1)).
    destruct (collide_list _ _ _ _ _ _ _ _ _ _ _) as [[h2|]| |]; auto. destruct IH as [S2 E2]. split; [exact S2|]. now apply same_sums_trans with h1.
Qed.
End Conserve.

(** ** The theorems *)
Section Theorem129.
Variables (nr nz d0 d1 : Z) (dr dz ev c : R) (D : Type).
Variable single : (kind -> R) -> (kind -> R) -> kind -> kind -> part -> part -> R -> R -> R -> D -> coll.
Variable draw : Z -> Z -> nat -> D.
Variable shuffle : kind -> Z -> Z -> list nat -> list nat.
Hypothesis shuffles : forall k i j l, Permutation (shuffle k i j l) l.
Variables (sp : list specie) (e i : specie) (h : heap) (w : R).
Hypothesis distinct : NoDup (all_ptrs sp).
Hypothesis electrons : find_last is_el sp = Some e.
Hypothesis ions : find_last is_ion sp = Some i.
Hypothesis Hd0 : 0 <= d0.
Hypothesis Hdr : (0 < dr)%R.
Hypothesis Hdz : (0 < dz)%R.
Hypothesis Hw : (0 < w)%R.
Hypothesis particles : forall p, In p (all_ptrs sp) -> subluminal c (velocity (cp_part (h p))) /\ weight (cp_part (h p)) = w.
Hypothesis pair_ok : forall a b pa pb na nb db x y n, subluminal c (velocity pa) -> subluminal c (velocity pb) ->
  weight pa = w -> weight pb = w ->
  let mass := per_kind (sp_mass e) (sp_mass i) in
  let r := single mass (per_kind (sp_charge e) (sp_charge i)) a b pa pb na nb db (draw x y n) in
  r = Pair Keep Keep \/
  (exists va' vb', r = Pair (Set_to va') (Set_to vb') /\ conserved c (mass a) (mass b) (velocity pa) (velocity pb) va' vb' /\
                   subluminal c va' /\ subluminal c vb') \/
  r = Pair SetNaN SetNaN.
Lemma round_conserves m0 :
  match phase nr nz d0 d1 dr dz ev false single draw shuffle sp m0 h with
  | Ok (Some (m, h')) =>
    (forall p, In p (all_ptrs sp) -> subluminal c (velocity (cp_part (h' p)))) /\
    ((forall s, In s sp -> sp_mass s = if is_ion s then sp_mass i else sp_mass e) ->
     rel_momentum c h' sp = rel_momentum c h sp /\ rel_energy c h' sp = rel_energy c h sp)
  | Ok None => True | Fatal => False | UB => True end.
Proof using shuffles distinct electrons ions Hd0 Hdr Hdz Hw particles pair_ok.
  unfold phase. assert (Dd := sort_died nr nz d0 d1 h sp (clear nr nz m0)).
  destruct (sort_to_cells nr nz d0 d1 h sp (clear nr nz m0)) as [m1| |] eqn:So; cbn [bind]; [|congruence|exact I].
  rewrite electrons, ions. set (mass := per_kind (sp_mass e) (sp_mass i)). set (m := random_sort nr nz shuffle m1).
  assert (L : forall k x y p, inner nr nz x y = true -> In p (m k x y) -> In p (ptrs_of k sp)).
  { intros k x y p J Ip. exact (proj1 (proj1 (round_in nr nz d0 d1 shuffle shuffles sp h m0 m1 So k x y p J) Ip)). }
  assert (Sep : separate nr nz m) by (exact (round_separate nr nz d0 d1 shuffle shuffles sp h m0 m1 distinct So)).
  assert (X := list_conserves nr nz d0 dr dz ev c mass D (single mass (per_kind (sp_charge e) (sp_charge i))) draw sp w distinct pair_ok m L Sep Hd0 Hdr Hdz Hw h
    (colliding nr nz d0 dr dz mass m h)
    (fun x y J => conj (colliding_inner nr nz d0 dr dz mass m h x y J) (colliding_amounts nr nz d0 dr dz mass m h x y J)) particles h particles (same_refl h)).
  fold (collide nr nz d0 dr dz mass (single mass (per_kind (sp_charge e) (sp_charge i))) draw ev m h) in X.
  destruct (collide nr nz d0 dr dz mass (single mass (per_kind (sp_charge e) (sp_charge i))) draw ev m h) as [[h'|]| |]; cbn [bind]; try exact X.
  destruct X as [S E]. split; [intros p J; apply S, J|]. intros Ms.
  assert (Mm : forall s, In s sp -> sp_mass s = mass (kind_of s)).
  { intros s J. rewrite (Ms s J). unfold kind_of, mass. now destruct (is_ion s). }
  unfold rel_momentum, rel_energy. rewrite !(total_kinds _ _ sp mass Mm). destruct E as (E1 & E2 & E3 & E4). unfold sums in *.
  split; [f_equal; assumption|assumption].
Qed.
End Theorem129.

(** SK98, particles of one weight.  Missing: velocities that are not numbers, see C129_nan_refuted *)
Theorem C129_sk98_partial : forall nr nz d0 d1 dr dz ev c eps0 hbar mnzl step draw shuffle sp e i m0 h w,
  (forall k i j l, Permutation (shuffle k i j l) l) -> NoDup (all_ptrs sp) ->
  find_last is_el sp = Some e -> find_last is_ion sp = Some i -> (0 < sp_mass e)%R -> (0 < sp_mass i)%R ->
  0 <= d0 -> (0 < dr)%R -> (0 < dz)%R -> (0 < w)%R -> (0 < c)%R ->
  (forall p, In p (all_ptrs sp) -> subluminal c (velocity (cp_part (h p))) /\ weight (cp_part (h p)) = w) ->
  let r := phase nr nz d0 d1 dr dz ev false (sk98 c eps0 hbar mnzl step) draw shuffle sp m0 h in
  r <> Fatal /\
  forall m h', r = Ok (Some (m, h')) ->
  (forall p, In p (all_ptrs sp) -> subluminal c (velocity (cp_part (h' p)))) /\
  ((forall s, In s sp -> sp_mass s = if is_ion s then sp_mass i else sp_mass e) ->
   rel_momentum c h' sp = rel_momentum c h sp /\ rel_energy c h' sp = rel_energy c h sp).
Proof.
  intros nr nz d0 d1 dr dz ev c eps0 hbar mnzl step draw shuffle sp e i m0 h w Sh N Fe Fi Me Mi Hd0 Hdr Hdz Hw Hc P r.
  assert (X := round_conserves nr nz d0 d1 dr dz ev c _ (sk98 c eps0 hbar mnzl step) draw shuffle Sh sp e i h w N Fe Fi Hd0 Hdr Hdz Hw P).
  assert (Y : forall a b pa pb na nb db x y n, subluminal c (velocity pa) -> subluminal c (velocity pb) -> weight pa = w -> weight pb = w ->
    let mass := per_kind (sp_mass e) (sp_mass i) in
    let r := sk98 c eps0 hbar mnzl step mass (per_kind (sp_charge e) (sp_charge i)) a b pa pb na nb db (draw x y n) in
    r = Pair Keep Keep \/ (exists va' vb', r = Pair (Set_to va') (Set_to vb') /\ conserved c (mass a) (mass b) (velocity pa) (velocity pb) va' vb' /\
      subluminal c va' /\ subluminal c vb') \/ r = Pair SetNaN SetNaN).
  { intros a b pa pb na nb db x y n Sa Sb _ _. cbv zeta. unfold sk98.
    assert (Mk : forall k, (0 < per_kind (sp_mass e) (sp_mass i) k)%R) by (intros []; assumption).
    destruct (C54_partial c eps0 hbar mnzl step (per_kind (sp_mass e) (sp_mass i) a) (per_kind (sp_mass e) (sp_mass i) b)
      (per_kind (sp_charge e) (sp_charge i) a) (per_kind (sp_charge e) (sp_charge i) b) pa pb na nb db (fst (draw x y n)) (snd (draw x y n)) Hc (Mk a) (Mk b) Sa Sb) as [E|[E|[E _]]]; auto. }
  specialize (X Y m0). fold r in X. destruct r as [[[m h']|]| |]; split; try discriminate; try tauto.
  intros m' h2 E. injection E as <- <-. exact X.
Qed.
(** P12, particles of one weight, at least one, so that both particles of a pair are deflected (C56) *)
Theorem C129_p12_partial : forall nr nz d0 d1 dr dz ev c eps0 hbar mnzl lim step draw shuffle sp e i m0 h w,
  (forall k i j l, Permutation (shuffle k i j l) l) -> NoDup (all_ptrs sp) ->
  find_last is_el sp = Some e -> find_last is_ion sp = Some i -> (0 < sp_mass e)%R -> (0 < sp_mass i)%R ->
  0 <= d0 -> (0 < dr)%R -> (0 < dz)%R -> (1 <= w)%R -> (0 < c)%R -> (forall x y n, snd (draw x y n) < 1)%R ->
  (forall p, In p (all_ptrs sp) -> subluminal c (velocity (cp_part (h p))) /\ weight (cp_part (h p)) = w) ->
  let r := phase nr nz d0 d1 dr dz ev false (p12 c eps0 hbar mnzl lim step) draw shuffle sp m0 h in
  r <> Fatal /\
  forall m h', r = Ok (Some (m, h')) ->
  (forall p, In p (all_ptrs sp) -> subluminal c (velocity (cp_part (h' p)))) /\
  ((forall s, In s sp -> sp_mass s = if is_ion s then sp_mass i else sp_mass e) ->
   rel_momentum c h' sp = rel_momentum c h sp /\ rel_energy c h' sp = rel_energy c h sp).
Proof.
  intros nr nz d0 d1 dr dz ev c eps0 hbar mnzl lim step draw shuffle sp e i m0 h w Sh N Fe Fi Me Mi Hd0 Hdr Hdz Hw Hc Hd P r.
  assert (Hw0 : (0 < w)%R) by lra.
  assert (X := round_conserves nr nz d0 d1 dr dz ev c _ (p12 c eps0 hbar mnzl lim step) draw shuffle Sh sp e i h w N Fe Fi Hd0 Hdr Hdz Hw0 P).
  assert (Y : forall a b pa pb na nb db x y n, subluminal c (velocity pa) -> subluminal c (velocity pb) -> weight pa = w -> weight pb = w ->
    let mass := per_kind (sp_mass e) (sp_mass i) in
    let r := p12 c eps0 hbar mnzl lim step mass (per_kind (sp_charge e) (sp_charge i)) a b pa pb na nb db (draw x y n) in
    r = Pair Keep Keep \/ (exists va' vb', r = Pair (Set_to va') (Set_to vb') /\ conserved c (mass a) (mass b) (velocity pa) (velocity pb) va' vb' /\
      subluminal c va' /\ subluminal c vb') \/ r = Pair SetNaN SetNaN).
  { intros a b pa pb na nb db x y n Sa Sb Wa Wb. cbv zeta. unfold p12. specialize (Hd x y n). destruct (draw x y n) as [[u phi] U]. cbn [snd] in Hd.
    assert (Mk : forall k, (0 < per_kind (sp_mass e) (sp_mass i) k)%R) by (intros []; assumption).
    destruct (C81_partial c eps0 hbar mnzl lim step (per_kind (sp_mass e) (sp_mass i) a) (per_kind (sp_mass e) (sp_mass i) b)
      (per_kind (sp_charge e) (sp_charge i) a) (per_kind (sp_charge e) (sp_charge i) b) pa pb na nb db u phi U Hc (Mk a) (Mk b) Sa Sb) as [E|[E|[E _]]]; auto; lra. }
  specialize (X Y m0). fold r in X. destruct r as [[[m h']|]| |]; split; try discriminate; try tauto.
  intros m' h2 E. injection E as <- <-. exact X.
Qed.

(** ** One electron and one ion *)
Definition duo (pa pb : part) : heap := fun p => match p with O => CPart (0, 0) pa | _ => CPart (0, 0) pb end.
Definition species2 (ma mb : R) : list specie := [Specie "electrons" ma (-1) [0]%nat; Specie "ions" mb 1 [1]%nat].
Lemma energy_one mk p : (0 < mk)%R -> (0 < weight p)%R -> velocity p <> zero3 -> energy_tot mk [p] <> 0%R.
Proof.
  intros Hm Hw N. cbn. assert (L := len2_pos _ N). assert (0 < weight p * mk * len2 (velocity p))%R by (apply Rmult_lt_0_compat; [now apply Rmult_lt_0_compat|assumption]). lra.
Qed.
Lemma duo_round D (single : (kind -> R) -> (kind -> R) -> kind -> kind -> part -> part -> R -> R -> R -> D -> coll) draw pa pb ma mb :
  (0 < ma)%R -> (0 < mb)%R -> (0 < weight pa)%R -> (0 < weight pb)%R -> velocity pa <> zero3 -> velocity pb <> zero3 ->
  exists m na nb db, forall u v,
  single (per_kind ma mb) (per_kind (-1)%R 1%R) El Ion pa pb na nb db (draw 0 0 O) = Pair u v ->
  phase 1 1 0 0 1 1 1 false single draw keep_order (species2 ma mb) nothing (duo pa pb) =
  Ok (option_map (fun h => (m, h)) (match apply_update (duo pa pb) 0 u with Some h => apply_update h 1 v | None => None end)).
Proof.
  intros Ha Hb Wa Wb Na Nb. set (h := duo pa pb).
  assert (So : exists m1, sort_to_cells 1 1 0 0 h (species2 ma mb) (clear 1 1 nothing) = Ok m1 /\ m1 El 0 0 = [0]%nat /\ m1 Ion 0 0 = [1]%nat)
    by (eexists; split; [reflexivity|split; reflexivity]).
  destruct So as (m1 & So & Le & Li). set (m := random_sort 1 1 keep_order m1).
  assert (Me : m El 0 0 = [0]%nat) by exact Le. assert (Mi : m Ion 0 0 = [1]%nat) by exact Li.
  set (mass := per_kind ma mb).
  assert (Co : colliding 1 1 0 1 1 mass m h = [(0, 0)]).
  { unfold colliding, collide_cells. change (Z.to_nat 1) with 1%nat. cbn [seq flat_map collide_row app]. change (Z.of_nat 0) with 0.
    unfold cell_normal, cells. cbn [fst snd]. rewrite Me, Mi. change (parts h [1]%nat) with [pb]. change (parts h [0]%nat) with [pa].
    unfold normal_quot, mass. cbn [per_kind]. assert (Pi := PI_RGT_0).
    assert (V : geometry_cell_volume 1 1 0 0 <> 0%R) by (unfold geometry_cell_volume; lra).
    assert (A1 : amount_tot [pa] <> 0%R) by (cbn; lra). assert (A2 : amount_tot [pb] <> 0%R) by (cbn; lra).
    assert (E1 := energy_one ma pa Ha Wa Na). assert (E2 := energy_one mb pb Hb Wb Nb).
    rewrite !req_f by assumption. reflexivity. }
  assert (P : forall k, (0 < density 1 1 0%Z 0%Z (parts h (m k 0%Z 0%Z)))%R).
  { intros k. apply (density_pos 1 1 0 1 1 m) with h; try lra; try lia; try reflexivity; [apply same_refl| |].
    - intros p _. destruct p as [|p]; assumption.
    - destruct k; [rewrite Me|rewrite Mi]; cbn; lra. }
  exists m, (density 1 1 0%Z 0%Z (parts h (m El 0%Z 0%Z))), (density 1 1 0%Z 0%Z (parts h (m Ion 0%Z 0%Z))).
  assert (Db : exists db, CheckModel.debye_length (density 1 1 0%Z 0%Z (parts h (m El 0%Z 0%Z))) (density 1 1 0%Z 0%Z (parts h (m Ion 0%Z 0%Z)))
    (temperature mass 1 El h (m El 0%Z 0%Z)) (temperature mass 1 Ion h (m Ion 0%Z 0%Z)) = Ok db).
  { unfold CheckModel.debye_length. rewrite !rlt_t by apply P. eexists. reflexivity. }
  destruct Db as [db Db]. exists db. intros u v E.
  unfold phase. rewrite So. cbn [bind]. change (find_last is_el (species2 ma mb)) with (Some (Specie "electrons" ma (-1) [0]%nat)).
  change (find_last is_ion (species2 ma mb)) with (Some (Specie "ions" mb 1 [1]%nat)). cbn [sp_mass sp_charge]. fold m. fold mass.
  unfold collide. rewrite Co. cbn [collide_list]. unfold collide_cell. rewrite Db. cbn [bind]. rewrite Me, Mi. cbn [List.length].
  change (cell_pairs (Z.of_nat 1) (Z.of_nat 1)) with [((El, 0), (Ion, 0))]. cbn [collide_pairs collide_pair]. rewrite Me, Mi.
  change (Z.to_nat 0) with 0%nat. cbn [nth_error]. fold mass in E. rewrite Me, Mi in E.
  change (cp_part (h 0%nat)) with pa. change (cp_part (h 1%nat)) with pb. rewrite E. cbn [bind].
  destruct (apply_update h 0 u) as [h1|]; [|reflexivity]. destruct (apply_update h1 1 v) as [h2|]; reflexivity.
Qed.

(** ** An electron and an ion that meet *)
Section Meet.
Local Open Scope R_scope.
Definition back : v3 := V3 (- (3 / 5)) 0 0.
Lemma back_slow : subluminal 1 back.
Proof. unfold subluminal, len2, back. cbn. lra. Qed.
Lemma gam_back : gam 1 back = 5 / 4.
Proof.
  unfold gam, len2, back. cbn [vx vy vz]. replace (1 - (- (3 / 5) * - (3 / 5) + 0 * 0 + 0 * 0) / (1 * 1)) with (4 / 5 * (4 / 5)) by field.
  rewrite sqrt_square by lra. field.
Qed.
Lemma back_momentum m : lab_momentum 1 m back = V3 (- (3 / 4 * m)) 0 0.
Proof. unfold lab_momentum, mom. rewrite gam_back. unfold vscale, back. cbn. f_equal; field. Qed.
Lemma back_energy : lab_energy 1 2 back = 5 / 2.
Proof. unfold lab_energy. rewrite gam_back. field. Qed.
Lemma meet_beta : cm_velocity 1 1 2 fast back = V3 (- (1 / 5)) 0 0.
Proof. unfold cm_velocity. rewrite ex_momentum_a, back_momentum, ex_energy_a, back_energy. unfold vscale, vadd. cbn. f_equal; field. Qed.
Lemma meet_not_head_on : ~ head_on 1 1 2 fast back.
Proof. unfold head_on. rewrite ex_momentum_a, back_momentum. intros E. apply (f_equal vx) in E. unfold vadd, zero3 in E. cbn in E. lra. Qed.
Lemma meet_beta_nz : len2 (cm_velocity 1 1 2 fast back) <> 0.
Proof. rewrite meet_beta. unfold len2. cbn. lra. Qed.
Lemma meet_factor : 0 < cm_factor 1 1 2 fast back.
Proof. apply cm_factor_pos; try lra; [apply fast_slow|apply back_slow]. Qed.
Lemma meet_cm_momentum : cm_momentum 1 1 2 fast back = V3 (cm_factor 1 1 2 fast back) 0 0.
Proof.
  unfold cm_momentum. rewrite ex_momentum_a, ex_energy_a, meet_beta. set (g := cm_factor 1 1 2 fast back).
  unfold boost, vsub, vadd, vscale, vdot, len2. cbn [vx vy vz]. f_equal; field.
Qed.
Lemma meet_vrel : cm_vrel_val 1 1 2 fast back = 10 / 51.
Proof.
  assert (H1 : 0 < 1) by lra. assert (H2 : 0 < 2) by lra.
  rewrite (cm_vrel_len 1 H1 1 2 fast back H1 H2 fast_slow back_slow).
  rewrite (cm_dot 1 H1 1 2 fast back H1 H2 fast_slow back_slow).
  rewrite (va_cm_len 1 H1 1 2 fast back H1 H2 fast_slow back_slow).
  rewrite (vb_cm_len 1 H1 1 2 fast back H1 H2 fast_slow back_slow).
  rewrite meet_cm_momentum, ex_momentum_a, back_momentum, ex_energy_a, back_energy, meet_beta. assert (G := meet_factor). set (g := cm_factor 1 1 2 fast back) in *.
  clearbody g. unfold vlen, len2, vdot. cbn [vx vy vz].
  replace (g * g + 0 * 0 + 0 * 0) with (g * g) by ring. rewrite sqrt_square by lra.
  field. repeat split; try lra. all: nra.
Qed.
Lemma meet_scatters wa wb na nb debye : 0 < wa -> wa <= wb -> exists p vb',
  sk98_single 1 1 1 (1 / 10 ^ 15) 1 1 2 (-1) 1 (Part wa fast) (Part wb back) na nb debye (fun _ => 1) (PI / 2) = Pair (Set_to (to_velocity 1 1 p)) (Set_to vb') /\ vy p <> 0.
Proof.
  intros W0 W. assert (H1 : 0 < 1) by lra. assert (H2 : 0 < 2) by lra. assert (G := meet_factor).
  unfold sk98_single. cbn [weight velocity]. cbv zeta. rewrite rlt_f. 2: { apply Rmult_le_reg_r with wb; [lra|]. unfold Rdiv. rewrite Rmult_assoc, Rinv_l by lra. lra. }
  unfold sk98_sorted.
  rewrite veqb_f. 2: { intros E. apply (f_equal vx) in E. cbn in E. lra. }
  rewrite to_cm_eq by (try lra; try apply fast_slow; try apply back_slow; apply meet_beta_nz).
  rewrite prel_f by (try lra; try apply fast_slow; try apply back_slow; try apply meet_beta_nz; rewrite meet_vrel; lra).
  rewrite rlt_f by (unfold cm_val; cbn [cm_vrel]; rewrite meet_vrel; lra). cbv zeta.
  rewrite (rlt_t 0). 2: { unfold coulomb_logarithm. eapply Rlt_le_trans; [|apply Rmax_l]. lra. }
  cbn [negb]. unfold sk98_angle. cbv zeta.
  replace (sin_theta 1) with 1 by (unfold sin_theta; field). replace (cos_theta 1) with 0 by (unfold cos_theta; field).
  unfold cm_val. cbn [cm_pa cm_gamma cm_beta cm_p0a cm_p0b cm_vrel].
  rewrite meet_vrel, meet_beta, meet_cm_momentum. set (g := cm_factor 1 1 2 fast back) in *. clearbody g.
  assert (L : sqrt (len2 (V3 (- (1 / 5)) 0 0) * (1 * 1)) = 1 / 5).
  { unfold len2. cbn [vx vy vz]. replace ((- (1 / 5) * - (1 / 5) + 0 * 0 + 0 * 0) * (1 * 1)) with (1 / 5 * (1 / 5)) by ring. apply sqrt_square. lra. }
  rewrite L. rewrite req_f by nra.
  set (th := atan _).
  assert (T : sin th <> 0). { apply sin_atan_nz. unfold Rdiv. rewrite Rmult_1_l. apply Rinv_neq_0_compat. nra. }
  cbn [vx vy]. rewrite req_f by nra. eexists. eexists. split; [reflexivity|].
  unfold unboost, vadd, vscale, vdot. cbn [vx vy vz].
  unfold sk98_delta. cbv zeta. cbn [vx vy vz]. rewrite sin_PI2, cos_PI2. unfold vlen, len2. cbn [vx vy vz].
  replace (g * g + 0 * 0 + 0 * 0) with (g * g) by ring. replace (g * g + 0 * 0) with (g * g) by ring. rewrite sqrt_square by lra.
  intros F. apply T. assert (X : g * sin th = 0) by (rewrite <- F; field; lra).
  apply Rmult_integral in X as [X|X]; [lra|exact X].
Qed.
End Meet.
(** the draws of the examples *)
Definition steady : Z -> Z -> nat -> (R -> R) * R := fun _ _ _ => (fun _ => 1, PI / 2)%R.
Definition meeting (wa wb : R) : heap := duo (Part wa fast) (Part wb back).
Definition meet_round (wa wb : R) := phase 1 1 0 0 1 1 1 false (sk98 1 1 1 (1 / 10 ^ 15) 1) steady keep_order (species2 1 2) nothing (meeting wa wb).
(** momentum of the two of them *)
Lemma duo_momentum h ma mb : rel_momentum 1 h (species2 ma mb) =
  vadd (vscale (weight (cp_part (h O))) (lab_momentum 1 ma (velocity (cp_part (h O))))) (vscale (weight (cp_part (h 1%nat))) (lab_momentum 1 mb (velocity (cp_part (h 1%nat))))).
Proof. unfold rel_momentum, total, species2, lab_momentum, vadd, vscale. cbn. f_equal; ring. Qed.
Lemma meet_result wa wb : (0 < wa <= wb)%R -> exists m va' vb', 
  meet_round wa wb = Ok (Some (m, set_velocity (set_velocity (meeting wa wb) 0 va') 1 vb')) /\
  conserved 1 1 2 fast back va' vb' /\ (vy (lab_momentum 1 1 va') <> 0)%R.
Proof.
  intros W. destruct (duo_round _ (sk98 1 1 1 (1 / 10 ^ 15) 1) steady (Part wa fast) (Part wb back) 1 2) as (m & na & nb & db & H); cbn [weight velocity]; try lra.
  { intros E. apply (f_equal vx) in E. cbn in E. lra. }
  { intros E. apply (f_equal vx) in E. cbn in E. lra. }
  destruct (meet_scatters wa wb na nb db) as (p & vb' & E & Np); try lra.
  exists m, (to_velocity 1 1 p), vb'. split; [|split].
  - unfold meet_round, meeting. rewrite (H _ _ E). reflexivity.
  - destruct (C54_partial 1 1 1 (1 / 10 ^ 15) 1 1 2 (-1) 1 (Part wa fast) (Part wb back) na nb db (fun _ => 1) (PI / 2))%R as [F|[(a & b & F & Co & _)|[F _]]]; try lra;
      try apply fast_slow; try apply back_slow; cbv zeta in *; rewrite E in F; [discriminate| |discriminate].
    injection F as -> ->. exact Co.
  - rewrite to_velocity_momentum by lra. exact Np.
Qed.
(** weights 1 and 2: one round changes the momentum *)
Theorem C129_weights_refuted : exists m h', meet_round 1 2 = Ok (Some (m, h')) /\ rel_momentum 1 h' (species2 1 2) <> rel_momentum 1 (meeting 1 2) (species2 1 2).
Proof.
  destruct (meet_result 1 2) as (m & va' & vb' & E & Co & Ny); [lra|]. exists m. eexists. split; [exact E|]. rewrite !duo_momentum. intros F.
  cbn [set_velocity meeting duo Nat.eqb cp_part weight velocity] in F.
  assert (X := C83_change 1 1 2 1 2 fast back va' vb' Co). unfold macro_momentum in X. 
  change (vadd (vscale 1 (lab_momentum 1 1 va')) (vscale 2 (lab_momentum 1 2 vb')) = vadd (vscale 1 (lab_momentum 1 1 fast)) (vscale 2 (lab_momentum 1 2 back))) in F.
  rewrite F in X. apply (f_equal vy) in X. rewrite ex_momentum_a in X. revert Ny X. unfold vsub, vscale, vadd. cbn [vx vy vz].
  generalize (vy (lab_momentum 1 1 va')). intros. lra.
Qed.
(** opposite momenta: the round ends with velocities that are not numbers *)
Theorem C129_nan_refuted : forall draw w, (0 < w)%R ->
  phase 1 1 0 0 1 1 1 false (sk98 1 1 1 (1 / 10 ^ 15) 1) draw keep_order (species2 1 1) nothing (meeting w w) = Ok None.
Proof.
  intros draw w W.
  destruct (duo_round _ (sk98 1 1 1 (1 / 10 ^ 15) 1) draw (Part w fast) (Part w back) 1 1) as (m & na & nb & db & H); cbn [weight velocity]; try lra.
  { intros E. apply (f_equal vx) in E. cbn in E. lra. }
  { intros E. apply (f_equal vx) in E. cbn in E. lra. }
  unfold meeting. rewrite (H SetNaN SetNaN); [reflexivity|]. unfold sk98.
  apply C54_head_on_refuted; cbn [weight velocity per_kind]; try lra; try apply fast_slow; try apply back_slow.
  - unfold head_on. rewrite ex_momentum_a, back_momentum. unfold vadd, zero3. cbn. f_equal; field.
  - intros E. apply (f_equal vx) in E. cbn in E. lra.
Qed.
(** weights 1 and 1: the velocities change, momentum and energy do not *)
Example C129_ex : exists m h', meet_round 1 1 = Ok (Some (m, h')) /\ velocity (cp_part (h' O)) <> fast /\
  rel_momentum 1 h' (species2 1 2) = rel_momentum 1 (meeting 1 1) (species2 1 2) /\ rel_energy 1 h' (species2 1 2) = rel_energy 1 (meeting 1 1) (species2 1 2).
Proof.
  destruct (meet_result 1 1) as (m & va' & vb' & E & Co & Ny); [lra|]. exists m. eexists. split; [exact E|]. split.
  - cbn [set_velocity meeting duo Nat.eqb cp_part weight velocity]. intros F. change (va' = fast) in F. subst va'. apply Ny. rewrite ex_momentum_a. reflexivity.
  - assert (T := C129_sk98_partial 1 1 0 0 1 1 1 1 1 1 (1 / 10 ^ 15) 1 steady keep_order (species2 1 2) (Specie "electrons" 1 (-1) [0]%nat) (Specie "ions" 2 1 [1]%nat) nothing (meeting 1 1) 1).
    destruct T as [_ T]; try lra; try lia; try reflexivity.
    + repeat constructor; cbn; intuition discriminate.
    + cbn. lra.
    + cbn. lra.
    + intros p [<-|[<-|[]]]; split; try reflexivity; [apply fast_slow|apply back_slow].
    + apply (T m _ E). intros s [<-|[<-|[]]]; reflexivity.
Qed.
Print Assumptions C129_sk98_partial. Print Assumptions C129_p12_partial. Print Assumptions C129_weights_refuted. Print Assumptions C129_nan_refuted. Print Assumptions C129_ex.
