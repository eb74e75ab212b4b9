(** C179: into how many macro-particles a number of real particles is divided does not matter. *)
From Coq Require Import ZifyBool Reals Lra Psatz Permutation.
From Verif Require Import Base RndUtil DecompModel DecompProofs CollectorModel CollectorProofs ListUtil PushModel ParticleModel ParticleProofs StepModel
  ThmInit ThmDecomp ThmStep GridModel GridProofs OverlayModel YeeModel YeeProofs ThmYee ExtModel CurrentModel CurrentProofs ThmCurrent ThmCurrent2
  YeeSmb SmbCurrent RoundModel RoundProofs ThmRound BeamModel FullModel ThmFull ScaleProofs ThmScale ThmSpeed ThmYeeSmb ThmTakesPlace.
From Verif Require FieldMpi.
Open Scope Z_scope.

(** ** specification *)
(** the same macro-particle with another number of real particles *)
Definition weighing (w : R) (q : pt) : pt :=
  mkPt {| pos_r := pos_r (now q); pos_phi := pos_phi (now q); pos_z := pos_z (now q); vel_r := vel_r (now q); vel_phi := vel_phi (now q); vel_z := vel_z (now q);
          p_sin := p_sin (now q); weight := w |} (old_r q) (old_z q).
(** macro-particles of the same place and velocity that together are as many real particles *)
Definition stand_for (q : pt) (qs : list pt) : Prop := exists ws, qs = map (fun w => weighing w q) ws /\ fold_right Rplus 0%R ws = weight (now q).
(** in place of each particle of the one list there are such particles in the other one, in any order *)
Definition refines (l l' : list pt) : Prop := exists qss, Forall2 stand_for l qss /\ Permutation (concat qss) l'.
Definition refines_all (R C : Z) (st st' : smb pt) : Prop := forall i k, 0 <= i < R -> 0 <= k < C ->
  Forall2 (fun s s' => fst s = fst s' /\ refines (snd s) (snd s')) (st i k) (st' i k).
(** the same fields, currents, time, bunches; more particles of less weight *)
Record finer (R C : Z) (u v : full) : Prop := mkFiner
  { finer_particles : refines_all R C (w_p (u_w u)) (w_p (u_w v)); finer_time : u_t v = u_t u; finer_bunches : u_c v = u_c u;
    finer_fields : forall ik, sy 1 1 (w_f (u_w u) ik) (w_f (u_w v) ik); finer_currents : forall ik, sc3 1 1 (w_j (u_w u) ik) (w_j (u_w v) ik) }.

(** ** lists *)
Definition weightless (P : pt -> pt -> Prop) : Prop := forall q q' w, P q q' -> P (weighing w q) (weighing w q').
Lemma weighing_same q : weighing (weight (now q)) q = q.
Proof. destruct q as [[] o1 o2]. reflexivity. Qed.
Lemma stands_itself q : stand_for q [q].
Proof. exists [weight (now q)]. cbn. rewrite weighing_same. split; [reflexivity|lra]. Qed.
Lemma refines_refl l : refines l l.
Proof.
  exists (map (fun q => [q]) l). split; [induction l; constructor; [apply stands_itself|assumption]|]. induction l; [constructor|]. now constructor.
Qed.
Lemma refines_app l1 l1' l2 l2' : refines l1 l1' -> refines l2 l2' -> refines (l1 ++ l2) (l1' ++ l2').
Proof. intros (a & A & P) (b & B & Q). exists (a ++ b). split; [now apply Forall2_app|]. rewrite concat_app. now apply Permutation_app. Qed.
Lemma refines_perm l l' m m' : Permutation l m -> Permutation l' m' -> refines l l' -> refines m m'.
Proof.
  intros P P' (a & A & Q). destruct (Permutation_Forall2 P A) as (b & B & F). exists b. split; [exact F|]. rewrite <- P', <- Q. symmetry.
  clear A Q F. induction B; cbn [concat]; [constructor|now apply Permutation_app_head|rewrite !app_assoc; apply Permutation_app_tail, Permutation_app_comm|etransitivity; eassumption].
Qed.
Lemma filter_perm (f : pt -> bool) l l' : Permutation l l' -> Permutation (filter f l) (filter f l').
Proof. induction 1; cbn; [constructor|destruct (f x); [now constructor|assumption]|destruct (f x), (f y); try constructor; reflexivity|etransitivity; eassumption]. Qed.
Lemma refines_filter (f : pt -> bool) l l' : (forall w q, f (weighing w q) = f q) -> refines l l' -> refines (filter f l) (filter f l').
Proof.
  intros H (a & A & P). apply (refines_perm (filter f l) (filter f (concat a))); [reflexivity|now apply filter_perm|]. clear P l'.
  induction A as [|q qs l a S _ IH]; cbn [filter concat]; [apply refines_refl|]. rewrite filter_app. destruct S as (ws & -> & W).
  assert (E : filter f (map (fun w => weighing w q) ws) = if f q then map (fun w => weighing w q) ws else []).
  { clear W. induction ws as [|w ws IHw]; cbn [map filter]; [now destruct (f q)|]. rewrite H, IHw. now destruct (f q). }
  rewrite E. destruct (f q); [|exact IH]. change (q :: filter f l) with ([q] ++ filter f l). apply refines_app; [|exact IH].
  exists [map (fun w => weighing w q) ws]. split; [constructor; [now exists ws|constructor]|]. cbn [concat]. now rewrite app_nil_r.
Qed.
Lemma refines_step (P : pt -> pt -> Prop) l l' m : weightless P -> (forall q q', P q q' -> weight (now q') = weight (now q)) -> refines l l' -> Forall2 P l m -> exists m', Forall2 P l' m' /\ refines m m'.
Proof.
  intros H Hw (a & A & Q) F.
  assert (X : exists b, Forall2 P (concat a) (concat b) /\ Forall2 stand_for m b).
  { clear Q l'. revert a A. induction F as [|q q' l m Pq _ IH]; intros a A; inversion A; subst; [exists []; split; constructor|].
    destruct (IH _ H4) as (b & B1 & B2). destruct H2 as (ws & -> & W). exists (map (fun w => weighing w q') ws :: b). split.
    - cbn [concat]. apply Forall2_app; [|exact B1]. clear W A. induction ws; constructor; [now apply H|assumption].
    - constructor; [|exact B2]. exists ws. split; [reflexivity|]. now rewrite (Hw _ _ Pq). }
  destruct X as (b & B1 & B2). destruct (Permutation_Forall2 Q B1) as (m' & P' & F'). exists m'. split; [exact F'|]. exists b. auto.
Qed.
(** a sum over the particles in which each counts as often as it weighs *)
Definition weighted (K : pt -> R) (l : list pt) : R := fold_right Rplus 0%R (map (fun q => (weight (now q) * K q)%R) l).
Lemma weighted_app K a b : weighted K (a ++ b) = (weighted K a + weighted K b)%R.
Proof. unfold weighted. induction a; cbn [app map fold_right]; [ring|]. rewrite IHa. ring. Qed.
Lemma refines_weighted K l l' : (forall w q, K (weighing w q) = K q) -> refines l l' -> weighted K l' = weighted K l.
Proof.
  intros H (a & A & P). transitivity (weighted K (concat a)).
  { unfold weighted. clear A. induction P; cbn [map fold_right]; [reflexivity|now rewrite IHP|ring|congruence]. }
  clear P. induction A as [|q qs l a (ws & -> & W) _ IH]; [reflexivity|]. cbn [concat]. rewrite weighted_app, IH. change (q :: l) with ([q] ++ l). rewrite weighted_app. f_equal.
  unfold weighted. cbn [map fold_right]. rewrite <- W, Rplus_0_r. clear W. induction ws as [|w ws IHw]; cbn [map fold_right]; [ring|]. rewrite IHw, H. cbn [weighing now weight]. ring.
Qed.
Lemma refines_from l l' : refines l l' -> forall q', In q' l' -> exists q w, In q l /\ q' = weighing w q.
Proof.
  intros (a & A & P) q' Hq. apply (Permutation_in _ (Permutation_sym P)) in Hq. clear P. induction A as [|q qs l a (ws & -> & _) _ IH]; [destruct Hq|].
  cbn [concat] in Hq. apply in_app_or in Hq as [Hq|Hq]; [apply in_map_iff in Hq as (w & <- & _); exists q, w; split; [now left|reflexivity]|].
  destruct (IH Hq) as (q0 & w & I & E). exists q0, w. split; [now right|exact E].
Qed.

(** ** the deposition *)
(** the accesses are inside of the grids *)
Definition fits_dep (j : grid3 R) (d : dep) : Prop := match d with Inc c i k _ | Put c i k _ =>
  inb (getc c j) (u32 (u32 i + os (getc c j))) (u32 (u32 k + os (getc c j))) = true end.
Fixpoint raw (j : grid3 R) (c : comp) (x y : Z) (ds : list dep) : R :=
  match ds with
  | [] => 0%R
  | Inc c' i k v :: ds' | Put c' i k v :: ds' => ((if ceqb c c' && (x =? u32 (u32 i + os (getc c j))) && (y =? u32 (u32 k + os (getc c j))) then v else 0) + raw j c x y ds')%R
  end.
Definition same_shape (j j' : grid3 R) : Prop := forall c, xr (getc c j') = xr (getc c j) /\ yr (getc c j') = yr (getc c j) /\ xs (getc c j') = xs (getc c j) /\ ys (getc c j') = ys (getc c j) /\ os (getc c j') = os (getc c j).
Lemma shape_fits j j' d : same_shape j j' -> fits_dep j d -> fits_dep j' d.
Proof. intros H F. destruct d as [c i k v|c i k v]; unfold fits_dep, inb in *; destruct (H c) as (-> & -> & _ & _ & ->); exact F. Qed.
Lemma shape_raw j j' c x y ds : same_shape j j' -> raw j' c x y ds = raw j c x y ds.
Proof. intros H. destruct (H c) as (_ & _ & _ & _ & E). induction ds as [|[] ds IH]; cbn [raw]; [reflexivity| |]; now rewrite IH, E. Qed.
Lemma raw_app j c x y a b : raw j c x y (a ++ b) = (raw j c x y a + raw j c x y b)%R.
Proof. induction a as [|[] a IH]; cbn [app raw]; [ring| |]; rewrite IH; ring. Qed.
Lemma inc_one d j : is_inc d -> fits_dep j d -> exists j', do_dep d j = Ok j' /\ same_shape j j' /\ forall c x y, cell (getc c j') x y = (cell (getc c j) x y + raw j c x y [d])%R.
Proof.
  destruct d as [c i k v|]; [|intros []]. intros _ F. unfold fits_dep in F. cbn [do_dep]. unfold rinc, op_assign, rd, wr. rewrite F. cbn [bind].
  eexists. split; [reflexivity|]. split.
  - intros c'. destruct c, c'; cbn [with_c getc c_r c_phi c_z xr yr xs ys os]; auto 8.
  - intros c' x y. cbn [raw]. destruct c, c'; cbn [with_c getc c_r c_phi c_z cell ceqb andb]; try ring; unfold upd; destruct (_ && _) eqn:E; try ring;
      apply andb_prop in E as [E1 E2]; apply Z.eqb_eq in E1, E2; rewrite <- E1, <- E2; ring.
Qed.
Lemma one_fits d j j' : do_dep d j = Ok j' -> fits_dep j d.
Proof.
  destruct d as [c i k v|c i k v]; cbn [do_dep fits_dep]; unfold rinc, rset, set, op_assign, rd, wr; destruct (inb _ _ _); auto; discriminate.
Qed.
Lemma incs_fit ds : Forall is_inc ds -> forall j j', do_deps ds j = Ok j' -> Forall (fits_dep j) ds.
Proof.
  induction 1 as [|d ds D _ IH]; intros j j' E; cbn [do_deps] in E; [constructor|]. destruct (do_dep d j) as [j1| |] eqn:E1; try discriminate. cbn [bind] in E.
  assert (F := one_fits _ _ _ E1). constructor; [exact F|]. destruct (inc_one d j D F) as (j2 & E2 & S & _). rewrite E1 in E2. injection E2 as <-.
  eapply Forall_impl; [|exact (IH _ _ E)]. intros x. apply shape_fits. intros c. destruct (S c) as (A & B & C & G & H). auto.
Qed.
Lemma incs ds : Forall is_inc ds -> forall j, Forall (fits_dep j) ds -> exists j', do_deps ds j = Ok j' /\ same_shape j j' /\ forall c x y, cell (getc c j') x y = (cell (getc c j) x y + raw j c x y ds)%R.
Proof.
  induction 1 as [|d ds D _ IH]; intros j F; cbn [do_deps].
  - exists j. split; [reflexivity|]. split; [intros c; auto|]. intros. cbn. ring.
  - inversion F as [|? ? F1 F2]; subst. destruct (inc_one d j D F1) as (j1 & -> & S1 & V1). cbn [bind].
    destruct (IH j1) as (j' & E & S & V). { eapply Forall_impl; [|exact F2]. intros x. now apply shape_fits. }
    exists j'. split; [exact E|]. split.
    + intros c. destruct (S c) as (A1 & A2 & A3 & A4 & A5), (S1 c) as (B1 & B2 & B3 & B4 & B5). repeat split; congruence.
    + intros c x y. rewrite V, V1, (shape_raw _ _ _ _ _ _ S1). change (d :: ds) with ([d] ++ ds). rewrite raw_app. ring.
Qed.
(** a particle that weighs one *)
Definition unit_of (q : pt) : pt := weighing 1 q.
Lemma zigzag_unit g charge dr dz sid q : Forall2 (sdep (weight (now q)) (weight (now q))) (zigzag g (mover_of charge dr dz sid (unit_of q))) (zigzag g (mover_of charge dr dz sid q)).
Proof. apply (zigzag_sc _ _ 1); [ring|]. unfold smover, mover_of. cbn [unit_of weighing now m_r m_z m_ro m_zo m_cr m_cz m_vphi m_q pos_r pos_z vel_phi weight old_r old_z]. f_equal; ring. Qed.
Lemma raw_times j L c x y ds ds' : Forall2 (sdep L L) ds ds' -> raw j c x y ds' = (L * raw j c x y ds)%R.
Proof.
  induction 1 as [|d d' ds ds' D _ IH]; cbn [raw]; [ring|]. destruct D as [c' i k v v' V|c' i k v v' V]; cbn [raw]; rewrite IH; unfold sv, fac in V; destruct (_ && _ && _); destruct c'; rewrite ?V; ring.
Qed.
Lemma fits_times j L ds ds' : Forall2 (sdep L L) ds ds' -> (Forall (fits_dep j) ds <-> Forall (fits_dep j) ds').
Proof.
  induction 1 as [|d d' ds ds' D _ IH]; [tauto|]. split; intros F; inversion F; subst; constructor; try (now apply IH); destruct D; assumption.
Qed.
Definition share (g : YeeModel.geo) (charge : Z -> R) (dr dz : R) (j : grid3 R) (c : comp) (x y sid : Z) (q : pt) : R := raw j c x y (zigzag g (mover_of charge dr dz sid (unit_of q))).
Lemma raw_list g charge dr dz j c x y sid l : raw j c x y (flat_map (zigzag g) (map (mover_of charge dr dz sid) l)) = weighted (share g charge dr dz j c x y sid) l.
Proof.
  induction l as [|q l IH]; [reflexivity|]. cbn [map flat_map]. rewrite raw_app, IH. change (q :: l) with ([q] ++ l). rewrite weighted_app. f_equal.
  unfold weighted. cbn [map fold_right]. rewrite (raw_times _ _ _ _ _ _ _ (zigzag_unit g charge dr dz sid q)). unfold share. ring.
Qed.
Lemma raw_dom g charge dr dz j c x y d d' : Forall2 (fun s s' => fst s = fst s' /\ refines (snd s) (snd s')) d d' ->
  raw j c x y (flat_map (zigzag g) (movers charge dr dz d')) = raw j c x y (flat_map (zigzag g) (movers charge dr dz d)).
Proof.
  induction 1 as [|s s' d d' [E F] _ IH]; [reflexivity|]. unfold movers in *. cbn [flat_map]. rewrite !flat_map_app, !raw_app, IH, !raw_list, E. f_equal.
  apply refines_weighted; [|exact F]. intros w q. reflexivity.
Qed.
Lemma fits_dom g charge dr dz j d d' : Forall2 (fun s s' => fst s = fst s' /\ refines (snd s) (snd s')) d d' ->
  Forall (fits_dep j) (flat_map (zigzag g) (movers charge dr dz d)) -> Forall (fits_dep j) (flat_map (zigzag g) (movers charge dr dz d')).
Proof.
  induction 1 as [|s s' d d' [E F] _ IH]; [auto|]. unfold movers in *. cbn [flat_map]. rewrite !flat_map_app. intros H. apply Forall_app in H as [H1 H2]. apply Forall_app. split; [|now apply IH].
  apply Forall_flat_map, Forall_forall. intros m Hm. apply in_map_iff in Hm as (q' & <- & Hq). destruct (refines_from _ _ F q' Hq) as (q & w & Iq & ->).
  apply (proj1 (fits_times j _ _ _ (zigzag_unit g charge dr dz (fst s') (weighing w q)))). change (unit_of (weighing w q)) with (unit_of q).
  apply (proj2 (fits_times j _ _ _ (zigzag_unit g charge dr dz (fst s') q))). rewrite <- E. rewrite Forall_flat_map, Forall_forall in H1. apply H1. now apply in_map.
Qed.
Lemma zigzags_inc g ps : Forall is_inc (flat_map (zigzag g) ps).
Proof. apply Forall_flat_map, Forall_forall. intros p _. apply zigzag_inc. Qed.
Lemma sc3_shape j j' : sc3 1 1 j j' -> same_shape j j'.
Proof. intros [[] [] []] c. destruct c; cbn [getc]; auto. Qed.
(** the currents of a domain are the same *)
Lemma zigzag_finer g charge dr dz d d' j j' j1 : Forall2 (fun s s' => fst s = fst s' /\ refines (snd s) (snd s')) d d' -> sc3 1 1 j j' ->
  zigzag_distribution g (movers charge dr dz d) j = Ok j1 -> exists j1', zigzag_distribution g (movers charge dr dz d') j' = Ok j1' /\ sc3 1 1 j1 j1'.
Proof.
  intros F S. unfold zigzag_distribution. assert (S0 := overlay_set3_sc 1 1 j j' S). destruct (overlay_set3 0%R j) as [j0| |]; try discriminate. cbn [bind]. intros E.
  destruct (orel_ok _ _ _ _ S0 eq_refl) as (j0' & -> & S1). cbn [bind].
  assert (V := incs_fit _ (zigzags_inc g _) _ _ E). destruct (incs _ (zigzags_inc g (movers charge dr dz d)) j0 V) as (j2 & E2 & Sh & Va). rewrite E in E2. injection E2 as <-.
  assert (Sh0 := sc3_shape _ _ S1).
  destruct (incs _ (zigzags_inc g (movers charge dr dz d')) j0') as (j1' & E' & Sh' & Va').
  { eapply Forall_impl; [|exact (fits_dom _ _ _ _ _ _ _ F V)]. intros x. now apply shape_fits. }
  exists j1'. split; [exact E'|].
  assert (X : forall c, sc 1 (getc c j1) (getc c j1')).
  { intros c. destruct (Sh c) as (A1 & A2 & A3 & A4 & A5), (Sh' c) as (B1 & B2 & B3 & B4 & B5), (Sh0 c) as (C1 & C2 & C3 & C4 & C5). split; try congruence.
    intros x y. rewrite Va', Va, (shape_raw _ _ _ _ _ _ Sh0), (raw_dom _ _ _ _ _ _ _ _ _ _ F), (sc_cell _ _ _ (sc3_get 1 1 _ _ c S1)). destruct c; cbn [fac]; ring. }
  split; [apply (X Cr)|apply (X Cphi)|apply (X Cz)].
Qed.

(** ** computations: if the first ends, so does the second *)
Definition okrel {A B} (P : A -> B -> Prop) (m : outcome A) (n : outcome B) : Prop := forall a, m = Ok a -> exists b, n = Ok b /\ P a b.
Lemma okrel_bind {A B D E} (P : A -> B -> Prop) (Q : D -> E -> Prop) m n f h : okrel P m n -> (forall a b, P a b -> okrel Q (f a) (h b)) -> okrel Q (bind m f) (bind n h).
Proof. intros H K x. destruct m as [a| |]; try discriminate. destruct (H a eq_refl) as (b & -> & Pb). cbn. apply K, Pb. Qed.
Lemma okrel_for {A B} (P : A -> B -> Prop) lo hi f h : (forall i a b, lo <= i < hi -> P a b -> okrel P (f i a) (h i b)) -> forall a b, P a b -> okrel P (for_to lo hi f a) (for_to lo hi h b).
Proof.
  intros H. unfold for_to. assert (G : forall n i a b, lo <= i -> i + Z.of_nat n <= hi \/ n = O -> P a b -> okrel P (loop n i f a) (loop n i h b)).
  { induction n as [|n IH]; intros i x y L U Hxy; cbn [loop]; [intros z E; injection E as <-; eauto|]. eapply okrel_bind; [apply H; [lia|exact Hxy]|]. intros. apply IH; [lia| |assumption]. destruct n; lia. }
  intros a b Hab. apply G; [lia| |exact Hab]. lia.
Qed.
Lemma each_dom_ok {A B} (P : A -> B -> Prop) R C f f' m m' : (forall p a b, 0 <= fst p < R -> 0 <= snd p < C -> P a b -> okrel P (f p a) (f' p b)) -> sd P m m' -> okrel (sd P) (each_dom R C f m) (each_dom R C f' m').
Proof.
  intros H M. unfold each_dom. apply okrel_for; [|exact M]. intros i a b Hi S. apply okrel_for; [|exact S]. intros j c d Hj S2.
  eapply okrel_bind; [apply H; [exact Hi|exact Hj|apply S2]|]. intros x y Hxy z E. injection E as <-. eexists. split; [reflexivity|]. intros q. now apply updp_rel.
Qed.
Lemma orel_okrel {A B} (P : A -> B -> Prop) m n : orel P m n -> okrel P m n.
Proof. intros H a E. exact (orel_ok _ _ _ _ H E). Qed.

(** ** the flight and the collector *)
Definition rd (d d' : domain pt) : Prop := Forall2 (fun s s' => fst s = fst s' /\ refines (snd s) (snd s')) d d'.
Lemma rd_ids d d' : rd d d' -> map fst d' = map fst d.
Proof. induction 1 as [|s s' d d' [E _] _ IH]; [reflexivity|]. cbn. now rewrite E, IH. Qed.
Definition other_weight (w : R) (p : part) : part :=
  {| pos_r := pos_r p; pos_phi := pos_phi p; pos_z := pos_z p; vel_r := vel_r p; vel_phi := vel_phi p; vel_z := vel_z p; p_sin := p_sin p; weight := w |}.
Lemma advance_weight G dt fuel p w : advance G dt fuel (other_weight w p) = match advance G dt fuel p with Some p' => Some (other_weight w p') | None => None end.
Proof.
  unfold advance, reflect. cbn [back_position ParticleModel.mover other_weight pos_r pos_phi pos_z vel_r vel_phi vel_z]. cbv zeta.
  destruct (refl_loop _ _ _) as [[[[pr pz] vr] vz]|]; reflexivity.
Qed.
Lemma flown_weightless beams h G sid : weightless (flown beams h G sid).
Proof.
  intros q q' w (M & O1 & O2). split; [|split; [exact O1|exact O2]]. destruct (beams sid) as [bn|].
  - change (now (weighing w q')) with (other_weight w (now q')). change (now (weighing w q)) with (other_weight w (now q)). rewrite M.
    unfold beam_reflect. cbn [back_position ParticleModel.mover other_weight pos_r pos_phi pos_z vel_r vel_phi vel_z]. destruct (Rltb _ _ && _); reflexivity.
  - destruct M as (n & M). exists n. intros fuel Hf. change (now (weighing w q')) with (other_weight w (now q')). change (now (weighing w q)) with (other_weight w (now q)).
    now rewrite advance_weight, (M fuel Hf).
Qed.
Lemma kicked_weightless pusher h y x sid : weightless (kicked pusher h y x sid).
Proof. intros q q' w (e & b & v & F & P & ->). exists e, b, v. split; [exact F|]. split; [exact P|reflexivity]. Qed.
Lemma each_finer (P : Z -> pt -> pt -> Prop) d e d' : (forall sid, weightless (P sid)) -> (forall sid q q', P sid q q' -> weight (now q') = weight (now q)) -> rd d e -> each P d d' ->
  exists e', each P e e' /\ rd d' e'.
Proof.
  intros H Hw F. revert d'. induction F as [|s s' d e [E Fs] _ IH]; intros d' K; inversion K as [|? t ? d2 [Et Ft] K2]; subst; [exists []; split; constructor|].
  destruct (IH _ K2) as (e2 & K' & F'). destruct (refines_step (P (fst s)) _ _ _ (H _) (Hw _) Fs Ft) as (l & L1 & L2).
  exists ((fst s', l) :: e2). split; constructor; auto; cbn [fst snd]; (split; [congruence|]); [now rewrite <- E|exact L2].
Qed.
Lemma flat_single {A B} (f : A -> list B) xs x : NoDup xs -> In x xs -> (forall y, In y xs -> y <> x -> f y = []) -> flat_map f xs = f x.
Proof.
  intros N. induction N as [|y xs Ny _ IH]; intros I H; [destruct I|]. cbn [flat_map]. destruct I as [->|I].
  - rewrite <- (app_nil_r (f x)) at 2. f_equal. assert (G : forall z, In z xs -> f z = []) by (intros z Iz; apply H; [now right|intros ->; contradiction]).
    clear - G. induction xs as [|z xs IH]; [reflexivity|]. cbn. rewrite G by now left. apply IH. intros; apply G; now right.
  - rewrite (H y); [|now left|intros ->; contradiction]. apply IH; [exact I|]. intros; apply H; auto. now right.
Qed.
Lemma chosen (d : domain pt) sid l : NoDup (map fst d) -> In (sid, l) d -> flat_map (fun s => if fst s =? sid then snd s else []) d = l.
Proof.
  induction d as [|s d IH]; intros N I; [destruct I|]. cbn [map flat_map] in *. inversion N as [|? ? N1 N2]; subst. destruct I as [->|I].
  - cbn [fst snd]. rewrite Z.eqb_refl, flat_absent by exact N1. apply app_nil_r.
  - replace (fst s =? sid) with false; [now apply IH|]. symmetry. apply Z.eqb_neq. intros E. apply N1. rewrite E. change sid with (fst (sid, l)). now apply in_map.
Qed.
Lemma filter_flat {A B} (f : B -> bool) (h : A -> list B) xs : filter f (flat_map h xs) = flat_map (fun x => filter f (h x)) xs.
Proof. induction xs; [reflexivity|]. cbn. now rewrite filter_app, IHxs. Qed.
Section Collect.
Variable g : YeeModel.geo.
Variables R C s : Z.
Hypothesis HR : 1 <= R.
Hypothesis HC : 1 <= C.
Hypothesis Hs : 4 <= s.
Hypothesis RL : R * s < 2 ^ 31.
Hypothesis CL : C * s < 2 ^ 31.
Let a := {| nr := R * s; nz := C * s; rd_ := R; zd_ := C |}.
Let dr := g_dr g.
Let dz := g_dz g.
Definition at_home (i k : Z) (q : pt) : bool := (i * s <=? pt_cr (g_dr g) q) && (pt_cr (g_dr g) q <? (i + 1) * s) && (k * s <=? pt_cz (g_dz g) q) && (pt_cz (g_dz g) q <? (k + 1) * s).
Lemma home_at i k q : 0 <= i < R -> 0 <= k < C -> home (pt_cr dr) (pt_cz dz) a i k q -> forall i' k', at_home i' k' q = (i' =? i) && (k' =? k).
Proof using HR HC Hs RL CL.
  intros Hi Hk H i' k'. unfold home in H. cbn [nr nz rd_ zd_ a] in H. rewrite !(bound_dom s Hs) in H by lia. unfold at_home. fold dr dz.
  destruct (Z.eq_dec i' i) as [->|Ni], (Z.eq_dec k' k) as [->|Nk]; [lia|nia| |]; assert (i' < i \/ i < i') by lia; nia.
Qed.
Lemma own ids st i k sid l : ids_ok a ids st -> (forall i j s l p, 0 <= i < rd_ a -> 0 <= j < zd_ a -> In (s, l) (st i j) -> In p l -> home (pt_cr dr) (pt_cz dz) a i j p) ->
  0 <= i < R -> 0 <= k < C -> In (sid, l) (st i k) -> filter (at_home i k) (particles_of a sid st) = l.
Proof using HR HC Hs RL CL.
  intros [Nd Io] H Hi Hk I. unfold particles_of. rewrite filter_flat. rewrite (flat_single _ _ (i, k)).
  - cbn [fst snd]. rewrite (chosen _ sid l); [|now rewrite Io|exact I]. 
    assert (X : forall q, In q l -> at_home i k q = true) by (intros q Hq; rewrite (home_at i k q Hi Hk (H i k sid l q Hi Hk I Hq)); lia).
    clear - X. induction l as [|q l IH]; [reflexivity|]. cbn [filter]. rewrite X by now left. f_equal. apply IH. intros; apply X; now right.
  - apply NoDup_pairs.
  - apply In_pairs. cbn [rd_ zd_ a]. lia.
  - intros [i' k'] Ip Ne. apply In_pairs in Ip. cbn [rd_ zd_ a] in Ip. cbn [fst snd].
    assert (X : forall q, In q (flat_map (fun s0 => if fst s0 =? sid then snd s0 else []) (st i' k')) -> at_home i k q = false).
    { intros q Hq. apply in_flat_map in Hq as ([sid' l'] & It & Hq). cbn [fst snd] in Hq. destruct (sid' =? sid); [|destruct Hq].
      rewrite (home_at i' k' q) by (try lia; apply (H i' k' sid' l' q); cbn [rd_ zd_ a]; auto; lia).
      destruct (Z.eq_dec i i'), (Z.eq_dec k k'); try lia. exfalso. apply Ne. congruence. }
    revert X. generalize (flat_map (fun s0 : Z * list pt => if fst s0 =? sid then snd s0 else []) (st i' k')). induction l0 as [|q l0 IH]; intros X; [reflexivity|]. cbn [filter].
    rewrite X by now left. apply IH. intros; apply X; now right.
Qed.
Lemma refines_species st st' sid : refines_all R C st st' -> refines (particles_of a sid st) (particles_of a sid st').
Proof using.
  intros H. unfold particles_of. cbn [rd_ zd_ a]. assert (X : forall p, In p (pairs R C) -> 0 <= fst p < R /\ 0 <= snd p < C) by (intros [i k] Ip; now apply In_pairs in Ip).
  revert X. generalize (pairs R C). induction l as [|[i k] l IH]; intros X; [apply refines_refl|]. cbn [flat_map]. apply refines_app; [|apply IH; intros; apply X; now right].
  destruct (X (i, k) (or_introl eq_refl)) as [Hi Hk]. cbn [fst snd] in *. assert (D := H i k Hi Hk). induction D as [|t t' d d' [E F] _ IHd]; [apply refines_refl|]. cbn [flat_map].
  apply refines_app; [|exact IHd]. rewrite <- E. destruct (_ =? _); [exact F|apply refines_refl].
Qed.
Lemma collect_finer ids p1 p1' st' : ids_ok a ids p1 -> refines_all R C p1 p1' -> collect pt (pt_cr dr) (pt_cz dz) a (code_order a) p1 = Ok st' ->
  exists st2, collect pt (pt_cr dr) (pt_cz dz) a (code_order a) p1' = Ok st2 /\ ids_ok a ids st' /\ refines_all R C st' st2.
Proof using HR HC Hs RL CL.
  intros Io F E. assert (Io' : ids_ok a ids p1').
  { destruct Io as [N I]. split; [exact N|]. intros i k Hi Hk. rewrite (rd_ids _ _ (F i k Hi Hk)). now apply I. }
  assert (Ga : good_area a) by (unfold good_area, sane, a; cbn [nr nz rd_ zd_]; repeat split; try nia; [exists s|exists s]; ring).
  destruct (C08_collector_conserves pt pt_eq_dec (pt_cr dr) (pt_cz dz) a ids p1 Ga (pt_int g) Io) as (s1 & E1 & I1 & P1 & H1). rewrite E in E1. injection E1 as <-.
  destruct (C08_collector_conserves pt pt_eq_dec (pt_cr dr) (pt_cz dz) a ids p1' Ga (pt_int g) Io') as (s2 & E2 & I2 & P2 & H2).
  exists s2. split; [exact E2|]. split; [exact I1|]. intros i k Hi Hk.
  assert (X : forall sid l l', In (sid, l) (st' i k) -> In (sid, l') (s2 i k) -> refines l l').
  { intros sid l l' A B. rewrite <- (own ids st' i k sid l I1 H1 Hi Hk A), <- (own ids s2 i k sid l' I2 H2 Hi Hk B). apply refines_filter; [reflexivity|].
    apply (refines_perm _ _ _ _ (Permutation_sym (P1 sid)) (Permutation_sym (P2 sid))). apply refines_filter; [reflexivity|]. now apply refines_species. }
  assert (Y : map fst (st' i k) = map fst (s2 i k)) by (rewrite (proj2 I1 i k Hi Hk), (proj2 I2 i k Hi Hk); reflexivity).
  revert X Y. generalize (s2 i k). generalize (st' i k). induction d as [|[x l] d IH]; intros [|[x' l'] d'] X Y; try discriminate; constructor.
  - cbn in Y |- *. injection Y as -> _. split; [reflexivity|]. apply (X x'); now left.
  - apply IH; [|now injection Y]. intros sid m m' A B. apply (X sid); now right.
Qed.
End Collect.

(** ** the round *)
(** collisions that treat the finer particles as the others *)
Definition fair (impulse : Z -> Z -> domain pt -> domain pt -> Prop) : Prop := forall i k d e d', rd d e -> impulse i k d d' -> exists e', impulse i k e e' /\ rd d' e'.
Lemma vscale_1 v : vscale 1 v = v.
Proof. destruct v. unfold vscale. cbn. f_equal; ring. Qed.
Lemma sc_refl f : sc 1 f f.
Proof. split; auto. intros. ring. Qed.
Lemma sy_refl y : sy 1 1 y y.
Proof. split; split; apply sc_refl. Qed.
Section Round.
Variable pusher : Z -> v3 -> v3 -> v3 -> outcome v3.
Variable charge : Z -> R.
Variable mu : R.
Variable beams : Z -> option (beam * R).
Variable extern : option (doms yee).
Variable impulse : Z -> Z -> domain pt -> domain pt -> Prop.
Hypothesis Im : velocities_only impulse.
Hypothesis Fa : fair impulse.
Variable draw : nat -> Z -> Z -> Z -> nat -> R * R.
Variable g : YeeModel.geo.
Variables R C s : Z.
Hypothesis HR : 1 <= R.
Hypothesis HC : 1 <= C.
Hypothesis Hs : 4 <= s.
Hypothesis RL : R * s < 2 ^ 31.
Hypothesis CL : C * s < 2 ^ 31.
Variables eps sg : doms (grid Rdefinitions.R).
Let a := {| nr := R * s; nz := C * s; rd_ := R; zd_ := C |}.
Let run := full_round pusher charge zigzag_distribution mu beams extern impulse draw g R C s eps sg.
Lemma flown_weight h G sid q q' : flown beams h G sid q q' -> weight (now q') = weight (now q).
Proof using. intros H. apply (flown_remembers beams) in H. apply H. Qed.
Lemma domain_finer h G y y' x i k d e d' : sy 1 1 y y' -> rd d e -> advance_domain pusher beams impulse h G y x i k d d' ->
  exists e', advance_domain pusher beams impulse h G y' x i k e e' /\ rd d' e'.
Proof using Fa.
  intros Sy F (d1 & d2 & K & Co & Fl).
  assert (K0 : each (kicked pusher h y' x) d d1).
  { revert K. apply ThmScale.each_impl. intros sid q q'. apply (kicked_sc 1); [intros; now rewrite !vscale_1|exact Sy|]. destruct x as [x|]; [apply sy_refl|exact I]. }
  destruct (each_finer _ d e d1 (kicked_weightless pusher h y' x)) with (2 := F) (3 := K0) as (e1 & K1 & F1). { intros sid q q' (E & B & v & _ & _ & ->). reflexivity. }
  destruct (Fa i k _ _ _ F1 Co) as (e2 & Co' & F2).
  destruct (each_finer _ d2 e2 d' (flown_weightless beams h G)) with (2 := F2) (3 := Fl) as (e' & K2 & F3). { intros sid q q'. apply flown_weight. }
  exists e'. split; [exists e1, e2; auto|exact F3].
Qed.
Lemma inject_finer dr dz dt t c st st' : refines_all R C st st' -> refines_all R C (inject_beams beams draw a dr dz dt t c st) (inject_beams beams draw a dr dz dt t c st').
Proof using.
  intros H i k Hi Hk. unfold inject_beams. assert (D := H i k Hi Hk). induction D as [|t0 t0' d d' [E F] _ IH]; cbn [map]; constructor; [|exact IH]. cbn [fst snd].
  split; [exact E|]. rewrite <- E. apply refines_app; [exact F|apply refines_refl].
Qed.
Lemma particles_finer ids m m' t c st st2 st' : sd (sy 1 1) m m' -> ids_ok a ids st -> refines_all R C st st2 ->
  full_particles pusher beams extern impulse draw a (g_dr g) (g_dz g) (g_dt g) (dom_geo g R C s) m t c st st' ->
  ids_ok a ids st' /\ exists st2', full_particles pusher beams extern impulse draw a (g_dr g) (g_dz g) (g_dt g) (dom_geo g R C s) m' t c st2 st2' /\ refines_all R C st' st2'.
Proof using Im Fa HR HC Hs RL CL.
  intros M Io F (p1 & [Ad _] & Ec). assert (F0 := inject_finer (g_dr g) (g_dz g) (g_dt g) t c _ _ F).
  set (st0 := inject_beams beams draw a (g_dr g) (g_dz g) (g_dt g) t c st) in *. set (e0 := inject_beams beams draw a (g_dr g) (g_dz g) (g_dt g) t c st2) in *.
  assert (I0 : ids_ok a ids st0) by now apply inject_ids.
  assert (I1 : ids_ok a ids p1).
  { destruct I0 as [N I]. split; [exact N|]. intros i k Hi Hk. rewrite (each_ids _ _ _ (advance_remembers _ _ _ Im _ _ _ _ _ _ _ _ (Ad i k Hi Hk))). now apply I. }
  set (Q := fun i k e' => advance_domain pusher beams impulse (dom_geo g R C s (i, k)) (domain_geo a (g_dr g) (g_dz g) i k) (m' (i, k)) (match extern with None => None | Some x => Some (x (i, k)) end) i k (e0 i k) e' /\ rd (p1 i k) e').
  assert (Dm : forall i, 0 <= i < R -> exists f : Z -> domain pt, forall k, 0 <= k < C -> Q i k (f k)).
  { intros i Hi. apply (FieldMpi.choose_fun C (Q i) HC). intros k Hk. unfold Q. apply (domain_finer _ _ (m (i, k)) _ _ _ _ (st0 i k)); [apply M|now apply F0|]. now apply Ad. }
  destruct (FieldMpi.choose_fun R (fun i f => forall k, 0 <= k < C -> Q i k (f k)) HR Dm) as (Fn & HF).
  set (p2 := fun i k => if (0 <=? i) && (i <? R) && (0 <=? k) && (k <? C) then Fn i k else e0 i k).
  assert (A : forall i k, 0 <= i < R -> 0 <= k < C -> p2 i k = Fn i k).
  { intros i k Hi Hk. unfold p2. replace (_ && _ && _ && _) with true by lia. reflexivity. }
  assert (F1 : refines_all R C p1 p2) by (intros i k Hi Hk; rewrite A by assumption; apply (HF i Hi k Hk)).
  destruct (collect_finer g R C s HR HC Hs RL CL ids p1 p2 st' I1 F1 Ec) as (st2' & Ec' & I' & F').
  split; [exact I'|]. exists st2'. split; [|exact F']. exists p2. split; [|exact Ec']. split.
  - intros i k Hi Hk. cbn [rd_ zd_ a] in Hi, Hk. rewrite A by assumption. apply (HF i Hi k Hk).
  - intros i k N. unfold p2. cbn [rd_ zd_ a] in N. replace (_ && _ && _ && _) with false by lia. reflexivity.
Qed.
Lemma currents_finer st st2 j j' : refines_all R C st st2 -> sd (sc3 1 1) j j' ->
  okrel (sd (sc3 1 1)) (smb_current zigzag_distribution g R C s (fun ik => movers charge (g_dr g) (g_dz g) (st (fst ik) (snd ik))) j)
    (smb_current zigzag_distribution g R C s (fun ik => movers charge (g_dr g) (g_dz g) (st2 (fst ik) (snd ik))) j').
Proof using.
  intros F J. unfold smb_current. eapply (okrel_bind (sd (sc3 1 1))); [|intros; now apply orel_okrel, pass3_sc]. apply each_dom_ok; [|exact J]. intros p x y Hi Hk S.
  eapply okrel_bind; [apply orel_okrel, zero3_sc, S|]. intros b b' B j1 E. exact (zigzag_finer _ _ _ _ _ _ _ _ _ (F _ _ Hi Hk) B E).
Qed.
Lemma round_finer ids u v u' : ids_ok a ids (w_p (u_w u)) -> finer R C u v -> run u u' -> ids_ok a ids (w_p (u_w u')) /\ exists v', run v v' /\ finer R C u' v'.
Proof using Im Fa HR HC Hs RL CL.
  intros Io [SP ST SB SF SJ] (Y & P & J & T & B). cbv zeta in *.
  destruct (orel_ok _ _ _ _ (smb_step_sc 1 1 mu g R C s eps sg _ _ _ _ SJ SF) Y) as (f' & Y' & F').
  destruct (particles_finer ids _ _ _ _ _ _ _ F' Io SP P) as (Io' & st2 & P' & SP'). split; [exact Io'|].
  destruct (currents_finer _ _ _ _ SP' SJ _ J) as (j' & J' & JS).
  exists (mkFull (mkWorld f' j' st2) (u_t u') (u_c u')). split; [|split; auto]. split; [exact Y'|]. cbn [u_w w_f w_j w_p u_t u_c]. split; [|split; [exact J'|]].
  - rewrite ST, SB. exact P'.
  - split; [rewrite ST; exact T|]. rewrite ST, SB. exact B.
Qed.
Lemma rounds_finer ids n : forall u v u', ids_ok a ids (w_p (u_w u)) -> finer R C u v -> rounds run n u u' -> exists v', rounds run n v v' /\ finer R C u' v'.
Proof using Im Fa HR HC Hs RL CL.
  induction n as [|n IH]; intros u v u' Io S H; cbn [rounds] in *; [subst u'; exists v; auto|]. destruct H as (w & H1 & H2).
  destruct (round_finer ids _ _ _ Io S H1) as (Io' & w' & H1' & S'). destruct (IH _ _ _ Io' S' H2) as (v' & H2' & S2). exists v'. split; [exists w'; auto|exact S2].
Qed.
End Round.

(** * C179 *)
(** One round: if it takes place with the coarse particles, it takes place with the finer ones, and the fields, the currents, the time and the bunches are the same afterwards,
    the particles again finer ones of the same places and velocities. *)
Theorem C179_round : forall pusher charge mu beams extern impulse draw g R C s eps sg ids u v u', velocities_only impulse -> fair impulse ->
  1 <= R -> 1 <= C -> 4 <= s -> R * s < 2 ^ 31 -> C * s < 2 ^ 31 -> ids_ok {| nr := R * s; nz := C * s; rd_ := R; zd_ := C |} ids (w_p (u_w u)) -> finer R C u v ->
  full_round pusher charge zigzag_distribution mu beams extern impulse draw g R C s eps sg u u' ->
  exists v', full_round pusher charge zigzag_distribution mu beams extern impulse draw g R C s eps sg v v' /\ finer R C u' v'.
Proof. intros. eapply round_finer; eauto. Qed.
(** Any number of rounds. *)
Theorem C179_run : forall pusher charge mu beams extern impulse draw g R C s eps sg ids n u v u', velocities_only impulse -> fair impulse ->
  1 <= R -> 1 <= C -> 4 <= s -> R * s < 2 ^ 31 -> C * s < 2 ^ 31 -> ids_ok {| nr := R * s; nz := C * s; rd_ := R; zd_ := C |} ids (w_p (u_w u)) -> finer R C u v ->
  rounds (full_round pusher charge zigzag_distribution mu beams extern impulse draw g R C s eps sg) n u u' ->
  exists v', rounds (full_round pusher charge zigzag_distribution mu beams extern impulse draw g R C s eps sg) n v v' /\ finer R C u' v'.
Proof. intros. eapply rounds_finer; eauto. Qed.
(** Without collisions both conditions on them hold. *)
Theorem C179_no_collisions : velocities_only no_collisions /\ fair no_collisions.
Proof. split; [apply (proj2 (C162_none 1))|]. intros i k d e d' F ->. exists e. split; [reflexivity|exact F]. Qed.
(** [finer] says that the fields and the currents have the same sizes and the same value at every node, and that there are as many real particles. *)
Definition same_grid (f f' : grid R) : Prop := xr f' = xr f /\ yr f' = yr f /\ xs f' = xs f /\ ys f' = ys f /\ os f' = os f /\ forall i j, cell f' i j = cell f i j.
Definition real_particles (l : list pt) : R := fold_right Rplus 0%R (map (fun q => weight (now q)) l).
Theorem C179_same : forall R C u v, finer R C u v -> (forall ik c, same_grid (getc c (y_e (w_f (u_w u) ik))) (getc c (y_e (w_f (u_w v) ik))) /\
    same_grid (getc c (y_h (w_f (u_w u) ik))) (getc c (y_h (w_f (u_w v) ik))) /\ same_grid (getc c (y_t (w_f (u_w u) ik))) (getc c (y_t (w_f (u_w v) ik))) /\
    same_grid (getc c (w_j (u_w u) ik)) (getc c (w_j (u_w v) ik))) /\
  forall i k sid, 0 <= i < R -> 0 <= k < C ->
    real_particles (flat_map (fun s => if fst s =? sid then snd s else []) (w_p (u_w v) i k)) = real_particles (flat_map (fun s => if fst s =? sid then snd s else []) (w_p (u_w u) i k)).
Proof.
  intros R C u v [P T B F J]. assert (X : forall f f', sc 1 f f' -> same_grid f f') by (intros f f' []; repeat split; auto; intros; rewrite sc_cell; ring). split.
  - intros ik c. destruct (F ik) as [E H T0]. specialize (J ik). repeat match goal with |- _ /\ _ => split end; apply X; destruct c; try apply E; try apply H; try apply T0; apply J.
  - assert (Pm : forall l l', Permutation l l' -> real_particles l = real_particles l') by (unfold real_particles; induction 1; cbn [map fold_right]; lra).
    assert (Ap : forall l l', real_particles (l ++ l') = (real_particles l + real_particles l')%R) by (unfold real_particles; intros l l'; induction l as [|q l IH]; cbn [map fold_right app]; lra).
    assert (Rf : forall l l', refines l l' -> real_particles l' = real_particles l).
    { intros l l' (qss & Q & Pq). rewrite <- (Pm _ _ Pq). clear Pq. induction Q as [|q qs l qss (ws & -> & W) _ IH]; [reflexivity|]. cbn [concat]. rewrite Ap, IH. unfold real_particles at 3. cbn [map fold_right].
      fold (real_particles l). rewrite <- W. f_equal. clear. unfold real_particles. rewrite map_map. cbn [weighing now weight]. now rewrite map_id. }
    intros i k sid Hi Hk. assert (D := P i k Hi Hk). induction D as [|t t' d d' [E Fr] _ IH]; [reflexivity|]. cbn [flat_map]. rewrite !Ap, IH, <- E. f_equal. destruct (_ =? _); [now apply Rf|reflexivity].
Qed.

(** ** an electron instead of which there are two *)
Definition split0 : full := mkFull (mkWorld (fun _ => quiet4) (fun _ => sz3 4 0)
  (fun i k => if k =? 0 then [(0, []); (5, [weighing (3 / 4) electron; weighing (1 / 4) electron])] else [(0, [neutral]); (5, [])])) 0 (fun _ _ _ => 0%nat).
Lemma split0_finer : finer 1 2 full0 split0.
Proof.
  split; try reflexivity; [|intros; apply sy_refl|intros; split; apply sc_refl]. intros i k Hi Hk. cbn [u_w w_p full0 split0]. destruct (k =? 0); repeat constructor; cbn [fst snd]; try apply refines_refl.
  exists [[weighing (3 / 4) electron; weighing (1 / 4) electron]]. split; [|reflexivity]. constructor; [|constructor]. exists [3 / 4; 1 / 4]%R. split; [reflexivity|]. cbn. lra.
Qed.
Example C179_ex : exists u' v',
  full_round mixed (fun _ => 1%R) zigzag_distribution 1 (fun _ => None) (Some (fun _ => quiet4)) no_collisions (fun _ _ _ _ _ => (0, 0)%R) geoh 1 2 4 (fun _ => sz 4 1) (fun _ => sz 4 0) full0 u' /\
  full_round mixed (fun _ => 1%R) zigzag_distribution 1 (fun _ => None) (Some (fun _ => quiet4)) no_collisions (fun _ _ _ _ _ => (0, 0)%R) geoh 1 2 4 (fun _ => sz 4 1) (fun _ => sz 4 0) split0 v' /\
  finer 1 2 full0 split0 /\ finer 1 2 u' v' /\ w_p (u_w full0) 0 0 <> w_p (u_w split0) 0 0.
Proof.
  destruct (ex_fits zigzag_distribution (or_introl eq_refl)) as (Pf & Af & Tot & L).
  destruct (C176_round 1 1 mixed no_collisions zigzag_distribution geoh 1 2 4 (fun _ => sz 4 1) (fun _ => sz 4 0) (Some (fun _ => quiet4)) (fun _ _ _ _ _ => (0, 0)%R) (fun _ => 1%R) 1 [0; 5] full0 Pf Af Tot L) as ((u' & H) & _).
  destruct (C179_round mixed (fun _ => 1%R) 1 (fun _ => None) (Some (fun _ => quiet4)) no_collisions (fun _ _ _ _ _ => (0, 0)%R) geoh 1 2 4 (fun _ => sz 4 1) (fun _ => sz 4 0) [0; 5] full0 split0 u'
    (proj1 C179_no_collisions) (proj2 C179_no_collisions) ltac:(lia) ltac:(lia) ltac:(lia) ltac:(lia) ltac:(lia) ltac:(apply L) split0_finer H) as (v' & H' & F).
  exists u', v'. split; [exact H|]. split; [exact H'|]. split; [exact split0_finer|]. split; [exact F|]. discriminate.
Qed.

(** ** the other deposition scheme *)
(** a particle that moves outwards and one that moves along the axis in the same cell *)
Definition outward (w : R) : pt := mkPt {| pos_r := 7 / 4; pos_phi := 0; pos_z := 5 / 4; vel_r := 1 / 2; vel_phi := 0; vel_z := 0; p_sin := 0; weight := w |} (5 / 4) (5 / 4).
Definition along : pt := mkPt {| pos_r := 3 / 2; pos_phi := 0; pos_z := 7 / 4; vel_r := 0; vel_phi := 0; vel_z := 1 / 2; p_sin := 0; weight := 1 |} (3 / 2) (5 / 4).
Lemma rmnzl x : (1 / 4 <= Rabs x)%R -> rlt (Rabs x) mnzl = false.
Proof. intros H. apply rlt_false. assert (M := mnzl_small). lra. Qed.
Lemma outward_deps w : exists a b, rz_deps geo1 (mover_of (fun _ => 1%R) 1 1 0 (outward w)) = [Inc Cr 1 1 a; Inc Cr 1 2 b] /\ (w = 1 / 2 -> 0 < a)%R.
Proof.
  assert (Z0 : rlt (Rabs (5 / 4 - 5 / 4)) mnzl = true) by apply Rabs_same_lt.
  assert (N0 : rlt (Rabs (7 / 4 - 5 / 4)) mnzl = false) by (apply rmnzl; absolve).
  assert (N1 : req (5 / 4) (IZR (1 + 1) * 1) = false) by (unfold req; destruct (Req_EM_T _ _) as [E|]; [exfalso; cbn in E; lra|reflexivity]).
  assert (N2 : req (7 / 4) (IZR (1 + 1) * 1) = false) by (unfold req; destruct (Req_EM_T _ _) as [E|]; [exfalso; cbn in E; lra|reflexivity]).
  unfold rz_deps, rz_particle. cbn [mover_of m_r m_z m_ro m_zo m_cr m_cz m_q outward now pos_r pos_z old_r old_z weight geo1 g_dr g_dz]. unfold pt_cr, pt_cz, part_cr, part_cz. cbn [outward now pos_r pos_z].
  change ParticleModel.cell_number with ExtModel.cell_number. cells. change (s32 1) with 1. rewrite N1, N2, Z0, N0. cbn [orb]. change (1 <? Z.abs (1 - 1)) with false. cbn [orb]. unfold strict. cbn [geo1 g_dr g_dz g_dt]. cells. rewrite N0, Z0. cbn [andb]. change (1 - 1 =? 0) with true. cbv iota.
  eexists _, _. split; [reflexivity|]. intros ->. unfold dens_strict. cbn [geo1 g_dr g_dz g_dt]. assert (Pi := PI_RGT_0).
  match goal with |- (0 < ?a * ?b * ?c)%R => assert (0 < a)%R; [|assert (0 < b)%R by lra; assert (0 < c)%R by lra; (apply Rmult_lt_0_compat; [apply Rmult_lt_0_compat|]); assumption] end.
  apply Rdiv_lt_0_compat; [lra|]. nra.
Qed.
Lemma along_deps : exists a b, rz_deps geo1 (mover_of (fun _ => 1%R) 1 1 0 along) = [Put Cr 1 1 0%R; Put Cr 1 2 0%R; Inc Cz 1 1 a; Inc Cz 2 1 b].
Proof.
  assert (Z0 : rlt (Rabs (3 / 2 - 3 / 2)) mnzl = true) by apply Rabs_same_lt.
  assert (N0 : rlt (Rabs (7 / 4 - 5 / 4)) mnzl = false) by (apply rmnzl; absolve).
  assert (N1 : forall x, (x < 2)%R -> req x (IZR (1 + 1) * 1) = false) by (intros x Hx; unfold req; destruct (Req_EM_T _ _) as [E|]; [exfalso; cbn in E; lra|reflexivity]).
  unfold rz_deps, rz_particle. cbn [mover_of m_r m_z m_ro m_zo m_cr m_cz m_q along now pos_r pos_z old_r old_z weight geo1 g_dr g_dz]. unfold pt_cr, pt_cz, part_cr, part_cz. cbn [along now pos_r pos_z].
  change ParticleModel.cell_number with ExtModel.cell_number. cells. change (s32 1) with 1. rewrite !N1 by lra. rewrite Z0. cbn [orb]. change (1 <? Z.abs (1 - 1)) with false. cbn [orb]. unfold strict. cbn [geo1 g_dr g_dz g_dt]. cells. rewrite Z0, N0. cbn [andb]. change (1 - 1 =? 0) with true. cbv iota.
  eexists _, _. reflexivity.
Qed.
(** With it the radial current of a cell is another one if the first particle is divided into two and the order is another one. *)
Theorem C179_vb_refuted : exists d d' j j1 j2, rd d d' /\ vb_distribution geo1 (movers (fun _ => 1%R) 1 1 d) j = Ok j1 /\ vb_distribution geo1 (movers (fun _ => 1%R) 1 1 d') j = Ok j2 /\
  lv (c_r j1) 1 1 <> lv (c_r j2) 1 1.
Proof.
  set (d := [(0, [outward 1; along])]). set (d' := [(0, [outward (1 / 2); along; outward (1 / 2)])]). exists d, d', (gz3 0).
  assert (Lo : forall w, lands geo1 (mover_of (fun _ => 1%R) 1 1 0 (outward w))).
  { intros w. split; [unfold bound; cbn [mover_of outward now pos_r pos_z old_r old_z m_r m_ro m_cr m_cz m_z g_dr g_dz geo1]; unfold pt_cr, pt_cz, part_cr, part_cz; cbn [now outward pos_r pos_z]; change ParticleModel.cell_number with ExtModel.cell_number; cells; change (s32 1) with 1; repeat match goal with |- _ /\ _ => split end; first [lra|reflexivity]|].
    cbn [mover_of m_cr m_cz geo1 g_d0 g_d1 g_nr g_nz]. unfold pt_cr, pt_cz, part_cr, part_cz. cbn [now outward pos_r pos_z]. change ParticleModel.cell_number with ExtModel.cell_number. cells. change (s32 1) with 1. lia. }
  assert (La : lands geo1 (mover_of (fun _ => 1%R) 1 1 0 along)).
  { split; [unfold bound; cbn [mover_of along now pos_r pos_z old_r old_z m_r m_ro m_cr m_cz m_z g_dr g_dz geo1]; unfold pt_cr, pt_cz, part_cr, part_cz; cbn [now along pos_r pos_z]; change ParticleModel.cell_number with ExtModel.cell_number; cells; change (s32 1) with 1; repeat match goal with |- _ /\ _ => split end; first [lra|reflexivity]|].
    cbn [mover_of m_cr m_cz geo1 g_d0 g_d1 g_nr g_nz]. unfold pt_cr, pt_cz, part_cr, part_cz. cbn [now along pos_r pos_z]. change ParticleModel.cell_number with ExtModel.cell_number. cells. change (s32 1) with 1. lia. }
  destruct (vb_spec geo1 (movers (fun _ => 1%R) 1 1 d) (gz3 0) geo1_sizes (gz3_fits _) ltac:(repeat (apply Forall_cons; [first [apply Lo|apply La]|]); apply Forall_nil)) as (j1 & E1 & _ & V1).
  destruct (vb_spec geo1 (movers (fun _ => 1%R) 1 1 d') (gz3 0) geo1_sizes (gz3_fits _) ltac:(repeat (apply Forall_cons; [first [apply Lo|apply La]|]); apply Forall_nil)) as (j2 & E2 & _ & V2).
  exists j1, j2. split; [|split; [exact E1|split; [exact E2|]]].
  - constructor; [|constructor]. split; [reflexivity|]. exists [[outward (1 / 2); outward (1 / 2)]; [along]]. split; [|cbn; do 2 constructor].
    constructor; [|constructor; [apply stands_itself|constructor]]. exists [1 / 2; 1 / 2]%R. split; [reflexivity|]. cbn. lra.
  - change (c_r j1) with (getc Cr j1). change (c_r j2) with (getc Cr j2). rewrite V1, V2 by (unfold inw; cbn; lia). unfold d, d', movers. cbn [flat_map map fst snd app].
    destruct (outward_deps 1) as (a1 & b1 & -> & _). destruct (outward_deps (1 / 2)) as (a2 & b2 & -> & P). destruct along_deps as (a3 & b3 & ->). specialize (P eq_refl).
    cbn [app after ceqb andb Z.eqb Pos.eqb]. lra.
Qed.

Print Assumptions C179_round.
Print Assumptions C179_run.
Print Assumptions C179_no_collisions.
Print Assumptions C179_same.
Print Assumptions C179_ex.
Print Assumptions C179_vb_refuted.
