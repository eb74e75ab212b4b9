From Verif Require Import Base ListUtil DecompModel DecompProofs CollectorModel.
From Coq Require Import ZifyBool Permutation.

Section Proofs.
Context {P : Type}.
Variables cr cz : P -> Z.
Variable a : area.

(** Specification.  A particle is alive when its cell lies in the simulation area, and at home in domain
    (i, j) when that domain's cell range contains it. *)
Definition alive (p : P) : bool := (0 <=? cr p) && (cr p <? nr a) && (0 <=? cz p) && (cz p <? nz a).
Definition home (i j : Z) (p : P) : Prop :=
  bound (nr a) (rd_ a) 0 i <= cr p < bound (nr a) (rd_ a) 0 (i + 1) /\
  bound (nz a) (zd_ a) 0 j <= cz p < bound (nz a) (zd_ a) 0 (j + 1).

(** decompositions covered: the domain counts divide the (positive) cell counts; cells fit [int] *)
Definition good_area : Prop :=
  sane (nr a) (rd_ a) 0 /\ sane (nz a) (zd_ a) 0 /\ 0 < nr a < 2 ^ 31 /\ 0 < nz a < 2 ^ 31 /\
  (rd_ a | nr a) /\ (zd_ a | nz a).
Definition int_cells (p : P) : Prop := - 2 ^ 31 <= cr p < 2 ^ 31 /\ - 2 ^ 31 <= cz p < 2 ^ 31.

Hypothesis HA : good_area.

Lemma u64_neg z : - 2 ^ 31 <= z < 0 -> u64 z = z + 2 ^ 64.
Proof. intros. unfold u64. rewrite <- (Z_mod_plus_full z 1 (2 ^ 64)). apply Z.mod_small. lia. Qed.

Lemma dst_defined n d c i : sane n d 0 -> (d | n) -> 0 < n -> 0 <= i < d ->
  exists k, dst_index (local_amount n d 0 i) 0 c = Ok k.
Proof.
  intros H D Hp Hi. pose proof H as (? & ? & ? & ? & ?). rewrite local_div by auto. unfold dst_index.
  assert (Hq : 0 < n / d).
  { destruct D as [q Hq']. subst n. rewrite Z.div_mul by lia. nia. }
  replace (n / d =? 0) with false by lia. eauto.
Qed.

Lemma judge_spec i j p : 0 <= i < rd_ a -> 0 <= j < zd_ a -> int_cells p ->
  (alive p = false /\ judge P cr cz a i j p = Ok Remove) \/
  (alive p = true /\ home i j p /\ judge P cr cz a i j p = Ok Keep) \/
  (alive p = true /\ ~ home i j p /\ exists i' j', judge P cr cz a i j p = Ok (Move i' j') /\
     0 <= i' < rd_ a /\ 0 <= j' < zd_ a /\ home i' j' p /\ (i', j') <> (i, j)).
Proof.
  intros Hi Hj [Hcr Hcz]. destruct HA as (Sr & Sz & Pr & Pz & Dr & Dz). unfold judge.
  destruct (dst_defined (nr a) (rd_ a) (cr p) i Sr Dr ltac:(lia) Hi) as [di Ei].
  destruct (dst_defined (nz a) (zd_ a) (cz p) j Sz Dz ltac:(lia) Hj) as [dj Ej].
  destruct (alive p) eqn:Al.
  - right. unfold alive in Al.
    destruct (bound_owner (nr a) (rd_ a) 0 (cr p) Sr ltac:(lia)) as (oi & Hoi & Boi).
    destruct (bound_owner (nz a) (zd_ a) 0 (cz p) Sz ltac:(lia)) as (oj & Hoj & Boj).
    rewrite (dst_index_owner (nr a) (rd_ a) 0 (cr p) i oi) by (auto; lia). cbn [bind].
    rewrite (dst_index_owner (nz a) (zd_ a) 0 (cz p) j oj) by (auto; lia). cbn [bind].
    rewrite !u64_small by lia.
    replace ((cr p <? 0) || (cz p <? 0)) with false by lia.
    replace (nr a <=? cr p) with false by lia. replace (nz a <=? cz p) with false by lia.
    destruct (negb (oi =? i) || negb (oj =? j)) eqn:B.
    + right. split; [reflexivity|]. split.
      * intros [Hb1 Hb2].
        assert (oi = i) by (apply (bound_owner_unique (nr a) (rd_ a) 0 (cr p)); auto).
        assert (oj = j) by (apply (bound_owner_unique (nz a) (zd_ a) 0 (cz p)); auto). lia.
      * exists oi, oj. split; [reflexivity|]. split; [exact Hoi|]. split; [exact Hoj|]. split; [split; assumption|].
        intros [= -> ->]. rewrite !Z.eqb_refl in B. discriminate.
    + left. assert (oi = i) by lia. assert (oj = j) by lia. subst. split; [reflexivity|]. split; [split; assumption|reflexivity].
  - left. split; [reflexivity|]. rewrite Ei, Ej; cbn [bind]. unfold alive in Al.
    destruct ((cr p <? 0) || (cz p <? 0)) eqn:B; [reflexivity|].
    rewrite !u64_small by lia. destruct (nr a <=? cr p) eqn:B2; [reflexivity|].
    replace (nz a <=? cz p) with true by lia. reflexivity.
Qed.

(** counting the particles of species [sid] *)
Definition cnt_dom (f : P -> bool) (sid : Z) (d : domain P) : Z :=
  sumZ (fun s => if fst s =? sid then cntl f (snd s) else 0) d.
Definition cnt (f : P -> bool) (sid : Z) (st : smb P) : Z :=
  sumZ (fun ij => cnt_dom f sid (st (fst ij) (snd ij))) (pairs (rd_ a) (zd_ a)).

(** all domains hold the same species, with pairwise different ids *)
Definition ids_ok (ids : list Z) (st : smb P) : Prop :=
  NoDup ids /\ forall i j, 0 <= i < rd_ a -> 0 <= j < zd_ a -> map fst (st i j) = ids.

Lemma upd_dom_eq (st : smb P) i j d : upd_dom P st i j d i j = d.
Proof. unfold upd_dom. now rewrite !Z.eqb_refl. Qed.
Lemma upd_dom_ne (st : smb P) i j d i' j' : (i', j') <> (i, j) -> upd_dom P st i j d i' j' = st i' j'.
Proof. intros H. unfold upd_dom. destruct ((i' =? i) && (j' =? j)) eqn:B; [|reflexivity].
  exfalso. apply H. f_equal; lia. Qed.

Lemma cnt_upd f sid (st : smb P) i j d : 0 <= i < rd_ a -> 0 <= j < zd_ a ->
  cnt f sid (upd_dom P st i j d) = cnt f sid st + cnt_dom f sid d - cnt_dom f sid (st i j).
Proof.
  intros Hi Hj. unfold cnt.
  rewrite (sumZ_change _ (fun ij => cnt_dom f sid (st (fst ij) (snd ij))) _ (i, j)).
  - cbn [fst snd]. rewrite upd_dom_eq. reflexivity.
  - apply NoDup_pairs.
  - now apply In_pairs.
  - intros [i' j'] Hne. cbn [fst snd]. now rewrite upd_dom_ne.
Qed.

Lemma map_fst_push sid (p : P) d : map fst (map (push_species P sid p) d) = map fst d.
Proof. rewrite map_map. apply map_ext. intros [s l]. unfold push_species. cbn [fst]. now destruct (s =? sid). Qed.

Lemma cnt_dom_push f sid sid' (p : P) d : NoDup (map fst d) -> In sid (map fst d) ->
  cnt_dom f sid' (map (push_species P sid p) d) =
  cnt_dom f sid' d + (if (sid =? sid') then (if f p then 1 else 0) else 0).
Proof.
  induction d as [|[s l] d IH]; intros Hn Hin; [destruct Hin|]. cbn [map fst snd] in *.
  inversion Hn as [|? ? Hs Hn']; subst. unfold cnt_dom, sumZ in *; cbn [fold_right].
  destruct Hin as [->|Hin].
  - assert (Ed : map (push_species P sid p) d = d).
    { clear - Hs. induction d as [|[s' l'] d IHd]; [reflexivity|]. cbn [map fst] in *.
      rewrite IHd by (intros ?; apply Hs; now right).
      unfold push_species; cbn [fst]. replace (s' =? sid) with false; [reflexivity|].
      symmetry. apply Z.eqb_neq. intros ->. apply Hs. now left. }
    rewrite Ed. unfold push_species. cbn [fst snd]. rewrite Z.eqb_refl. cbn [fst snd].
    destruct (sid =? sid') eqn:E; [|lia]. rewrite cntl_app, cntl_cons. change (cntl f []) with 0. lia.
  - rewrite IH by assumption. unfold push_species; cbn [fst snd].
    assert (s <> sid) by (intros ->; contradiction).
    replace (s =? sid) with false by lia. cbn [fst snd]. lia.
Qed.

Lemma In_push_home sid (p : P) d s l q : In (s, l) (map (push_species P sid p) d) -> In q l ->
  (exists l', In (s, l') d /\ In q l') \/ q = p.
Proof.
  rewrite in_map_iff. intros ([s' l'] & E & Hin) Hq. unfold push_species in E; cbn [fst snd] in E.
  destruct (s' =? sid).
  - injection E as <- <-. apply in_app_iff in Hq as [Hq|[->|[]]]; [left; eauto|now right].
  - injection E as <- <-. left; eauto.
Qed.

(** every particle of the SMB has int cell numbers *)
Definition all_int (st : smb P) : Prop :=
  forall i j s l p, 0 <= i < rd_ a -> 0 <= j < zd_ a -> In (s, l) (st i j) -> In p l -> int_cells p.
Definition all_home (i j : Z) (d : domain P) : Prop :=
  forall s l p, In (s, l) d -> In p l -> alive p = true /\ home i j p.

(** invariant relating the SMB before and after some pushes from domain (i, j) *)
Definition pushed_ok (ids : list Z) (i j : Z) (st st' : smb P) : Prop :=
  ids_ok ids st' /\ all_int st' /\ st' i j = st i j /\
  (forall i' j', 0 <= i' < rd_ a -> 0 <= j' < zd_ a -> all_home i' j' (st i' j') -> all_home i' j' (st' i' j')).

Lemma pushed_ok_refl ids i j st : ids_ok ids st -> all_int st -> pushed_ok ids i j st st.
Proof. intros H1 H2. split; [exact H1|]. split; [exact H2|]. split; [reflexivity|auto]. Qed.

Lemma run_particles_spec ids i j sid : 0 <= i < rd_ a -> 0 <= j < zd_ a -> In sid ids ->
  forall l st, ids_ok ids st -> all_int st -> (forall p, In p l -> int_cells p) ->
  exists k st', run_particles P cr cz a i j sid l st = Ok (k, st') /\ pushed_ok ids i j st st' /\
    (forall p, In p k -> In p l /\ alive p = true /\ home i j p) /\
    (forall f sid', (forall p, f p = true -> alive p = true) ->
       cnt f sid' st' + (if sid =? sid' then cntl f k else 0) =
       cnt f sid' st + (if sid =? sid' then cntl f l else 0)).
Proof.
  intros Hi Hj Hsid. induction l as [|p l IH]; intros st Hids Hint Hl.
  - exists [], st. split; [reflexivity|]. split; [now apply pushed_ok_refl|]. 
    split; [intros p []|]. intros; lia.
  - cbn [run_particles].
    destruct (judge_spec i j p Hi Hj (Hl p (or_introl eq_refl))) as
      [(Al & ->)|[(Al & Hh & ->)|(Al & Hh & i' & j' & -> & Hi' & Hj' & Hh' & Hne)]]; cbn [bind].
    + destruct (IH st Hids Hint) as (k & st' & E & Hp & Hk & Hc); [intros; apply Hl; now right|].
      exists k, st'. split; [exact E|]. split; [exact Hp|]. split.
      * intros q Hq. destruct (Hk q Hq) as (? & ? & ?). split; [now right|tauto].
      * intros f sid' Hf. rewrite Hc by exact Hf. rewrite cntl_cons.
        destruct (f p) eqn:Fp; [apply Hf in Fp; congruence|]. destruct (sid =? sid'); lia.
    + destruct (IH st Hids Hint) as (k & st' & E & Hp & Hk & Hc); [intros; apply Hl; now right|].
      rewrite E; cbn [bind]. exists (p :: k), st'. split; [reflexivity|]. split; [exact Hp|]. split.
      * intros q [<-|Hq]; [split; [now left|tauto]|]. destruct (Hk q Hq) as (? & ? & ?). split; [now right|tauto].
      * intros f sid' Hf. specialize (Hc f sid' Hf). rewrite !cntl_cons. destruct (sid =? sid'); lia.
    + replace (in_range a i' j') with true by (unfold in_range; lia).
      set (st1 := push P i' j' sid p st).
      assert (Hids1 : ids_ok ids st1).
      { destruct Hids as [Hn Hm]. split; [exact Hn|]. intros u v Hu Hv. unfold st1, push, upd_dom.
        destruct ((u =? i') && (v =? j')); [|now apply Hm]. rewrite map_fst_push. now apply Hm. }
      assert (Hint1 : all_int st1).
      { intros u v s l' q Hu Hv Hin Hq. unfold st1, push, upd_dom in Hin.
        destruct ((u =? i') && (v =? j')); [|now apply (Hint u v s l' q)].
        destruct (In_push_home sid p _ s l' q Hin Hq) as [(l'' & H1 & H2)| ->].
        - now apply (Hint i' j' s l'' q).
        - apply Hl. now left. }
      destruct (IH st1 Hids1 Hint1) as (k & st' & E & Hp & Hk & Hc); [intros; apply Hl; now right|].
      exists k, st'. split; [exact E|]. split.
      { destruct Hp as (H1 & H2 & H3 & H4). split; [exact H1|]. split; [exact H2|]. split.
        - rewrite H3. unfold st1, push. apply upd_dom_ne. congruence.
        - intros u v Hu Hv Hh0. apply H4; auto. unfold st1, push, upd_dom.
          destruct ((u =? i') && (v =? j')) eqn:B; [|exact Hh0].
          assert (u = i') by lia. assert (v = j') by lia. subst u v.
          intros s l' q Hin Hq. destruct (In_push_home sid p _ s l' q Hin Hq) as [(l'' & G1 & G2)| ->].
          + now apply (Hh0 s l'' q).
          + tauto. }
      split.
      * intros q Hq. destruct (Hk q Hq) as (? & ? & ?). split; [now right|tauto].
      * intros f sid' Hf. specialize (Hc f sid' Hf). rewrite Hc. unfold st1, push.
        rewrite cnt_upd by assumption. destruct Hids as [Hn Hm].
        rewrite cnt_dom_push; [|now rewrite Hm|now rewrite Hm]. rewrite cntl_cons.
        destruct (sid =? sid'); lia.
Qed.

Lemma run_species_spec ids i j : 0 <= i < rd_ a -> 0 <= j < zd_ a ->
  forall d st, incl (map fst d) ids -> ids_ok ids st -> all_int st ->
  (forall s l p, In (s, l) d -> In p l -> int_cells p) ->
  exists d' st', run_species P cr cz a i j d st = Ok (d', st') /\ pushed_ok ids i j st st' /\
    map fst d' = map fst d /\ all_home i j d' /\
    (forall f sid', (forall p, f p = true -> alive p = true) ->
       cnt f sid' st' + cnt_dom f sid' d' = cnt f sid' st + cnt_dom f sid' d).
Proof.
  intros Hi Hj. induction d as [|[s l] d IH]; intros st Hincl Hids Hint Hd.
  - exists [], st. split; [reflexivity|]. split; [now apply pushed_ok_refl|].
    split; [reflexivity|]. split; [intros ? ? ? []|]. intros; reflexivity.
  - cbn [run_species fst snd].
    destruct (run_particles_spec ids i j s Hi Hj (Hincl s (or_introl eq_refl)) l st Hids Hint) as (k & st1 & E1 & Hp1 & Hk & Hc1).
    { intros p Hp. apply (Hd s l p); [now left|assumption]. }
    rewrite E1; cbn [bind]. destruct Hp1 as (A1 & A2 & A3 & A4).
    destruct (IH st1) as (d' & st2 & E2 & Hp2 & Hm & Hh & Hc2); auto.
    { intros x Hx. apply Hincl. now right. }
    { intros s' l' p Hin Hp. apply (Hd s' l' p); [now right|assumption]. }
    rewrite E2; cbn [bind]. exists ((s, k) :: d'), st2. split; [reflexivity|].
    destruct Hp2 as (B1 & B2 & B3 & B4). split.
    { split; [exact B1|]. split; [exact B2|]. split; [congruence|]. auto. }
    split; [cbn [map fst]; congruence|]. split.
    { intros s' l' p [[= <- <-]|Hin] Hp; [destruct (Hk p Hp); tauto|now apply (Hh s' l' p)]. }
    intros f sid' Hf. specialize (Hc1 f sid' Hf). specialize (Hc2 f sid' Hf).
    unfold cnt_dom, sumZ in *; cbn [fold_right fst snd]. lia.
Qed.

Lemma run_domain_spec ids i j st : 0 <= i < rd_ a -> 0 <= j < zd_ a -> ids_ok ids st -> all_int st ->
  exists st', run_domain P cr cz a i j st = Ok st' /\ ids_ok ids st' /\ all_int st' /\
    all_home i j (st' i j) /\
    (forall i' j', 0 <= i' < rd_ a -> 0 <= j' < zd_ a -> all_home i' j' (st i' j') -> all_home i' j' (st' i' j')) /\
    (forall f sid, (forall p, f p = true -> alive p = true) -> cnt f sid st' = cnt f sid st).
Proof.
  intros Hi Hj Hids Hint. unfold run_domain. pose proof Hids as [Hn Hm].
  destruct (run_species_spec ids i j Hi Hj (st i j) st) as (d & st1 & E & Hp & Hmd & Hh & Hc); auto.
  { rewrite Hm by assumption. intros x Hx; exact Hx. }
  { intros s l p Hin Hp. now apply (Hint i j s l p). }
  rewrite E; cbn [bind]. eexists; split; [reflexivity|].
  destruct Hp as ((B1 & B1') & B2 & B3 & B4). split; [|split; [|split; [|split]]].
  - split; [exact Hn|]. intros u v Hu Hv. unfold upd_dom. destruct ((u =? i) && (v =? j)); [|now apply B1'].
    rewrite Hmd. now apply Hm.
  - intros u v s l q Hu Hv Hin Hq. unfold upd_dom in Hin. destruct ((u =? i) && (v =? j)) eqn:B; [|now apply (B2 u v s l q)].
    destruct (Hh s l q Hin Hq) as [Al _]. destruct HA as (_ & _ & ? & ? & _). unfold alive in Al. unfold int_cells. lia.
  - rewrite upd_dom_eq. exact Hh.
  - intros u v Hu Hv Hh0. unfold upd_dom. destruct ((u =? i) && (v =? j)) eqn:B; [|now apply B4].
    assert (u = i) by lia. assert (v = j) by lia. subst. exact Hh.
  - intros f sid Hf. specialize (Hc f sid Hf). rewrite cnt_upd by assumption. rewrite B3. lia.
Qed.

Lemma collect_spec ids order : forall st, ids_ok ids st -> all_int st ->
  (forall i j, In (i, j) order -> 0 <= i < rd_ a /\ 0 <= j < zd_ a) ->
  exists st', collect P cr cz a order st = Ok st' /\ ids_ok ids st' /\ all_int st' /\
    (forall i j, In (i, j) order -> all_home i j (st' i j)) /\
    (forall i' j', 0 <= i' < rd_ a -> 0 <= j' < zd_ a -> all_home i' j' (st i' j') -> all_home i' j' (st' i' j')) /\
    (forall f sid, (forall p, f p = true -> alive p = true) -> cnt f sid st' = cnt f sid st).
Proof.
  induction order as [|[i j] order IH]; intros st Hids Hint Hr.
  - exists st. split; [reflexivity|]. split; [exact Hids|]. split; [exact Hint|]. split; [intros ? ? []|]. auto.
  - cbn [collect]. destruct (Hr i j (or_introl eq_refl)) as [Hi Hj].
    destruct (run_domain_spec ids i j st Hi Hj Hids Hint) as (st1 & E & A1 & A2 & A3 & A4 & A5).
    rewrite E; cbn [bind].
    destruct (IH st1 A1 A2) as (st2 & E2 & B1 & B2 & B3 & B4 & B5); [intros; apply Hr; now right|].
    exists st2. split; [exact E2|]. split; [exact B1|]. split; [exact B2|]. split; [|split].
    + intros u v [[= <- <-]|Hin]; [now apply B4|now apply B3].
    + intros u v Hu Hv Hh. apply B4; auto.
    + intros f sid Hf. rewrite B5, A5 by exact Hf. reflexivity.
Qed.

(** all particles of species [sid], listed *)
Definition particles_of (sid : Z) (st : smb P) : list P :=
  flat_map (fun ij => flat_map (fun s => if fst s =? sid then snd s else []) (st (fst ij) (snd ij)))
           (pairs (rd_ a) (zd_ a)).
Lemma cnt_particles_of f sid st : cnt f sid st = cntl f (particles_of sid st).
Proof.
  unfold cnt, particles_of. rewrite cntl_flat_map. apply sumZ_ext. intros ij _. unfold cnt_dom.
  rewrite cntl_flat_map. apply sumZ_ext. intros s _. destruct (fst s =? sid); reflexivity.
Qed.

Lemma collect_total ids order st : ids_ok ids st -> all_int st ->
  (forall i j, In (i, j) order <-> 0 <= i < rd_ a /\ 0 <= j < zd_ a) ->
  exists st', collect P cr cz a order st = Ok st' /\ ids_ok ids st' /\ all_int st' /\
    (forall i j, 0 <= i < rd_ a -> 0 <= j < zd_ a -> all_home i j (st' i j)) /\
    (forall f sid, cntl f (particles_of sid st') = cntl f (filter alive (particles_of sid st))).
Proof.
  intros Hids Hint Hord.
  destruct (collect_spec ids order st Hids Hint) as (st' & E & A1 & A2 & A3 & A4 & A5); [intros; now apply Hord|].
  assert (Hh : forall i j, 0 <= i < rd_ a -> 0 <= j < zd_ a -> all_home i j (st' i j)).
  { intros; apply A3. now apply Hord. }
  exists st'. repeat (split; [assumption|]).
  intros f sid. rewrite cntl_filter.
  rewrite <- (cnt_particles_of (fun x => f x && alive x)). rewrite <- A5.
  2:{ intros p. destruct (alive p); [auto|]. now rewrite andb_false_r. }
  rewrite cnt_particles_of. apply cntl_ext. intros p Hp. unfold particles_of in Hp.
  apply in_flat_map in Hp as ([i j] & Hij & Hp). apply In_pairs in Hij as [Hi Hj]. cbn [fst snd] in Hp.
  apply in_flat_map in Hp as ([s l] & Hs & Hp). cbn [fst snd] in Hp. destruct (s =? sid); [|destruct Hp].
  destruct (Hh i j Hi Hj s l p Hs Hp) as [Al _]. now rewrite Al, andb_true_r.
Qed.

(** the loops of the code visit every domain *)
Lemma steps2_In n : forall i hi x, 0 <= i -> hi <= i + 2 * Z.of_nat n ->
  (In x (steps2 n i hi) <-> i <= x < hi /\ (x - i) mod 2 = 0).
Proof.
  induction n as [|n IH]; intros i hi x Hi Hle; cbn [steps2 In].
  - split; [tauto|]. lia.
  - destruct (i <? hi) eqn:B; cbn [In].
    + rewrite IH by lia. split.
      * intros [->|[H1 H2]]; [rewrite Z.sub_diag; cbn; lia|]. split; [lia|].
        replace (x - i) with (x - (i + 2) + 1 * 2) by lia. now rewrite Z_mod_plus_full.
      * intros [H1 H2]. destruct (Z.eq_dec x i) as [->|Hne]; [now left|right].
        assert (x <> i + 1) by (intros ->; replace (i + 1 - i) with 1 in H2 by lia; discriminate).
        split; [lia|]. rewrite <- H2. replace (x - i) with (x - (i + 2) + 1 * 2) by lia. now rewrite Z_mod_plus_full.
    + split; [tauto|]. lia.
Qed.
Lemma every2_In idx hi x : 0 <= idx -> 0 <= hi -> (In x (every2 idx hi) <-> idx <= x < hi /\ (x - idx) mod 2 = 0).
Proof. intros. unfold every2. apply steps2_In; lia. Qed.
Lemma colour_In idx idy i j : 0 <= idx -> 0 <= idy -> 0 <= rd_ a -> 0 <= zd_ a ->
  (In (i, j) (colour a idx idy) <->
   (idx <= i < rd_ a /\ (i - idx) mod 2 = 0) /\ (idy <= j < zd_ a /\ (j - idy) mod 2 = 0)).
Proof.
  intros. unfold colour. rewrite in_flat_map. split.
  - intros (u & Hu & Hin). apply in_map_iff in Hin as (v & [= -> ->] & Hv).
    rewrite every2_In in Hu, Hv by lia. tauto.
  - intros [Hu Hv]. exists i. split; [rewrite every2_In by lia; exact Hu|]. apply in_map_iff. exists j.
    split; [reflexivity|]. rewrite every2_In by lia. exact Hv.
Qed.
Lemma code_order_In i j : 0 <= rd_ a -> 0 <= zd_ a ->
  (In (i, j) (code_order a) <-> 0 <= i < rd_ a /\ 0 <= j < zd_ a).
Proof.
  intros H1 H2. unfold code_order. rewrite !in_app_iff, !colour_In by lia.
  pose proof (Z.mod_pos_bound (i - 0) 2 ltac:(lia)). pose proof (Z.mod_pos_bound (j - 0) 2 ltac:(lia)).
  assert (forall x, (x - 1) mod 2 = 1 - (x - 0) mod 2).
  { intros x. pose proof (Z.div_mod x 2 ltac:(lia)). pose proof (Z.mod_pos_bound x 2 ltac:(lia)).
    rewrite Z.sub_0_r. assert (C : x mod 2 = 0 \/ x mod 2 = 1) by lia. destruct C as [C|C]; rewrite C in *.
    - symmetry. apply Z.mod_unique with (q := x / 2 - 1); lia.
    - symmetry. apply Z.mod_unique with (q := x / 2); lia. }
  rewrite !H3. pose proof (Z.div_mod (i - 0) 2 ltac:(lia)). pose proof (Z.div_mod (j - 0) 2 ltac:(lia)).
  split; [intros [?|[?|[?|?]]]; lia|]. intros [Hi Hj].
  destruct (Z.eq_dec ((i - 0) mod 2) 0), (Z.eq_dec ((j - 0) mod 2) 0); lia.
Qed.
End Proofs.
