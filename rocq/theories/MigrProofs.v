(** The particles that migrate between the ranks: nothing is lost or duplicated. *)
From Verif Require Import Base ListUtil DecompModel DecompProofs CollectorModel CollectorProofs MpiModel MigrModel.
From Coq Require Import ZifyBool Permutation.

Section Rank.
Context {P : Type}.
Variables cr cz sp : P -> Z.
Variable a : area.
Variable base : Z.

(** geometry of a rank: the domain counts divide the (positive) cell counts of the slab; cells fit [int] *)
Definition good_slab : Prop :=
  sane (nr a) (rd_ a) 0 /\ sane (nz a) (zd_ a) base /\ 0 < nr a < 2 ^ 31 /\ 0 < nz a /\ 0 <= base /\ base + nz a < 2 ^ 31 /\
  (rd_ a | nr a) /\ (zd_ a | nz a).
Hypothesis HS : good_slab.

(** the particle is inside the slab / above it / below it / removed by this rank *)
Definition in_slab (p : P) : bool := (0 <=? cr p) && (cr p <? nr a) && (base <=? cz p) && (cz p <? base + nz a).
Definition goes_up (p : P) : bool := (0 <=? cr p) && (base + nz a <=? cz p).
Definition goes_down (p : P) : bool := (0 <=? cr p) && (0 <=? cz p) && (cz p <? base).
Definition kept (p : P) : bool := in_slab p || goes_up p || goes_down p.
Definition home_m (i j : Z) (p : P) : Prop :=
  bound (nr a) (rd_ a) 0 i <= cr p < bound (nr a) (rd_ a) 0 (i + 1) /\
  bound (nz a) (zd_ a) base j <= cz p < bound (nz a) (zd_ a) base (j + 1).

Lemma dst_some n d b c i : sane n d b -> (d | n) -> 0 < n -> 0 <= i < d ->
  exists k, dst_index (local_amount n d b i) b c = Ok k.
Proof.
  intros H D Hp Hi. pose proof H as (? & ? & ? & ? & ?). rewrite local_div by auto. unfold dst_index.
  assert (Hq : 0 < n / d).
  { destruct D as [q Hq']. subst n. rewrite Z.div_mul by lia. nia. }
  replace (n / d =? 0) with false by lia. eauto.
Qed.

Lemma mjudge_spec i j p : 0 <= i < rd_ a -> 0 <= j < zd_ a -> int_cells cr cz p ->
  (kept p = false /\ mjudge P cr cz a base i j p = Ok MRemove) \/
  (goes_up p = true /\ mjudge P cr cz a base i j p = Ok MPlus) \/
  (goes_down p = true /\ mjudge P cr cz a base i j p = Ok MMinus) \/
  (in_slab p = true /\ home_m i j p /\ mjudge P cr cz a base i j p = Ok MKeep) \/
  (in_slab p = true /\ exists i' j', mjudge P cr cz a base i j p = Ok (MMove i' j') /\
     0 <= i' < rd_ a /\ 0 <= j' < zd_ a /\ home_m i' j' p /\ (i', j') <> (i, j)).
Proof.
  intros Hi Hj [Hcr Hcz]. destruct HS as (Sr & Sz & Pr & Pz & Pb & Pe & Dr & Dz). unfold mjudge.
  destruct (dst_some (nr a) (rd_ a) 0 (cr p) i Sr Dr ltac:(lia) Hi) as [di Ei].
  destruct (dst_some (nz a) (zd_ a) base (cz p) j Sz Dz ltac:(lia) Hj) as [dj Ej].
  destruct (in_slab p) eqn:Al.
  - do 3 right. unfold in_slab in Al.
    destruct (bound_owner (nr a) (rd_ a) 0 (cr p) Sr ltac:(lia)) as (oi & Hoi & Boi).
    destruct (bound_owner (nz a) (zd_ a) base (cz p) Sz ltac:(lia)) as (oj & Hoj & Boj).
    rewrite (dst_index_owner (nr a) (rd_ a) 0 (cr p) i oi) by (auto; lia). cbn [bind].
    rewrite (dst_index_owner (nz a) (zd_ a) base (cz p) j oj) by (auto; lia). cbn [bind].
    rewrite !u64_small by lia.
    replace ((cr p <? 0) || (cz p <? 0)) with false by lia.
    replace (cz p <? base) with false by lia. replace (base + nz a <=? cz p) with false by lia.
    replace (nr a <=? cr p) with false by lia.
    destruct (negb (oi =? i) || negb (oj =? j)) eqn:B.
    + right. split; [reflexivity|].
      exists oi, oj. split; [reflexivity|]. split; [exact Hoi|]. split; [exact Hoj|]. split; [split; assumption|].
      intros [= -> ->]. rewrite !Z.eqb_refl in B. discriminate.
    + left. assert (oi = i) by lia. assert (oj = j) by lia. subst. split; [reflexivity|]. split; [split; assumption|reflexivity].
  - rewrite Ei, Ej; cbn [bind]. unfold kept. rewrite Al. unfold in_slab in Al. unfold goes_up, goes_down.
    destruct ((cr p <? 0) || (cz p <? 0)) eqn:B; [left; split; [lia|reflexivity]|].
    rewrite !u64_small by lia.
    destruct (cz p <? base) eqn:B1; [do 2 right; left; split; [lia|reflexivity]|].
    destruct (base + nz a <=? cz p) eqn:B2; [right; left; split; [lia|reflexivity]|].
    replace (nr a <=? cr p) with true by lia. left. split; [lia|reflexivity].
Qed.

(** every particle has int cell numbers and carries the id of its species *)
Definition tagged (st : smb P) : Prop :=
  forall i j s l p, 0 <= i < rd_ a -> 0 <= j < zd_ a -> In (s, l) (st i j) -> In p l -> sp p = s /\ int_cells cr cz p.
Definition all_home_m (i j : Z) (d : domain P) : Prop :=
  forall s l p, In (s, l) d -> In p l -> in_slab p = true /\ home_m i j p.

(** particles of species [sid] counted in the domains and in the queues *)
Definition qcnt (f : P -> bool) (sid : Z) (l : list P) : Z := cntl (fun p => f p && (sp p =? sid)) l.
Definition mcnt (f : P -> bool) (sid : Z) (s : mstate P) : Z :=
  cnt a f sid (doms_of s) + qcnt f sid (q_plus s) + qcnt f sid (q_minus s).
Definition queues_ok (ids : list Z) (s : mstate P) : Prop :=
  (forall p, In p (q_plus s) -> goes_up p = true /\ In (sp p) ids /\ int_cells cr cz p) /\
  (forall p, In p (q_minus s) -> goes_down p = true /\ In (sp p) ids /\ int_cells cr cz p).

Lemma In_push_tag sid (p : P) d s l q : In (s, l) (map (push_species P sid p) d) -> In q l ->
  (exists l', In (s, l') d /\ In q l') \/ (q = p /\ s = sid).
Proof.
  rewrite in_map_iff. intros ([s' l'] & E & Hin) Hq. unfold push_species in E; cbn [fst snd] in E.
  destruct (s' =? sid) eqn:Es.
  - injection E as <- <-. apply in_app_iff in Hq as [Hq|[->|[]]]; [left; eauto|right; split; [reflexivity|lia]].
  - injection E as <- <-. left; eauto.
Qed.

Lemma push_ids ids i' j' sid (p : P) st : ids_ok a ids st -> ids_ok a ids (push P i' j' sid p st).
Proof.
  intros [Hn Hm]. split; [exact Hn|]. intros u v Hu Hv. unfold push, upd_dom.
  destruct ((u =? i') && (v =? j')) eqn:B; [|now apply Hm]. rewrite map_fst_push.
  assert (u = i') by lia. assert (v = j') by lia. subst. now apply Hm.
Qed.
Lemma push_tagged i' j' sid (p : P) st : 0 <= i' < rd_ a -> 0 <= j' < zd_ a ->
  sp p = sid -> int_cells cr cz p -> tagged st -> tagged (push P i' j' sid p st).
Proof.
  intros Hi Hj Es Hp Ht u v s l q Hu Hv Hin Hq. unfold push, upd_dom in Hin.
  destruct ((u =? i') && (v =? j')); [|now apply (Ht u v s l q)].
  destruct (In_push_tag sid p _ s l q Hin Hq) as [(l' & H1 & H2)|[-> ->]]; [now apply (Ht i' j' s l' q)|auto].
Qed.
Lemma push_home i' j' sid (p : P) st : in_slab p = true -> home_m i' j' p ->
  forall u v, all_home_m u v (st u v) -> all_home_m u v (push P i' j' sid p st u v).
Proof.
  intros Hs Hh u v H. unfold push, upd_dom. destruct ((u =? i') && (v =? j')) eqn:B; [|exact H].
  assert (u = i') by lia. assert (v = j') by lia. subst u v. intros s l q Hin Hq.
  destruct (In_push_tag sid p _ s l q Hin Hq) as [(l' & G1 & G2)|[-> _]]; [now apply (H s l' q)|auto].
Qed.
Lemma push_cnt ids i' j' sid (p : P) st f sid' : 0 <= i' < rd_ a -> 0 <= j' < zd_ a -> ids_ok a ids st -> In sid ids ->
  cnt a f sid' (push P i' j' sid p st) = cnt a f sid' st + (if sid =? sid' then (if f p then 1 else 0) else 0).
Proof.
  intros Hi Hj [Hn Hm] Hin. unfold push. rewrite cnt_upd by assumption.
  rewrite cnt_dom_push; [|now rewrite Hm|now rewrite Hm]. lia.
Qed.
Lemma qcnt_snoc f sid l p : qcnt f sid (l ++ [p]) = qcnt f sid l + (if f p && (sp p =? sid) then 1 else 0).
Proof. unfold qcnt. rewrite cntl_app, cntl_cons. change (cntl (fun p0 => f p0 && (sp p0 =? sid)) []) with 0. lia. Qed.

(** invariant of the loops *)
Definition minv (ids : list Z) (i j : Z) (s s' : mstate P) : Prop :=
  ids_ok a ids (doms_of s') /\ tagged (doms_of s') /\ queues_ok ids s' /\ doms_of s' i j = doms_of s i j /\
  (forall u v, 0 <= u < rd_ a -> 0 <= v < zd_ a -> all_home_m u v (doms_of s u v) -> all_home_m u v (doms_of s' u v)).

Lemma mrun_particles_spec ids i j sid : 0 <= i < rd_ a -> 0 <= j < zd_ a -> In sid ids ->
  forall l s, ids_ok a ids (doms_of s) -> tagged (doms_of s) -> queues_ok ids s ->
  (forall p, In p l -> sp p = sid /\ int_cells cr cz p) ->
  exists k s', mrun_particles P cr cz a base i j sid l s = Ok (k, s') /\ minv ids i j s s' /\
    (forall p, In p k -> In p l /\ in_slab p = true /\ home_m i j p) /\
    (forall f sid', (forall p, f p = true -> kept p = true) ->
       mcnt f sid' s' + (if sid =? sid' then cntl f k else 0) = mcnt f sid' s + (if sid =? sid' then cntl f l else 0)).
Proof.
  intros Hi Hj Hsid. induction l as [|p l IH]; intros s Hids Htag Hq Hl.
  - exists [], s. split; [reflexivity|]. split; [split; [exact Hids|]; split; [exact Htag|]; split; [exact Hq|]; split; auto|].
    split; [intros p []|]. intros; lia.
  - cbn [mrun_particles]. destruct (Hl p (or_introl eq_refl)) as [Hsp Hint].
    assert (Hl' : forall q, In q l -> sp q = sid /\ int_cells cr cz q) by (intros; apply Hl; now right).
    destruct (mjudge_spec i j p Hi Hj Hint) as
      [(Al & ->)|[(Al & ->)|[(Al & ->)|[(Al & Hh & ->)|(Al & i' & j' & -> & Hi' & Hj' & Hh' & Hne)]]]]; cbn [bind].
    + destruct (IH s Hids Htag Hq Hl') as (k & s' & E & Hp & Hk & Hc).
      exists k, s'. split; [exact E|]. split; [exact Hp|]. split.
      * intros q Hq'. destruct (Hk q Hq') as (? & ? & ?). split; [now right|tauto].
      * intros f sid' Hf. rewrite Hc by exact Hf. rewrite cntl_cons.
        destruct (f p) eqn:Fp; [apply Hf in Fp; congruence|]. destruct (sid =? sid'); lia.
    + destruct (IH (mkMs (doms_of s) (q_plus s ++ [p]) (q_minus s))) as (k & s' & E & Hp & Hk & Hc); auto.
      { split; cbn [q_plus q_minus]; [|apply Hq]. intros q Hq'. apply in_app_iff in Hq' as [Hq'|[<-|[]]]; [now apply Hq|]. split; [exact Al|]. split; [congruence|exact Hint]. }
      exists k, s'. split; [exact E|]. split; [exact Hp|]. split.
      * intros q Hq'. destruct (Hk q Hq') as (? & ? & ?). split; [now right|tauto].
      * intros f sid' Hf. specialize (Hc f sid' Hf). rewrite Hc. unfold mcnt. cbn [doms_of q_plus q_minus].
        rewrite qcnt_snoc, cntl_cons, Hsp. destruct (sid =? sid'), (f p); cbn [andb]; lia.
    + destruct (IH (mkMs (doms_of s) (q_plus s) (q_minus s ++ [p]))) as (k & s' & E & Hp & Hk & Hc); auto.
      { split; cbn [q_plus q_minus]; [apply Hq|]. intros q Hq'. apply in_app_iff in Hq' as [Hq'|[<-|[]]]; [now apply Hq|]. split; [exact Al|]. split; [congruence|exact Hint]. }
      exists k, s'. split; [exact E|]. split; [exact Hp|]. split.
      * intros q Hq'. destruct (Hk q Hq') as (? & ? & ?). split; [now right|tauto].
      * intros f sid' Hf. specialize (Hc f sid' Hf). rewrite Hc. unfold mcnt. cbn [doms_of q_plus q_minus].
        rewrite qcnt_snoc, cntl_cons, Hsp. destruct (sid =? sid'), (f p); cbn [andb]; lia.
    + destruct (IH s Hids Htag Hq Hl') as (k & s' & E & Hp & Hk & Hc).
      rewrite E; cbn [bind]. exists (p :: k), s'. split; [reflexivity|]. split; [exact Hp|]. split.
      * intros q [<-|Hq']; [split; [now left|tauto]|]. destruct (Hk q Hq') as (? & ? & ?). split; [now right|tauto].
      * intros f sid' Hf. specialize (Hc f sid' Hf). rewrite !cntl_cons. destruct (sid =? sid'); lia.
    + replace (in_range a i' j') with true by (unfold in_range; lia).
      destruct (IH (mkMs (push P i' j' sid p (doms_of s)) (q_plus s) (q_minus s))) as (k & s' & E & Hp & Hk & Hc); auto.
      { cbn [doms_of]. now apply push_ids. }
      { cbn [doms_of]. now apply push_tagged. }
      exists k, s'. split; [exact E|]. split.
      { destruct Hp as (H1 & H2 & H3 & H4 & H5). cbn [doms_of] in *. split; [exact H1|]. split; [exact H2|]. split; [exact H3|]. split.
        - rewrite H4. unfold push. apply upd_dom_ne. congruence.
        - intros u v Hu Hv Hh0. apply H5; auto. now apply push_home. }
      split.
      * intros q Hq'. destruct (Hk q Hq') as (? & ? & ?). split; [now right|tauto].
      * intros f sid' Hf. specialize (Hc f sid' Hf). rewrite Hc. unfold mcnt. cbn [doms_of q_plus q_minus].
        rewrite (push_cnt ids) by assumption. rewrite cntl_cons. destruct (sid =? sid'); lia.
Qed.

Lemma mrun_species_spec ids i j : 0 <= i < rd_ a -> 0 <= j < zd_ a ->
  forall d s, incl (map fst d) ids -> ids_ok a ids (doms_of s) -> tagged (doms_of s) -> queues_ok ids s ->
  (forall x l p, In (x, l) d -> In p l -> sp p = x /\ int_cells cr cz p) ->
  exists d' s', mrun_species P cr cz a base i j d s = Ok (d', s') /\ minv ids i j s s' /\
    map fst d' = map fst d /\ all_home_m i j d' /\ (forall x l p, In (x, l) d' -> In p l -> sp p = x /\ int_cells cr cz p) /\
    (forall f sid', (forall p, f p = true -> kept p = true) ->
       mcnt f sid' s' + cnt_dom f sid' d' = mcnt f sid' s + cnt_dom f sid' d).
Proof.
  intros Hi Hj. induction d as [|[x l] d IH]; intros s Hincl Hids Htag Hq Hd.
  - exists [], s. split; [reflexivity|]. split; [split; [exact Hids|]; split; [exact Htag|]; split; [exact Hq|]; split; auto|].
    split; [reflexivity|]. split; [intros ? ? ? []|]. split; [intros ? ? ? []|]. intros; reflexivity.
  - cbn [mrun_species fst snd].
    destruct (mrun_particles_spec ids i j x Hi Hj (Hincl x (or_introl eq_refl)) l s Hids Htag Hq) as (k & s1 & E1 & Hp1 & Hk & Hc1).
    { intros p Hp. apply (Hd x l p); [now left|assumption]. }
    rewrite E1; cbn [bind]. destruct Hp1 as (A1 & A2 & A3 & A4 & A5).
    destruct (IH s1) as (d' & s2 & E2 & Hp2 & Hm & Hh & Ht & Hc2); auto.
    { intros y Hy. apply Hincl. now right. }
    { intros y l' p Hin Hp. apply (Hd y l' p); [now right|assumption]. }
    rewrite E2; cbn [bind]. exists ((x, k) :: d'), s2. split; [reflexivity|].
    destruct Hp2 as (B1 & B2 & B3 & B4 & B5). split.
    { split; [exact B1|]. split; [exact B2|]. split; [exact B3|]. split; [congruence|]. auto. }
    split; [cbn [map fst]; congruence|]. split.
    { intros y l' p [[= <- <-]|Hin] Hp; [destruct (Hk p Hp); tauto|now apply (Hh y l' p)]. }
    split.
    { intros y l' p [[= <- <-]|Hin] Hp; [|now apply (Ht y l' p)]. apply (Hd x l p); [now left|]. now apply Hk. }
    intros f sid' Hf. specialize (Hc1 f sid' Hf). specialize (Hc2 f sid' Hf).
    unfold cnt_dom, sumZ in *; cbn [fold_right fst snd]. lia.
Qed.

Lemma mrun_domain_spec ids i j s : 0 <= i < rd_ a -> 0 <= j < zd_ a ->
  ids_ok a ids (doms_of s) -> tagged (doms_of s) -> queues_ok ids s ->
  exists s', mrun_domain P cr cz a base i j s = Ok s' /\ ids_ok a ids (doms_of s') /\ tagged (doms_of s') /\ queues_ok ids s' /\
    all_home_m i j (doms_of s' i j) /\
    (forall u v, 0 <= u < rd_ a -> 0 <= v < zd_ a -> all_home_m u v (doms_of s u v) -> all_home_m u v (doms_of s' u v)) /\
    (forall f sid, (forall p, f p = true -> kept p = true) -> mcnt f sid s' = mcnt f sid s).
Proof.
  intros Hi Hj Hids Htag Hq. unfold mrun_domain. pose proof Hids as [Hn Hm].
  destruct (mrun_species_spec ids i j Hi Hj (doms_of s i j) s) as (d & s1 & E & Hp & Hmd & Hh & Ht & Hc); auto.
  { rewrite Hm by assumption. intros x Hx; exact Hx. }
  { intros x l p Hin Hp. now apply (Htag i j x l p). }
  rewrite E; cbn [bind]. eexists; split; [reflexivity|]. cbn [doms_of q_plus q_minus].
  destruct Hp as ((B1 & B1') & B2 & B3 & B4 & B5). split; [|split; [|split; [|split; [|split]]]].
  - split; [exact Hn|]. intros u v Hu Hv. unfold upd_dom. destruct ((u =? i) && (v =? j)); [|now apply B1'].
    rewrite Hmd. now apply Hm.
  - intros u v x l q Hu Hv Hin Hq'. unfold upd_dom in Hin. destruct ((u =? i) && (v =? j)) eqn:B; [now apply (Ht x l q)|now apply (B2 u v x l q)].
  - exact B3.
  - rewrite upd_dom_eq. exact Hh.
  - intros u v Hu Hv Hh0. unfold upd_dom. destruct ((u =? i) && (v =? j)) eqn:B; [|now apply B5].
    assert (u = i) by lia. assert (v = j) by lia. subst. exact Hh.
  - intros f sid Hf. specialize (Hc f sid Hf). unfold mcnt in *. cbn [doms_of q_plus q_minus].
    rewrite cnt_upd by assumption. rewrite B4. lia.
Qed.

Lemma mcollect_spec ids order : forall s, ids_ok a ids (doms_of s) -> tagged (doms_of s) -> queues_ok ids s ->
  (forall i j, In (i, j) order -> 0 <= i < rd_ a /\ 0 <= j < zd_ a) ->
  exists s', mcollect P cr cz a base order s = Ok s' /\ ids_ok a ids (doms_of s') /\ tagged (doms_of s') /\ queues_ok ids s' /\
    (forall i j, In (i, j) order -> all_home_m i j (doms_of s' i j)) /\
    (forall u v, 0 <= u < rd_ a -> 0 <= v < zd_ a -> all_home_m u v (doms_of s u v) -> all_home_m u v (doms_of s' u v)) /\
    (forall f sid, (forall p, f p = true -> kept p = true) -> mcnt f sid s' = mcnt f sid s).
Proof.
  induction order as [|[i j] order IH]; intros s Hids Htag Hq Hr.
  - exists s. split; [reflexivity|]. split; [exact Hids|]. split; [exact Htag|]. split; [exact Hq|]. split; [intros ? ? []|]. auto.
  - cbn [mcollect]. destruct (Hr i j (or_introl eq_refl)) as [Hi Hj].
    destruct (mrun_domain_spec ids i j s Hi Hj Hids Htag Hq) as (s1 & E & A1 & A2 & A3 & A4 & A5 & A6).
    rewrite E; cbn [bind].
    destruct (IH s1 A1 A2 A3) as (s2 & E2 & B1 & B2 & B3 & B4 & B5 & B6); [intros; apply Hr; now right|].
    exists s2. split; [exact E2|]. split; [exact B1|]. split; [exact B2|]. split; [exact B3|]. split; [|split].
    + intros u v [[= <- <-]|Hin]; [now apply B5|now apply B4].
    + intros u v Hu Hv Hh. apply B5; auto.
    + intros f sid Hf. rewrite B6, A6 by exact Hf. reflexivity.
Qed.

(** ** Receiving *)
Lemma receive1_spec p st : in_slab p = true ->
  exists i j, 0 <= i < rd_ a /\ 0 <= j < zd_ a /\ home_m i j p /\
    receive1 P cr cz sp a base p st = Ok (push P i j (sp p) p st).
Proof.
  intros Al. destruct HS as (Sr & Sz & Pr & Pz & Pb & Pe & Dr & Dz). unfold in_slab in Al.
  destruct (bound_owner (nr a) (rd_ a) 0 (cr p) Sr ltac:(lia)) as (oi & Hoi & Boi).
  destruct (bound_owner (nz a) (zd_ a) base (cz p) Sz ltac:(lia)) as (oj & Hoj & Boj).
  exists oi, oj. split; [exact Hoi|]. split; [exact Hoj|]. split; [split; assumption|].
  unfold receive1. rewrite (dst_index_owner (nr a) (rd_ a) 0 (cr p) 0 oi) by (auto; lia). cbn [bind].
  rewrite (dst_index_owner (nz a) (zd_ a) base (cz p) 0 oj) by (auto; lia). cbn [bind].
  replace (in_range a oi oj) with true by (unfold in_range; lia). reflexivity.
Qed.

Lemma receive_spec ids : forall l st, ids_ok a ids st -> tagged st ->
  (forall p, In p l -> in_slab p = true /\ In (sp p) ids /\ int_cells cr cz p) ->
  (forall u v, 0 <= u < rd_ a -> 0 <= v < zd_ a -> all_home_m u v (st u v)) ->
  exists st', receive P cr cz sp a base l st = Ok st' /\ ids_ok a ids st' /\ tagged st' /\
    (forall u v, 0 <= u < rd_ a -> 0 <= v < zd_ a -> all_home_m u v (st' u v)) /\
    (forall f sid, cnt a f sid st' = cnt a f sid st + qcnt f sid l).
Proof.
  induction l as [|p l IH]; intros st Hids Htag Hl Hh.
  - exists st. split; [reflexivity|]. repeat (split; [assumption|]). intros f sid. change (qcnt f sid []) with 0. lia.
  - destruct (Hl p (or_introl eq_refl)) as (Al & Hin & Hint).
    destruct (receive1_spec p st Al) as (i & j & Hi & Hj & Hhome & E). cbn [receive]. rewrite E; cbn [bind].
    destruct (IH (push P i j (sp p) p st)) as (st' & E' & A1 & A2 & A3 & A4).
    + now apply push_ids.
    + now apply push_tagged.
    + intros q Hq. apply Hl. now right.
    + intros u v Hu Hv. apply push_home; auto.
    + exists st'. split; [exact E'|]. repeat (split; [assumption|]). intros f sid. rewrite A4.
      rewrite (push_cnt ids) by assumption. unfold qcnt. rewrite cntl_cons.
      destruct (sp p =? sid), (f p); cbn [andb]; lia.
Qed.

(** a particle beyond the outermost cells of the receiver in r breaks it *)
Lemma receive1_bad_r p st : nr a <= cr p < 2 ^ 31 -> receive1 P cr cz sp a base p st = UB.
Proof.
  intros Hr. destruct HS as (Sr & Sz & Pr & Pz & Pb & Pe & Dr & Dz). unfold receive1.
  pose proof Sr as (? & ? & ? & ? & ?).
  rewrite local_div by (auto; lia). unfold dst_index at 1.
  assert (Hq : 0 < nr a / rd_ a).
  { destruct Dr as [q Hq']. rewrite Hq'. rewrite Z.div_mul by lia. nia. }
  replace (nr a / rd_ a =? 0) with false by lia. cbn [bind].
  destruct (dst_some (nz a) (zd_ a) base (cz p) 0 Sz Dz Pz) as [k Ek]; [pose proof Sz as (? & ? & _); lia|].
  rewrite Ek; cbn [bind]. rewrite u64_small by lia. rewrite Z.sub_0_r.
  assert (rd_ a <= cr p / (nr a / rd_ a)).
  { apply Z.div_le_lower_bound; [lia|]. rewrite Z.mul_comm. destruct Dr as [q Hq']. rewrite Hq' in *.
    rewrite Z.div_mul by lia. lia. }
  assert (cr p / (nr a / rd_ a) <= cr p) by (apply Z.div_le_upper_bound; [lia|]; nia).
  rewrite u32_small by lia. replace (in_range a (cr p / (nr a / rd_ a)) k) with false by (unfold in_range; lia). reflexivity.
Qed.
(** so does one above its slab *)
Lemma receive1_above p st : 0 <= cr p < nr a -> base + nz a <= cz p < 2 ^ 31 -> receive1 P cr cz sp a base p st = UB.
Proof.
  intros Hr Hz. destruct HS as (Sr & Sz & Pr & Pz & Pb & Pe & Dr & Dz). unfold receive1.
  destruct (dst_some (nr a) (rd_ a) 0 (cr p) 0 Sr Dr) as [k Ek]; [lia|pose proof Sr as (? & ? & _); lia|].
  rewrite Ek; cbn [bind]. pose proof Sz as (? & ? & ? & ? & ?).
  rewrite local_div by (auto; lia). unfold dst_index.
  assert (Hq : 0 < nz a / zd_ a).
  { destruct Dz as [q Hq']. rewrite Hq'. rewrite Z.div_mul by lia. nia. }
  replace (nz a / zd_ a =? 0) with false by lia. cbn [bind]. rewrite u64_small by lia.
  assert (zd_ a <= (cz p - base) / (nz a / zd_ a)).
  { apply Z.div_le_lower_bound; [lia|]. rewrite Z.mul_comm. destruct Dz as [q Hq']. rewrite Hq' in *.
    rewrite Z.div_mul by lia. lia. }
  assert ((cz p - base) / (nz a / zd_ a) <= cz p - base) by (apply Z.div_le_upper_bound; [lia|]; nia).
  rewrite u32_small by lia. replace (in_range a k ((cz p - base) / (nz a / zd_ a))) with false by (unfold in_range; lia). reflexivity.
Qed.
End Rank.

(** ** Messages *)
Lemma parts_map {P} (l : list P) : parts (length l) (map Part l) = Ok l.
Proof. induction l as [|p l IH]; cbn [length map parts]; [reflexivity|]. rewrite IH. reflexivity. Qed.
Lemma decode_payload {P} (q : list P) : Z.of_nat (length q) < 2 ^ 32 -> decode (payload q) = Ok q.
Proof.
  intros H. unfold payload, decode. rewrite u32_small by lia. rewrite Nat2Z.id, firstn_all. apply parts_map.
Qed.

(** sums over the ranks *)
Definition ranks (W : Z) : list Z := range (Z.to_nat W).
Lemma sum_up (c : Z -> Z) W : 0 < W -> sumZ (fun p => if 0 <? p then c (p - 1) else 0) (ranks W) = sumZ (fun p => if p <? W - 1 then c p else 0) (ranks W).
Proof.
  intros HW. unfold ranks. assert (EW : exists n, W = Z.of_nat n) by (exists (Z.to_nat W); lia).
  destruct EW as [w ->]. rewrite Nat2Z.id.
  assert (G : forall n, (0 < n)%nat -> sumZ (fun p => if 0 <? p then c (p - 1) else 0) (range n) = sumZ c (range (n - 1)) /\
              sumZ (fun p => if p <? Z.of_nat n - 1 then c p else 0) (range n) = sumZ c (range (n - 1))).
  { intros n Hn. destruct n as [|n]; [lia|]. replace (S n - 1)%nat with n by lia. split.
    - clear Hn. induction n as [|n IH]; [reflexivity|]. change (range (S (S n))) with (range (S n) ++ [Z.of_nat (S n)]).
      rewrite sumZ_app, IH. change (range (S n)) with (range n ++ [Z.of_nat n]). rewrite sumZ_app. f_equal.
      unfold sumZ; cbn [fold_right]. replace (0 <? Z.of_nat (S n)) with true by lia. do 2 f_equal. lia.
    - change (range (S n)) with (range n ++ [Z.of_nat n]). rewrite sumZ_app. unfold sumZ at 2; cbn [fold_right].
      replace (Z.of_nat n <? Z.of_nat (S n) - 1) with false by lia.
      rewrite (sumZ_ext _ c); [lia|]. intros x Hx. apply In_range in Hx. now replace (x <? Z.of_nat (S n) - 1) with true by lia. }
  destruct (G w ltac:(lia)) as [-> ->]. reflexivity.
Qed.
Lemma sum_down (c : Z -> Z) W : 0 < W -> sumZ (fun p => if p <? W - 1 then c (p + 1) else 0) (ranks W) = sumZ (fun p => if 0 <? p then c p else 0) (ranks W).
Proof.
  intros HW. rewrite <- (sum_up (fun p => c (p + 1)) W HW). apply sumZ_ext. intros x Hx.
  destruct (0 <? x); [f_equal; lia|reflexivity].
Qed.
