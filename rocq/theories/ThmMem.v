(** C147: the particle objects: every pointer in the vectors points to an object of its own; what is never deleted. *)
From Coq Require Import ZifyBool Permutation.
From Verif Require Import Base ListUtil DecompModel DecompProofs CollectorModel CollectorProofs MpiModel MigrModel MigrProofs MemModel.
Open Scope Z_scope.

(** ** lists *)
Lemma perm_nodup_app {A} (l1 l2 l : list A) : Permutation (l1 ++ l2) l -> NoDup l -> NoDup l1 /\ NoDup l2 /\ (forall x, In x l1 -> ~ In x l2).
Proof.
  intros P N. apply (Permutation_NoDup (Permutation_sym P)) in N. clear P. induction l1 as [|x l1 IH]; cbn [app] in N.
  - split; [constructor|]. split; [exact N|intros ? []].
  - inversion N as [|? ? H1 H2]; subst. destruct (IH H2) as (A1 & A2 & A3). rewrite in_app_iff in H1. split; [constructor; tauto|]. split; [exact A2|].
    intros y [->|Hy]; [tauto|now apply A3].
Qed.
Lemma in_use_In m p : in_use m p = true <-> In p (live m).
Proof. unfold in_use. rewrite existsb_exists. split; [intros (x & H & E); apply Z.eqb_eq in E; now subst|intros H; exists p; split; [exact H|apply Z.eqb_refl]]. Qed.
Lemma uses_ok m l : incl l (live m) -> uses m l = Ok tt.
Proof. intros H. unfold uses. replace (forallb (in_use m) l) with true; [reflexivity|]. symmetry. apply forallb_forall. intros x Hx. apply in_use_In. now apply H. Qed.
Lemma filter_del p l : NoDup (p :: l) -> filter (fun q => negb (q =? p)) (p :: l) = l.
Proof.
  intros N. inversion N as [|? ? H _]; subst. cbn [filter]. rewrite Z.eqb_refl. cbn [negb]. clear N. induction l as [|x l IH]; [reflexivity|]. cbn [filter].
  destruct (x =? p) eqn:E; [exfalso; apply H; left; lia|]. cbn [negb]. f_equal. apply IH. intros X. apply H. now right.
Qed.
Lemma perm_filter {A} (f : A -> bool) l l' : Permutation l l' -> Permutation (filter f l) (filter f l').
Proof.
  intros P. induction P as [|x l l' P IH|x y l|l l' l'' P1 IH1 P2 IH2]; cbn [filter]; [constructor| | |now rewrite IH1].
  - destruct (f x); [now constructor|exact IH].
  - destruct (f x), (f y); (reflexivity || apply perm_swap).
Qed.
(** deleting a part of the objects *)
Lemma del_all_spec l : forall m rest, NoDup (live m) -> Permutation (live m) (l ++ rest) ->
  exists m', del_all l m = Ok m' /\ at_ m' = at_ m /\ NoDup (live m') /\ Permutation (live m') rest.
Proof.
  induction l as [|p l IH]; intros m rest N P; cbn [del_all app] in *; [exists m; auto|].
  assert (Hp : In p (live m)) by (apply (Permutation_in _ (Permutation_sym P)); now left).
  unfold del. rewrite (proj2 (in_use_In m p) Hp). cbn [bind].
  assert (P' : Permutation (filter (fun q => negb (q =? p)) (live m)) (l ++ rest)).
  { rewrite (perm_filter _ _ _ P). rewrite filter_del; [reflexivity|]. now apply (Permutation_NoDup P). }
  destruct (IH (mkMem (filter (fun q => negb (q =? p)) (live m)) (at_ m)) rest) as (m' & E & Ea & N' & P2); [cbn [live]; now apply NoDup_filter|exact P'|].
  exists m'. auto.
Qed.

Lemma flat_map_nil {A B} (f : A -> list B) l : (forall x, In x l -> f x = []) -> flat_map f l = [].
Proof. induction l as [|x l IH]; intros H; [reflexivity|]. cbn [flat_map]. rewrite H by (now left). apply IH. intros y Hy. apply H. now right. Qed.
(** ** the listed pointers *)
Section Listed.
Variable a : area.
Lemma sumZ_cons {A} (f : A -> Z) x l : sumZ f (x :: l) = f x + sumZ f l.
Proof. reflexivity. Qed.
Lemma cnt_dom_cons (f : addr -> bool) x s l d : cnt_dom f x ((s, l) :: d) = (if s =? x then cntl f l else 0) + cnt_dom f x d.
Proof. reflexivity. Qed.
Lemma cnt_dom_none (f : addr -> bool) x d : ~ In x (map fst d) -> cnt_dom f x d = 0.
Proof.
  induction d as [|[s l] d IH]; intros H; [reflexivity|]. rewrite cnt_dom_cons. cbn [map fst In] in H. destruct (s =? x) eqn:E; [exfalso; apply H; left; lia|].
  rewrite IH; [reflexivity|tauto].
Qed.
Lemma cnt_total (f : addr -> bool) (d : domain addr) : NoDup (map fst d) -> cntl f (flat_map snd d) = sumZ (fun sid => cnt_dom f sid d) (map fst d).
Proof.
  induction d as [|[s l] d IH]; intros N; [reflexivity|]. cbn [map fst] in N. inversion N as [|? ? H1 H2]; subst. cbn [flat_map map fst snd].
  rewrite cntl_app, IH, sumZ_cons, cnt_dom_cons, Z.eqb_refl, (cnt_dom_none f s d) by assumption. rewrite Z.add_0_r. f_equal.
  apply sumZ_ext. intros x Hx. rewrite cnt_dom_cons. destruct (s =? x) eqn:E; [exfalso; apply H1; replace s with x by lia; exact Hx|lia].
Qed.
Lemma listed_total ids f (st : smb addr) : ids_ok a ids st -> cntl f (listed a st) = sumZ (fun sid => cnt a f sid st) ids.
Proof.
  intros [N I]. unfold listed. rewrite cntl_flat_map. unfold cnt.
  assert (X : forall l, (forall ij, In ij l -> 0 <= fst ij < rd_ a /\ 0 <= snd ij < zd_ a) ->
     sumZ (fun ij => cntl f (flat_map snd (st (fst ij) (snd ij)))) l = sumZ (fun sid => sumZ (fun ij => cnt_dom f sid (st (fst ij) (snd ij))) l) ids).
  { induction l as [|ij l IH]; intros H.
    - clear. unfold sumZ. cbn. induction ids as [|x ids IH]; [reflexivity|]. cbn [fold_right]. lia.
    - unfold sumZ at 1. cbn [fold_right]. fold (sumZ (fun ij => cntl f (flat_map snd (st (fst ij) (snd ij)))) l). rewrite IH by (intros; apply H; now right).
      destruct (H ij (or_introl eq_refl)) as [Hi Hj]. rewrite cnt_total by (rewrite I; assumption). rewrite I by assumption. rewrite <- sumZ_add. apply sumZ_ext. intros sid _. reflexivity. }
  apply X. intros [i j] Hij. now apply In_pairs in Hij.
Qed.
Lemma listed_In (st : smb addr) p : In p (listed a st) <-> exists i j s l, 0 <= i < rd_ a /\ 0 <= j < zd_ a /\ In (s, l) (st i j) /\ In p l.
Proof.
  unfold listed. rewrite in_flat_map. split.
  - intros ([i j] & Hij & H). apply In_pairs in Hij. cbn [fst snd] in H. apply in_flat_map in H as ([s l] & Hs & Hp). exists i, j, s, l. tauto.
  - intros (i & j & s & l & Hi & Hj & Hs & Hp). exists (i, j). split; [now apply In_pairs|]. apply in_flat_map. exists (s, l). auto.
Qed.
Lemma cntl_one (p : addr) f : cntl f [p] = if f p then 1 else 0.
Proof. unfold cntl, sumZ. cbn. lia. Qed.
Lemma sum_one (c : Z) sid ids : NoDup ids -> In sid ids -> sumZ (fun x => if sid =? x then c else 0) ids = c.
Proof.
  induction ids as [|x ids IH]; intros N H; [destruct H|]. inversion N as [|? ? H1 H2]; subst. rewrite sumZ_cons. destruct H as [->|H].
  - rewrite Z.eqb_refl. rewrite (sumZ_ext _ (fun _ => 0)); [clear; induction ids as [|y ids IH]; [unfold sumZ; cbn; lia|unfold sumZ in *; cbn [fold_right]; lia]|].
    intros y Hy. destruct (sid =? y) eqn:E; [exfalso; apply H1; replace sid with y by lia; exact Hy|reflexivity].
  - rewrite IH by assumption. destruct (sid =? x) eqn:E; [exfalso; apply H1; replace x with sid by lia; exact H|reflexivity].
Qed.
Lemma listed_push ids i j sid p st : 0 <= i < rd_ a -> 0 <= j < zd_ a -> ids_ok a ids st -> In sid ids ->
  Permutation (listed a (push addr i j sid p st)) (p :: listed a st).
Proof.
  intros Hi Hj Hids Hin. apply (cntl_permutation (A := addr) Z.eq_dec). intros f. rewrite cntl_cons.
  rewrite (listed_total ids) by (apply push_ids; assumption). rewrite (listed_total ids) by assumption.
  rewrite (sumZ_ext _ (fun x => (if sid =? x then (if f p then 1 else 0) else 0) + cnt a f x st)).
  - rewrite sumZ_add. f_equal. apply sum_one; [apply Hids|exact Hin].
  - intros x _. rewrite (push_cnt a ids) by assumption. apply Z.add_comm.
Qed.
End Listed.

(** ** the operations *)
Lemma s32_range z : - 2 ^ 31 <= s32 z < 2 ^ 31.
Proof. unfold s32. assert (H := Z.mod_pos_bound (z + 2 ^ 31) (2 ^ 32) ltac:(lia)). lia. Qed.
(** specification: which operations a run has: particles are made for species that exist; with MPI the neighbours send particles of
    the slab *)
Definition op_ok (a : area) (base : Z) (ids : list Z) (o : op) : Prop :=
  match o with
  | Fill i j sid _ _ => 0 <= i < rd_ a /\ 0 <= j < zd_ a /\ In sid ids
  | Touch _ => True
  | Sort => good_area a
  | Exchange rs => good_slab a base /\ forall o, In o rs -> In (o_sp o) ids /\ 0 <= s32 (o_r o) < nr a /\ base <= s32 (o_z o) < base + nz a
  | Destroy => True
  end.
Section Run.
Variable fresh : list addr -> addr.
Hypothesis fresh_new : forall l, ~ In (fresh l) l.
Variable a : area.
Variable base : Z.
Variable ids : list Z.

Definition tags (m : mem) (st : smb addr) : Prop :=
  forall i j s l p, 0 <= i < rd_ a -> 0 <= j < zd_ a -> In (s, l) (st i j) -> In p l -> psp m p = s.
(** the objects in use: those in the vectors, and [rest] *)
Definition holds (m : mem) (st : smb addr) (rest : list addr) : Prop :=
  ids_ok a ids st /\ tags m st /\ NoDup (live m) /\ Permutation (live m) (listed a st ++ rest).
Lemma int_always m p : int_cells (pcr m) (pcz m) p.
Proof using. unfold int_cells, pcr, pcz. split; apply s32_range. Qed.
Lemma tags_tagged m st : tags m st -> tagged (pcr m) (pcz m) (psp m) a st.
Proof using. intros T i j s l p Hi Hj Hs Hp. split; [now apply (T i j s l)|apply int_always]. Qed.
Lemma holds_live m st rest : holds m st rest -> incl (listed a st) (live m).
Proof using. intros (_ & _ & _ & P) x Hx. apply (Permutation_in _ (Permutation_sym P)). apply in_or_app. now left. Qed.

(** a new object for a species *)
Lemma make_push m st rest i j o : holds m st rest -> 0 <= i < rd_ a -> 0 <= j < zd_ a -> In (o_sp o) ids ->
  holds (snd (make fresh o m)) (push addr i j (o_sp o) (fst (make fresh o m)) st) rest.
Proof using fresh_new.
  intros (I & T & N & P) Hi Hj Hs. assert (F := fresh_new (live m)). unfold make. cbn [fst snd]. set (p := fresh (live m)) in *.
  split; [now apply push_ids|]. split; [|split].
  - intros u v s l q Hu Hv Hl Hq. unfold psp, set_obj. cbn [at_].
    assert (Old : forall l', In (s, l') (st u v) -> In q l' -> o_sp (if q =? p then o else at_ m q) = s).
    { intros l' Hl' Hq'. destruct (q =? p) eqn:E; [|exact (T u v s l' q Hu Hv Hl' Hq')]. exfalso. apply F. replace p with q by lia.
      apply (Permutation_in _ (Permutation_sym P)). apply in_or_app. left. apply listed_In. exists u, v, s, l'. auto. }
    unfold push, upd_dom in Hl. destruct ((u =? i) && (v =? j)) eqn:B; [|now apply (Old l)].
    assert (u = i /\ v = j) as [-> ->] by lia. destruct (In_push_tag _ _ _ _ _ _ Hl Hq) as [(l' & H1 & H2)|[-> ->]]; [now apply (Old l')|]. now rewrite Z.eqb_refl.
  - cbn [live]. now constructor.
  - cbn [live set_obj]. rewrite (listed_push a ids) by assumption. cbn [app]. now constructor.
Qed.
(** sorting *)
Lemma sort_spec m st rest : good_area a -> holds m st rest ->
  exists st', collect addr (pcr m) (pcz m) a (code_order a) st = Ok st' /\
    Permutation (listed a st') (filter (alive (pcr m) (pcz m) a) (listed a st)) /\
    holds m st' (filter (fun p => negb (alive (pcr m) (pcz m) a p)) (listed a st) ++ rest).
Proof using.
  intros HA (I & T & N & P).
  assert (Hp : 0 <= rd_ a /\ 0 <= zd_ a) by (destruct HA as (H1 & H2 & _); unfold sane in *; lia).
  destruct (collect_total (pcr m) (pcz m) a HA ids (code_order a) st I) as (st' & E & I' & _ & _ & C').
  - intros ? ? ? ? ? ? ? ? ?. apply int_always.
  - intros i j. apply code_order_In; tauto.
  - exists st'. split; [exact E|].
    assert (Pm : Permutation (listed a st') (filter (alive (pcr m) (pcz m) a) (listed a st))).
    { apply (cntl_permutation (A := addr) Z.eq_dec). intros f. rewrite cntl_filter, !(listed_total a ids) by assumption. apply sumZ_ext. intros sid _.
      rewrite !cnt_particles_of, C'. apply cntl_filter. }
    split; [exact Pm|]. split; [exact I'|]. split; [|split; [exact N|]].
    + intros i j s l p Hi Hj Hs Hp'.
      assert (Q : In p (particles_of a s st')).
      { unfold particles_of. apply in_flat_map. exists (i, j). split; [now apply In_pairs|]. apply in_flat_map. exists (s, l). split; [exact Hs|]. cbn [fst snd]. now rewrite Z.eqb_refl. }
      assert (Pq : Permutation (particles_of a s st') (filter (alive (pcr m) (pcz m) a) (particles_of a s st))) by (apply (cntl_permutation (A := addr) Z.eq_dec); intros f; apply C').
      apply (Permutation_in _ Pq), filter_In in Q as [Q _]. unfold particles_of in Q. apply in_flat_map in Q as ([u v] & Huv & Q). apply In_pairs in Huv. cbn [fst snd] in Q.
      apply in_flat_map in Q as ([s' l'] & Hs' & Q). cbn [fst snd] in Q. destruct (s' =? s) eqn:Es; [|destruct Q]. replace s with s' by lia. now apply (T u v s' l').
    + rewrite P. rewrite app_assoc. apply Permutation_app_tail. rewrite Pm. clear. induction (listed a st) as [|x l IH]; [constructor|]. cbn [filter].
      destruct (alive (pcr m) (pcz m) a x); cbn [negb app]; [now constructor|]. now apply Permutation_cons_app.
Qed.
(** the exchange with the neighbours *)
Lemma sum_q m f l : NoDup ids -> (forall p, In p l -> In (psp m p) ids) -> sumZ (fun sid => qcnt (psp m) f sid l) ids = cntl f l.
Proof using.
  intros N. induction l as [|p l IH]; intros H.
  - clear. unfold qcnt, cntl, sumZ. cbn. induction ids as [|x l IH]; [reflexivity|]. cbn [fold_right]. lia.
  - rewrite cntl_cons, <- IH by (intros; apply H; now right).
    rewrite (sumZ_ext _ (fun sid => (if psp m p =? sid then (if f p then 1 else 0) else 0) + qcnt (psp m) f sid l)).
    + rewrite sumZ_add. f_equal. apply sum_one; [exact N|]. apply H. now left.
    + intros sid _. unfold qcnt. rewrite cntl_cons. destruct (psp m p =? sid), (f p); reflexivity.
Qed.
Lemma perm_split {A} (f : A -> bool) l : Permutation l (filter f l ++ filter (fun p => negb (f p)) l).
Proof using.
  clear. induction l as [|x l IH]; [constructor|]. cbn [filter]. destruct (f x); cbn [negb app]; [now constructor|]. now apply Permutation_cons_app.
Qed.
Let keeps (m : mem) := kept (pcr m) (pcz m) a base.
Lemma msort_spec m st rest : good_slab a base -> holds m st rest ->
  exists q, mcollect addr (pcr m) (pcz m) a base (code_order a) (mkMs st [] []) = Ok q /\
    Permutation (listed a (doms_of q) ++ q_plus q ++ q_minus q) (filter (keeps m) (listed a st)) /\
    (forall p, In p (q_plus q) \/ In p (q_minus q) -> in_slab (pcr m) (pcz m) a base p = false) /\
    (forall p, In p (listed a (doms_of q)) -> in_slab (pcr m) (pcz m) a base p = true) /\
    holds m (doms_of q) (q_minus q ++ q_plus q ++ filter (fun p => negb (keeps m p)) (listed a st) ++ rest).
Proof using.
  intros HS (I & T & N & P).
  assert (Hp : 0 <= rd_ a /\ 0 <= zd_ a) by (destruct HS as (H1 & H2 & _); unfold sane in *; lia).
  destruct (mcollect_spec (pcr m) (pcz m) (psp m) a base HS ids (code_order a) (mkMs st [] [])) as (q & E & I' & T' & [Q1 Q2] & H' & _ & C').
  - exact I.
  - now apply tags_tagged.
  - split; intros ? [].
  - intros i j Hij. now apply code_order_In in Hij.
  - exists q. split; [exact E|].
    assert (Ins : forall p, In p (listed a (doms_of q)) -> in_slab (pcr m) (pcz m) a base p = true).
    { intros p Hl. apply listed_In in Hl as (i & j & s & l & Hi & Hj & Hs & Hl). assert (O : In (i, j) (code_order a)) by (apply code_order_In; tauto). now apply (H' i j O s l p). }
    assert (Kq : forall p, In p (listed a (doms_of q)) \/ In p (q_plus q) \/ In p (q_minus q) -> keeps m p = true).
    { intros p [Hl|[Hq|Hq]]; unfold keeps, kept.
      - now rewrite (Ins p Hl).
      - destruct (Q1 p Hq) as (G & _). rewrite G, orb_true_r. reflexivity.
      - destruct (Q2 p Hq) as (G & _). rewrite G, orb_true_r. reflexivity. }
    assert (Pm : Permutation (listed a (doms_of q) ++ q_plus q ++ q_minus q) (filter (keeps m) (listed a st))).
    { apply (cntl_permutation (A := addr) Z.eq_dec). intros f. rewrite cntl_filter.
      rewrite (cntl_ext f (fun x => f x && keeps m x)).
      2:{ intros x Hx. rewrite !in_app_iff in Hx. rewrite Kq by exact Hx. now rewrite andb_true_r. }
      set (g := fun x => f x && keeps m x). rewrite !cntl_app, !(listed_total a ids) by assumption.
      rewrite <- (sum_q m g (q_plus q)), <- (sum_q m g (q_minus q)); try (apply I); [|intros p Hq; now apply Q2|intros p Hq; now apply Q1].
      rewrite <- !sumZ_add. apply sumZ_ext. intros sid _.
      assert (C := C' g sid). unfold mcnt in C. cbn [doms_of q_plus q_minus] in C. change (qcnt (psp m) g sid []) with 0 in C.
      rewrite !Z.add_0_r in C. rewrite <- C; [apply Z.add_assoc|]. intros x Hx. unfold g in Hx. apply andb_prop in Hx. exact (proj2 Hx). }
    split; [exact Pm|]. split; [|split; [exact Ins|]].
    + intros p Hq. assert (G : goes_up (pcr m) (pcz m) a base p = true \/ goes_down (pcr m) (pcz m) base p = true) by (destruct Hq as [Hq|Hq]; [left; now apply Q1|right; now apply Q2]).
      unfold in_slab, goes_up, goes_down in *. lia.
    + split; [exact I'|]. split; [|split; [exact N|]].
      * intros i j s l p Hi Hj Hs Hl. now apply (T' i j s l p).
      * rewrite P. rewrite (perm_split (keeps m) (listed a st)) at 1. rewrite <- Pm. rewrite <- !app_assoc. apply Permutation_app_head.
        rewrite (app_assoc (q_plus q)), (app_assoc (q_minus q)). apply Permutation_app_tail. apply Permutation_app_comm.
Qed.
Lemma arrive_spec rs : good_slab a base -> (forall o, In o rs -> In (o_sp o) ids /\ 0 <= s32 (o_r o) < nr a /\ base <= s32 (o_z o) < base + nz a) ->
  forall m st rest, holds m st rest -> exists m' st', arrive fresh a base rs (m, st) = Ok (m', st') /\ holds m' st' rest /\
    length (listed a st') = (length (listed a st) + length rs)%nat.
Proof using fresh_new.
  intros HS. induction rs as [|o rs IH]; intros Ho m st rest Hh; cbn [arrive length]; [exists m, st; auto|].
  destruct (Ho o (or_introl eq_refl)) as (Hs & Hr & Hz).
  assert (Em : make fresh o m = (fst (make fresh o m), snd (make fresh o m))) by apply surjective_pairing. cbn [fst snd]. rewrite Em.
  set (p := fst (make fresh o m)) in *. set (m1 := snd (make fresh o m)) in *.
  assert (Eo : at_ m1 p = o) by (unfold m1, p, make; cbn [fst snd set_obj at_]; now rewrite Z.eqb_refl).
  destruct (receive1_spec (pcr m1) (pcz m1) (psp m1) a base HS p st) as (i & j & Hi & Hj & _ & E).
  { unfold in_slab, pcr, pcz. rewrite Eo. lia. }
  rewrite E. cbn [bind]. unfold psp at 1. rewrite Eo.
  assert (Hh' : holds m1 (push addr i j (o_sp o) p st) rest) by (apply make_push; assumption).
  destruct (IH (fun x H => Ho x (or_intror H)) m1 _ rest Hh') as (m' & st' & E' & H' & L'). exists m', st'. split; [exact E'|]. split; [exact H'|].
  rewrite L'. rewrite (Permutation_length (listed_push a ids i j (o_sp o) p st Hi Hj (proj1 Hh) Hs)). cbn [length]. lia.
Qed.

(** the exchange: what was sent is deleted, what left through the side stays *)
Lemma exch_spec rs m st rest : good_slab a base -> (forall o, In o rs -> In (o_sp o) ids /\ 0 <= s32 (o_r o) < nr a /\ base <= s32 (o_z o) < base + nz a) -> holds m st rest ->
  exists m' st', step_op fresh a base (Exchange rs) (m, st) = Ok (m', st') /\ holds m' st' (filter (fun p => negb (keeps m p)) (listed a st) ++ rest) /\
    (forall p, In p (filter (fun p => negb (in_slab (pcr m) (pcz m) a base p)) (filter (keeps m) (listed a st))) -> ~ In p (live m')) /\
    (length (live m') + length (filter (fun p => negb (in_slab (pcr m) (pcz m) a base p)) (filter (keeps m) (listed a st))) = length (live m) + length rs)%nat.
Proof using fresh_new.
  intros HS Hr Hh. assert (U := uses_ok m _ (holds_live _ _ _ Hh)). cbn [step_op]. rewrite U. cbn [bind].
    destruct (msort_spec m st rest HS Hh) as (q & E & Pm & Out & Ins & H'). rewrite E. cbn [bind].
    rewrite uses_ok.
    2:{ intros x Hx. destruct H' as (_ & _ & _ & P). apply (Permutation_in _ (Permutation_sym P)). rewrite !in_app_iff in *. tauto. }
    cbn [bind]. destruct (arrive_spec rs HS Hr m (doms_of q) _ H') as (m1 & st1 & E1 & (I1 & T1 & N1 & P1) & L1). rewrite E1. cbn [bind].
    set (rest2 := filter (fun p => negb (keeps m p)) (listed a st) ++ rest) in *.
    destruct (del_all_spec (q_minus q) m1 (listed a st1 ++ q_plus q ++ rest2) N1) as (m2 & E2 & A2 & N2 & P2).
    { rewrite P1. rewrite !app_assoc. apply Permutation_app_tail. apply Permutation_app_tail. apply Permutation_app_comm. }
    rewrite E2. cbn [bind].
    destruct (del_all_spec (q_plus q) m2 (listed a st1 ++ rest2) N2) as (m3 & E3 & A3 & N3 & P3).
    { rewrite P2. rewrite !app_assoc. apply Permutation_app_tail. apply Permutation_app_comm. }
    rewrite E3. cbn [bind]. exists m3, st1. split; [reflexivity|]. split.
    { split; [exact I1|]. split; [|auto]. intros i j s l p Hi Hj Hs Hp. unfold psp. rewrite A3, A2. now apply (T1 i j s l). }
    assert (Pq : Permutation (q_plus q ++ q_minus q) (filter (fun p => negb (in_slab (pcr m) (pcz m) a base p)) (filter (keeps m) (listed a st)))).
    { rewrite <- (perm_filter _ _ _ Pm). rewrite filter_app.
      assert (F1 : filter (fun p => negb (in_slab (pcr m) (pcz m) a base p)) (listed a (doms_of q)) = []).
      { clear - Ins. induction (listed a (doms_of q)) as [|x l IH]; [reflexivity|]. cbn [filter]. rewrite (Ins x) by (now left). cbn [negb]. apply IH. intros p Hp. apply Ins. now right. }
      rewrite F1. cbn [app]. 
      assert (Fa : forall l : list addr, (forall p, In p l -> in_slab (pcr m) (pcz m) a base p = false) -> filter (fun p => negb (in_slab (pcr m) (pcz m) a base p)) l = l).
      { clear. induction l as [|x l IH]; intros H; [reflexivity|]. cbn [filter]. rewrite (H x) by (now left). cbn [negb]. f_equal. apply IH. intros p Hp. apply H. now right. }
      rewrite Fa; [reflexivity|]. intros p Hp. apply Out. now apply in_app_iff in Hp. }
    split; [intros p Hp|].
    + apply (Permutation_in _ (Permutation_sym Pq)) in Hp. intros Hl. apply (Permutation_in _ P3) in Hl.
      assert (D1 : NoDup (q_minus q ++ q_plus q ++ listed a st1 ++ rest2)).
      { apply (Permutation_NoDup (l := live m1)); [|exact N1]. rewrite P1. rewrite !app_assoc. apply Permutation_app_tail. 
        rewrite <- !app_assoc. rewrite Permutation_app_comm. now rewrite <- app_assoc. }
      rewrite app_assoc in D1. destruct (perm_nodup_app _ _ _ (Permutation_refl _) D1) as (_ & _ & D). apply (D p); [|exact Hl]. rewrite in_app_iff in *. tauto.
    + assert (Q1 := Permutation_length P3). assert (Q2 := Permutation_length Pm). assert (Q3 := Permutation_length Pq).
      assert (Q4 := Permutation_length (proj2 (proj2 (proj2 Hh)))). assert (Q5 := Permutation_length (perm_split (keeps m) (listed a st))).
      unfold rest2 in Q1. rewrite !app_length in *. unfold keeps in *. lia.
Qed.
(** every operation succeeds and keeps the objects apart *)
Lemma op_spec o m st rest : holds m st rest -> op_ok a base ids o -> exists m' st' rest', step_op fresh a base o (m, st) = Ok (m', st') /\ holds m' st' rest'.
Proof using fresh_new.
  intros Hh Ho. assert (U := uses_ok m _ (holds_live _ _ _ Hh)). destruct o as [i j sid r z|f| |rs|]; cbn [step_op op_ok] in *.
  - destruct Ho as (Hi & Hj & Hs). exists (snd (make fresh (mkObj r z sid) m)), (push addr i j sid (fst (make fresh (mkObj r z sid) m)) st), rest.
    split; [reflexivity|]. now apply (make_push m st rest i j (mkObj r z sid)).
  - rewrite U. cbn [bind]. eexists _, st, rest. split; [reflexivity|]. destruct Hh as (I & T & N & P). split; [exact I|]. split; [|auto].
    intros i j s l p Hi Hj Hs Hp. unfold psp. cbn [at_]. rewrite <- (T i j s l p Hi Hj Hs Hp). destruct (existsb _ _); reflexivity.
  - rewrite U. cbn [bind]. destruct (sort_spec m st rest Ho Hh) as (st' & E & _ & H'). rewrite E. cbn [bind]. eauto.
  - destruct Ho as [HS Hr]. destruct (exch_spec rs m st rest HS Hr Hh) as (m' & st' & E & H' & _). cbn [step_op] in E. eauto 6.
  - destruct Hh as (I & T & N & P). destruct (del_all_spec _ m rest N P) as (m' & E & A & N' & P'). rewrite E. cbn [bind]. eexists m', _, rest. split; [reflexivity|].
    split; [|split; [|split; [exact N'|]]].
    + destruct I as [I1 I2]. split; [exact I1|]. intros i j Hi Hj. rewrite map_map. cbn [fst]. now apply I2.
    + intros i j s l p Hi Hj Hs Hp. apply in_map_iff in Hs as (x & [= <- <-] & _). destruct Hp.
    + replace (listed a _) with (@nil addr); [exact P'|]. symmetry. unfold listed. apply flat_map_nil. intros ij _. apply flat_map_nil. intros s Hs. apply in_map_iff in Hs as (x & <- & _). reflexivity.
Qed.
End Run.

(** * C147 *)
(** a state that a run reaches *)
Definition reached (fresh : list addr -> addr) (a : area) (base : Z) (ids : list Z) (s : mem * smb addr) : Prop :=
  exists ops at0, Forall (op_ok a base ids) ops /\ run_ops fresh a base ops (begin ids at0) = Ok s.
Lemma begin_holds a ids at0 : NoDup ids -> holds a ids (fst (begin ids at0)) (snd (begin ids at0)) [].
Proof.
  intros N. split; [split; [exact N|]|split; [|split]].
  - intros i j _ _. cbn [begin snd]. rewrite map_map. cbn [fst]. apply map_id.
  - intros i j s l p _ _ Hs Hp. apply in_map_iff in Hs as (x & [= <- <-] & _). destruct Hp.
  - constructor.
  - cbn [begin fst snd live]. rewrite app_nil_r. replace (listed a _) with (@nil addr); [constructor|]. symmetry. unfold listed. apply flat_map_nil. intros ij _.
    apply flat_map_nil. intros s Hs. apply in_map_iff in Hs as (x & <- & _). reflexivity.
Qed.
Lemma run_holds fresh a base ids ops : (forall l, ~ In (fresh l) l) -> Forall (op_ok a base ids) ops ->
  forall m st rest, holds a ids m st rest -> exists m' st' rest', run_ops fresh a base ops (m, st) = Ok (m', st') /\ holds a ids m' st' rest'.
Proof.
  intros F H. induction H as [|o ops Ho _ IH]; intros m st rest Hh; cbn [run_ops]; [exists m, st, rest; auto|].
  destruct (op_spec fresh F a base ids o m st rest Hh Ho) as (m1 & st1 & rest1 & E & H1). rewrite E. cbn [bind]. now apply (IH m1 st1 rest1).
Qed.
Lemma reached_holds fresh a base ids s : (forall l, ~ In (fresh l) l) -> NoDup ids -> reached fresh a base ids s -> exists rest, holds a ids (fst s) (snd s) rest.
Proof.
  intros F N (ops & at0 & H & E). destruct (run_holds fresh a base ids ops F H _ _ _ (begin_holds a ids at0 N)) as (m & st & rest & E' & Hh).
  change (fst (begin ids at0), snd (begin ids at0)) with (begin ids at0) in E'. rewrite E in E'. injection E' as ->. now exists rest.
Qed.
(** no run uses or deletes an object that is not there; every pointer in the vectors has an object of its own *)
Theorem C147_owned_partial : forall fresh a base ids ops at0, (forall l, ~ In (fresh l) l) -> NoDup ids -> Forall (op_ok a base ids) ops ->
  exists m st, run_ops fresh a base ops (begin ids at0) = Ok (m, st) /\ NoDup (listed a st) /\ incl (listed a st) (live m).
Proof.
  intros fresh a base ids ops at0 F N H. destruct (run_holds fresh a base ids ops F H _ _ _ (begin_holds a ids at0 N)) as (m & st & rest & E & Hh).
  exists m, st. split; [exact E|]. split; [|now apply (holds_live a ids m st rest)]. destruct Hh as (_ & _ & N' & P).
  now apply (perm_nodup_app _ _ _ (Permutation_sym P) N').
Qed.
(** without MPI nothing is ever deleted: all objects that a run made are still in use *)
Definition fills (ops : list op) : nat := length (filter (fun o => match o with Fill _ _ _ _ _ => true | _ => false end) ops).
Theorem C147_nothing_freed : forall fresh a base ops s m st, Forall (fun o => match o with Exchange _ | Destroy => False | _ => True end) ops ->
  run_ops fresh a base ops s = Ok (m, st) -> length (live m) = (length (live (fst s)) + fills ops)%nat.
Proof.
  intros fresh a base ops s m st H. revert s. induction H as [|o ops Ho _ IH]; intros [m0 st0] E; cbn [run_ops] in E; [injection E as -> ->; unfold fills; cbn; lia|].
  destruct (step_op fresh a base o (m0, st0)) as [[m1 st1]| |] eqn:Es; try discriminate. cbn [bind] in E. rewrite (IH _ E). clear IH E. cbn [fst].
  destruct o; cbn [step_op] in Es; try destruct Ho; unfold fills; cbn [filter].
  - cbn [make] in Es. injection Es as <- <-. cbn [live set_obj length]. lia.
  - destruct (uses m0 _); try discriminate. cbn [bind] in Es. injection Es as <- <-. reflexivity.
  - destruct (uses m0 _); try discriminate. cbn [bind] in Es. destruct (collect _ _ _ _ _ _); try discriminate. cbn [bind] in Es. injection Es as <- <-. reflexivity.
Qed.
(** the collector forgets the particles that left the area, and their objects stay *)
Theorem C147_removed_refuted : forall fresh a base ids m st, (forall l, ~ In (fresh l) l) -> NoDup ids -> good_area a -> reached fresh a base ids (m, st) ->
  exists st', step_op fresh a base Sort (m, st) = Ok (m, st') /\
    forall p, In p (listed a st) -> alive (pcr m) (pcz m) a p = false -> In p (live m) /\ ~ In p (listed a st').
Proof.
  intros fresh a base ids m st F N HA Hr. destruct (reached_holds _ _ _ _ _ F N Hr) as [rest Hh]. cbn [fst snd] in Hh.
  destruct (sort_spec a ids m st rest HA Hh) as (st' & E & P & _). exists st'. split.
  - cbn [step_op]. rewrite uses_ok by (now apply (holds_live a ids m st rest)). cbn [bind]. rewrite E. reflexivity.
  - intros p Hp D. split; [now apply (holds_live a ids m st rest)|]. intros X. apply (Permutation_in _ P), filter_In in X as [_ X]. congruence.
Qed.
Lemma run_app fresh a base l1 l2 s : run_ops fresh a base (l1 ++ l2) s = do s' <- run_ops fresh a base l1 s; run_ops fresh a base l2 s'.
Proof. revert s. induction l1 as [|o l1 IH]; intros s; cbn [app run_ops bind]; [reflexivity|]. destruct (step_op fresh a base o s); cbn [bind]; auto. Qed.
Theorem C147_leak_refuted : forall fresh a sid n at0, (forall l, ~ In (fresh l) l) -> good_area a ->
  let ops := repeat (Fill 0 0 sid 0 0) n ++ [Touch (fun _ _ => (nr a, 0)); Sort] in
  Forall (op_ok a 0 [sid]) ops /\ exists m st, run_ops fresh a 0 ops (begin [sid] at0) = Ok (m, st) /\ listed a st = [] /\ length (live m) = n.
Proof.
  intros fresh a sid n at0 F HA ops.
  assert (Hp : 1 <= rd_ a /\ 1 <= zd_ a) by (destruct HA as (H1 & H2 & _); unfold sane in *; lia).
  assert (O1 : Forall (op_ok a 0 [sid]) (repeat (Fill 0 0 sid 0 0) n ++ [Touch (fun _ _ => (nr a, 0))])).
  { apply Forall_app. split; [|apply Forall_cons; [exact I|apply Forall_nil]]. apply Forall_forall. intros o Ho. apply repeat_spec in Ho as ->. cbn [op_ok In]. lia. }
  assert (Eo : ops = (repeat (Fill 0 0 sid 0 0) n ++ [Touch (fun _ _ => (nr a, 0))]) ++ [Sort]) by (unfold ops; now rewrite <- app_assoc).
  assert (O2 : Forall (op_ok a 0 [sid]) ops).
  { rewrite Eo. apply Forall_app. split; [exact O1|]. apply Forall_cons; [exact HA|apply Forall_nil]. }
  split; [exact O2|].
  assert (Nd : NoDup [sid]) by (repeat constructor; intros []).
  destruct (run_holds fresh a 0 [sid] _ F O1 _ _ _ (begin_holds a [sid] at0 Nd)) as (m & st & rest & E & Hh).
  change (fst (begin [sid] at0), snd (begin [sid] at0)) with (begin [sid] at0) in E.
  assert (Neg : forall p, In p (listed a st) -> pcr m p = nr a).
  { rewrite run_app in E. destruct (run_ops _ _ _ (repeat _ _) _) as [[m0 st0]| |]; try discriminate. cbn [bind run_ops step_op] in E.
    destruct (uses m0 _); try discriminate. cbn [bind] in E. injection E as <- <-. intros p Hq. unfold pcr. cbn [at_].
    replace (existsb (Z.eqb p) (listed a st0)) with true; [cbn [fst snd o_r]; apply s32_small; destruct HA as (_ & _ & HA1 & _); lia|]. symmetry. apply existsb_exists. exists p. split; [exact Hq|apply Z.eqb_refl]. }
  destruct (sort_spec a [sid] m st rest HA Hh) as (st' & E' & P & _).
  assert (Er : run_ops fresh a 0 ops (begin [sid] at0) = Ok (m, st')).
  { rewrite Eo, run_app, E. cbn [bind run_ops step_op]. rewrite uses_ok by (now apply (holds_live a [sid] m st rest)). cbn [bind]. rewrite E'. reflexivity. }
  exists m, st'. split; [exact Er|]. split.
  - destruct (listed a st') as [|p l] eqn:El; [reflexivity|]. exfalso. assert (X : In p (filter (alive (pcr m) (pcz m) a) (listed a st))) by (apply (Permutation_in _ P); now left).
    apply filter_In in X as [X1 X2]. unfold alive in X2. rewrite (Neg p X1), Z.ltb_irrefl, andb_false_r in X2. discriminate.
  - rewrite (C147_nothing_freed fresh a 0 ops (begin [sid] at0) m st'); [| |exact Er].
    + cbn [begin fst live length]. unfold fills, ops. rewrite filter_app, app_length. cbn [filter length]. rewrite Nat.add_0_r. clear. induction n as [|n IH]; [reflexivity|]. cbn [repeat filter length Nat.add] in *. now rewrite IH.
    + unfold ops. apply Forall_app. split; [apply Forall_forall; intros o Ho; apply repeat_spec in Ho as ->; exact I|]. repeat (apply Forall_cons; [exact I|]). apply Forall_nil.
Qed.
(** with MPI the objects of the particles that go to a neighbour are deleted, each once *)
Theorem C147_exchange : forall fresh a base ids m st rs, (forall l, ~ In (fresh l) l) -> NoDup ids -> reached fresh a base ids (m, st) -> op_ok a base ids (Exchange rs) ->
  let leaving := filter (fun p => (goes_up (pcr m) (pcz m) a base p || goes_down (pcr m) (pcz m) base p)%bool) (listed a st) in
  exists m' st', step_op fresh a base (Exchange rs) (m, st) = Ok (m', st') /\ (forall p, In p leaving -> ~ In p (live m')) /\
    (length (live m') + length leaving = length (live m) + length rs)%nat.
Proof.
  intros fresh a base ids m st rs F N Hr [HS Ho] leaving. destruct (reached_holds _ _ _ _ _ F N Hr) as [rest Hh]. cbn [fst snd] in Hh.
  destruct (exch_spec fresh F a base ids rs m st rest HS Ho Hh) as (m' & st' & E & _ & D & L). exists m', st'. split; [exact E|].
  replace (filter _ (filter _ (listed a st))) with leaving in D, L; [auto|]. unfold leaving. clear. induction (listed a st) as [|x l IH]; [reflexivity|]. cbn [filter]. unfold kept.
  destruct (goes_up (pcr m) (pcz m) a base x) eqn:G1; [|destruct (goes_down (pcr m) (pcz m) base x) eqn:G2].
  - rewrite orb_true_r. cbn [orb filter]. replace (in_slab (pcr m) (pcz m) a base x) with false by (unfold in_slab, goes_up in *; lia). cbn [negb]. now rewrite IH.
  - rewrite !orb_true_r. cbn [filter]. replace (in_slab (pcr m) (pcz m) a base x) with false by (unfold in_slab, goes_down in *; lia). cbn [negb orb]. now rewrite IH.
  - rewrite !orb_false_r. destruct (in_slab (pcr m) (pcz m) a base x) eqn:G3; cbn [filter]; [rewrite G3; cbn [negb]|]; exact IH.
Qed.
(** an example: two particles of species 7, one stays, one flies off; then one arrives from the neighbour and one goes there *)
Definition next (l : list addr) : addr := fold_right Z.max 0 l + 1.
Lemma next_new l : ~ In (next l) l.
Proof. unfold next. assert (H : forall x, In x l -> x <= fold_right Z.max 0 l) by (induction l as [|y l IH]; intros x []; cbn [fold_right]; [lia|specialize (IH x H); lia]). intros X. apply H in X. lia. Qed.
Definition small_area : area := {| nr := 4; nz := 4; rd_ := 2; zd_ := 2 |}.
Example C147_ex : good_area small_area /\ good_slab small_area 4 /\
  (exists m st, run_ops next small_area 0 [Fill 0 0 7 1 1; Fill 0 1 7 1 3; Touch (fun p o => if p =? 1 then (2, 1) else (4, 3)); Sort] (begin [7] (fun _ => mkObj 0 0 0)) = Ok (m, st) /\
     live m = [2; 1] /\ listed small_area st = [1] /\ st 1 0 = [(7, [1])]) /\
  (exists m st, run_ops next small_area 4 [Fill 0 0 7 1 4; Fill 0 1 7 1 7; Touch (fun p o => if p =? 1 then (1, 3) else (2, 6)); Exchange [mkObj 3 5 7]] (begin [7] (fun _ => mkObj 0 0 0)) = Ok (m, st) /\
     live m = [3; 2] /\ st 1 1 = [(7, [2])] /\ st 1 0 = [(7, [3])] /\ st 0 0 = [(7, [])]) /\
  Forall (op_ok small_area 4 [7]) [Fill 0 0 7 1 4; Fill 0 1 7 1 7; Touch (fun p o => if p =? 1 then (1, 3) else (2, 6)); Exchange [mkObj 3 5 7]].
Proof.
  assert (G1 : good_area small_area) by (unfold good_area, sane; cbn; repeat split; try lia; exists 2; reflexivity).
  assert (G2 : good_slab small_area 4) by (unfold good_slab, sane; cbn; repeat split; try lia; exists 2; reflexivity).
  split; [exact G1|]. split; [exact G2|]. split; [|split].
  - eexists _, _. split; [reflexivity|]. vm_compute. auto.
  - eexists _, _. split; [reflexivity|]. vm_compute. auto.
  - repeat apply Forall_cons; try apply Forall_nil; cbn [op_ok]; auto; try (cbn; lia). split; [exact G2|]. intros o [<-|[]]. vm_compute. intuition congruence.
Qed.
Print Assumptions C147_owned_partial.
Print Assumptions C147_nothing_freed.
Print Assumptions C147_removed_refuted.
Print Assumptions C147_leak_refuted.
Print Assumptions C147_exchange.
