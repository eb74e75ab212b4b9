(** Lemmas about the helpers. *)
From Verif Require Import Base UtilModel.
From Coq Require Import Ascii String Reals Lra.

(** * splitstr *)
(** the fields between the delimiters *)
Fixpoint fields (d : char) (s : str) : list str :=
  match s with
  | [] => [[]]
  | c :: s' => if Ascii.eqb c d then [] :: fields d s'
               else match fields d s' with f :: r => (c :: f) :: r | [] => [[c]] end
  end.
Definition ne (p : str) : bool := match p with [] => false | _ => true end.
Fixpoint join (d : char) (l : list str) : str :=
  match l with [] => [] | [f] => f | f :: r => f ++ d :: join d r end.

Lemma fields_nonnil d s : fields d s <> [].
Proof. destruct s as [|c s]; cbn; [discriminate|]. destruct (Ascii.eqb c d); [discriminate|]. now destruct (fields d s). Qed.
Lemma join_fields d s : join d (fields d s) = s.
Proof.
  induction s as [|c s IH]; [reflexivity|]. cbn [fields]. destruct (Ascii.eqb c d) eqn:E.
  - apply Ascii.eqb_eq in E. subst c. cbn [join]. destruct (fields d s) eqn:F; [now apply fields_nonnil in F|]. rewrite <- IH. reflexivity.
  - destruct (fields d s) as [|f r] eqn:F; [now apply fields_nonnil in F|]. rewrite <- IH. destruct r; reflexivity.
Qed.
Lemma fields_free d s : Forall (fun f => ~ In d f) (fields d s).
Proof.
  induction s as [|c s IH]; [repeat constructor; auto|]. cbn [fields]. destruct (Ascii.eqb c d) eqn:E.
  - constructor; auto.
  - apply Ascii.eqb_neq in E. destruct (fields d s) as [|f r].
    + repeat constructor. cbn. intros [H|H]; auto.
    + inversion_clear IH. constructor; auto. cbn. intros [Q|Q]; auto.
Qed.
Lemma fields_app_free d p : ~ In d p -> fields d p = [p].
Proof.
  induction p as [|c p IH]; intros H; [reflexivity|]. cbn [fields]. replace (Ascii.eqb c d) with false.
  - rewrite IH; auto. intros Q; apply H; now right.
  - symmetry. apply Ascii.eqb_neq. intros ->. apply H. now left.
Qed.
Lemma fields_cons_free d p r : ~ In d p -> fields d (p ++ d :: r) = p :: fields d r.
Proof.
  induction p as [|c p IH]; intros H; cbn [fields app]; [now rewrite Ascii.eqb_refl|]. replace (Ascii.eqb c d) with false.
  - rewrite IH; auto. intros Q; apply H; now right.
  - symmetry. apply Ascii.eqb_neq. intros ->. apply H. now left.
Qed.

Lemma find_from_none f s i : find_from f s i = None -> Forall (fun c => f c = false) s.
Proof. revert i. induction s as [|c s IH]; intros i; cbn; [constructor|]. destruct (f c) eqn:E; [discriminate|]. constructor; eauto. Qed.
Lemma find_from_some f s : forall i k, find_from f s i = Some k ->
  exists a c b, s = a ++ c :: b /\ k = (i + List.length a)%nat /\ f c = true /\ Forall (fun c => f c = false) a.
Proof.
  induction s as [|c s IH]; intros i k; cbn; [discriminate|]. destruct (f c) eqn:E.
  - intros [= <-]. exists [], c, s. cbn. repeat split; auto.
  - intros H. destruct (IH _ _ H) as (a & x & b & -> & -> & Hf & Ha). exists (c :: a), x, b. cbn. repeat split; auto; lia.
Qed.

Lemma skipn_add {A} (s a b : list A) n : skipn n s = a ++ b -> skipn (n + List.length a) s = b.
Proof.
  revert s. induction n as [|n IH]; intros s H; cbn [skipn Nat.add] in *.
  - subst s. rewrite skipn_app, Nat.sub_diag, skipn_all. reflexivity.
  - destruct s as [|x s]; [|now apply IH]. destruct a; [|discriminate]. cbn in H. subst b. reflexivity.
Qed.

Lemma filter_all_d d t : Forall (fun c => negb (Ascii.eqb c d) = false) t -> forall r, filter ne (fields d (t ++ r)) = filter ne (fields d r).
Proof.
  induction 1 as [|c t Hc Ht IH]; intros r; [reflexivity|]. cbn [app fields].
  apply negb_false_iff in Hc. rewrite Hc. cbn [filter ne]. apply IH.
Qed.

Lemma split_loop_spec d s : forall fuel e out, (List.length (skipn e s) < fuel)%nat ->
  split_loop fuel s d (Some e) out = Some (out ++ filter ne (fields d (skipn e s))).
Proof.
  induction fuel as [|fuel IH]; intros e out Hf; [lia|]. cbn [split_loop].
  unfold find_first_not_of. destruct (find_from (fun c => negb (Ascii.eqb c d)) (skipn e s) e) as [start|] eqn:E.
  - apply find_from_some in E as (a & c & b & E1 & -> & Hc & Ha).
    pose proof (skipn_add s a (c :: b) e E1) as E2.
    rewrite E1, (filter_all_d d a Ha). apply negb_true_iff in Hc.
    unfold find_char. rewrite E2. destruct (find_from (fun c0 => Ascii.eqb c0 d) (c :: b) (e + List.length a)) as [e'|] eqn:E3.
    + apply find_from_some in E3 as (a' & c' & b' & E4 & -> & Hc' & Ha').
      apply Ascii.eqb_eq in Hc'. subst c'.
      assert (Hfree : ~ In d a').
      { intros Hin. rewrite Forall_forall in Ha'. specialize (Ha' d Hin). cbn in Ha'. now rewrite Ascii.eqb_refl in Ha'. }
      rewrite E4 in E2. pose proof (skipn_add s a' (d :: b') _ E2) as E5.
      assert (La : (0 < List.length a')%nat).
      { destruct a'; [|cbn; lia]. cbn in E4. injection E4 as -> _. now rewrite Ascii.eqb_refl in Hc. }
      rewrite IH.
      * rewrite E5, E4. rewrite fields_cons_free by auto. cbn [fields]. rewrite Ascii.eqb_refl.
        unfold substr. rewrite E2. replace (e + List.length a + List.length a' - (e + List.length a))%nat with (List.length a' + 0)%nat by lia.
        rewrite firstn_app_2. cbn [firstn]. rewrite app_nil_r, <- app_assoc. cbn [filter ne].
        destruct a'; [cbn in La; lia|]. reflexivity.
      * rewrite E5. rewrite E1, app_length in Hf. rewrite E4, app_length in Hf. lia.
    + apply find_from_none in E3.
      assert (Hfree : ~ In d (c :: b)).
      { intros Hin. rewrite Forall_forall in E3. specialize (E3 d Hin). cbn in E3. now rewrite Ascii.eqb_refl in E3. }
      rewrite fields_app_free by auto. cbn [filter ne substr]. rewrite E2.
      destruct fuel as [|fuel]; [|reflexivity]. rewrite E1, app_length in Hf. cbn in Hf. lia.
  - apply find_from_none in E. rewrite <- (app_nil_r (skipn e s)), (filter_all_d d _ E). cbn. now rewrite app_nil_r.
Qed.

Lemma count_join d l : Forall (fun f => ~ In d f) l -> l <> [] ->
  S (count_occ ascii_dec (join d l) d) = List.length l.
Proof.
  induction l as [|f l IH]; [congruence|]. intros H _. inversion_clear H as [|? ? Hf Hl].
  destruct l as [|g l].
  - cbn [join List.length]. f_equal. now apply count_occ_not_In.
  - change (join d (f :: g :: l)) with (f ++ d :: join d (g :: l)).
    rewrite count_occ_app. rewrite (proj1 (count_occ_not_In ascii_dec f d) Hf). cbn [count_occ]. destruct (ascii_dec d d); [|congruence].
    specialize (IH Hl ltac:(discriminate)). cbn [List.length] in *. lia.
Qed.
Lemma filter_length_all {A} (f : A -> bool) l : List.length (filter f l) = List.length l -> Forall (fun x => f x = true) l.
Proof.
  assert (LL : forall l, (List.length (filter f l) <= List.length l)%nat).
  { induction l0 as [|x l0 IH]; cbn; [lia|]. destruct (f x); cbn; lia. }
  induction l as [|x l IH]; [constructor|]. cbn. specialize (LL l).
  destruct (f x) eqn:E; cbn; intros H; [constructor; auto|lia].
Qed.

(** * make_directory *)
Definition fs_ok (fs : fsys) : Prop :=
  (exists w, fs [] = Some (Dir w)) /\ forall q c, fs (q ++ [c]) <> None -> exists w, fs q = Some (Dir w).

Lemma fs_prefix fs : fs_ok fs -> forall r q, fs (q ++ r) <> None -> r <> [] -> exists w, fs q = Some (Dir w).
Proof.
  intros [_ H] r. induction r as [|c r IH] using rev_ind; [congruence|]. intros q Hq _.
  rewrite app_assoc in Hq. destruct (H _ _ Hq) as [w Hw]. destruct r as [|x r].
  - rewrite app_nil_r in Hw. eauto.
  - apply IH; congruence.
Qed.

Lemma walk_none fs : forall todo done, walk fs done todo = None -> exists w, fs (done ++ todo) = Some (Dir w).
Proof.
  induction todo as [|c todo IH]; intros done; cbn [walk].
  - rewrite app_nil_r. destruct (fs done) as [[w|]|]; try discriminate. eauto.
  - destruct (fs done) as [[w|]|]; try discriminate. intros H. apply IH in H. now rewrite <- app_assoc in H.
Qed.
Lemma walk_dir fs : fs_ok fs -> forall todo done w, fs (done ++ todo) = Some (Dir w) -> walk fs done todo = None.
Proof.
  intros Hok. induction todo as [|c todo IH]; intros done w Hd; cbn [walk].
  - rewrite app_nil_r in Hd. now rewrite Hd.
  - destruct (fs_prefix fs Hok (c :: todo) done) as [w' ->]; try congruence.
    apply (IH (done ++ [c]) w). now rewrite <- app_assoc.
Qed.
Lemma walk_enoent fs : fs_ok fs -> forall todo done, walk fs done todo = Some ENOENT -> fs (done ++ todo) = None.
Proof.
  intros Hok. induction todo as [|c todo IH]; intros done; cbn [walk].
  - rewrite app_nil_r. destruct (fs done) as [[w|]|]; auto; discriminate.
  - destruct (fs done) as [[w|]|] eqn:E; try discriminate.
    + intros H. apply IH in H. now rewrite <- app_assoc in H.
    + intros _. destruct (fs (done ++ c :: todo)) eqn:E2; auto.
      destruct (fs_prefix fs Hok (c :: todo) done) as [w' ?]; congruence.
Qed.
Lemma walk_other fs : forall todo done, walk fs done todo = Some EOTHER ->
  exists k, (k <= List.length todo)%nat /\ fs (done ++ firstn k todo) = Some File.
Proof.
  induction todo as [|c todo IH]; intros done; cbn [walk].
  - destruct (fs done) as [[w|]|] eqn:E; try discriminate. intros _. exists O. cbn. now rewrite app_nil_r.
  - destruct (fs done) as [[w|]|] eqn:E; try discriminate.
    + intros H. apply IH in H as (k & Hk & Hf). exists (S k). split; [cbn; lia|]. cbn [firstn]. now rewrite <- app_assoc in Hf.
    + intros _. exists O. split; [lia|]. cbn. now rewrite app_nil_r.
Qed.
Lemma walk_eexist fs : forall todo done, walk fs done todo <> Some EEXIST.
Proof. induction todo as [|c todo IH]; intros done; cbn [walk]; destruct (fs done) as [[w|]|]; try discriminate; apply IH. Qed.

(** paths without empty segments, apart from one in front of an absolute path *)
Definition canonical (p : list string) : Prop :=
  exists a t, p = a ++ t /\ (a = [] \/ a = [EmptyString]) /\ t <> [] /\ Forall (fun c => c <> EmptyString) t.

Lemma resolve_canonical a t : (a = [] \/ a = [EmptyString]) -> Forall (fun c => c <> EmptyString) t -> resolve (a ++ t) = t.
Proof.
  intros Ha Ht. unfold resolve. rewrite filter_app. replace (filter nonempty a) with (@nil string) by (destruct Ha; subst; reflexivity).
  cbn [app]. induction Ht as [|c t Hc Ht IH]; [reflexivity|]. cbn [filter]. destruct c; [congruence|]. cbn [nonempty]. now rewrite IH.
Qed.

(** can the directory [t] be created? *)
Definition creatable (fs : fsys) (t : list string) : Prop :=
  (exists w, fs t = Some (Dir w)) \/
  (exists k, (k < List.length t)%nat /\ fs (firstn k t) = Some (Dir true) /\ fs (firstn (S k) t) = None).
Definition is_prefix (q t : list string) : Prop := exists r, t = q ++ r.

Lemma fs_set_same fs p n : fs_set fs p n p = Some n.
Proof. unfold fs_set. now destruct (list_eq_dec string_dec p p). Qed.
Lemma fs_set_other fs p n q : q <> p -> fs_set fs p n q = fs q.
Proof. unfold fs_set. now destruct (list_eq_dec string_dec q p). Qed.

Lemma fs_none_ext fs : fs_ok fs -> forall q r, fs q = None -> fs (q ++ r) = None.
Proof.
  intros Hok q r H. destruct r as [|c r]; [now rewrite app_nil_r|]. destruct (fs (q ++ c :: r)) eqn:E; auto.
  destruct (fs_prefix fs Hok (c :: r) q); congruence.
Qed.
Lemma firstn_prefix {A} k j (t : list A) : (k <= j)%nat -> exists r, firstn j t = firstn k t ++ r.
Proof.
  intros H. exists (skipn k (firstn j t)). rewrite <- (firstn_skipn k (firstn j t)) at 1. f_equal.
  rewrite firstn_firstn. f_equal. lia.
Qed.

Definition post (fs fs' : fsys) (b : bool) (t : list string) : Prop :=
  (b = true <-> creatable fs t) /\
  (b = true -> forall q, (is_prefix q t -> fs q = None -> fs' q = Some (Dir true)) /\ (~ is_prefix q t \/ fs q <> None -> fs' q = fs q)) /\
  (b = false -> forall q, fs' q = fs q).

Lemma list_app_inj_l {A} (q r s : list A) : q ++ r = q ++ s -> r = s.
Proof. apply app_inv_head. Qed.

Lemma make_directory_spec a : (a = [] \/ a = [EmptyString]) -> forall t n fs, fs_ok fs ->
  t <> [] -> Forall (fun c => c <> EmptyString) t -> (List.length t <= n)%nat ->
  post fs (fst (make_directory n fs (a ++ t))) (snd (make_directory n fs (a ++ t))) t.
Proof.
  intros Ha t. induction t as [|c t0 IH] using rev_ind; [congruence|]. intros n fs Hok _ Hne Hn.
  apply Forall_app in Hne as [Hne0 Hc]. inversion_clear Hc as [|? ? Hc' _].
  assert (Hres : resolve (a ++ t0 ++ [c]) = t0 ++ [c]) by (apply resolve_canonical; auto; apply Forall_app; split; auto).
  assert (Hmk : forall fs, mkdir fs (a ++ t0 ++ [c]) =
    match walk fs [] t0 with
    | Some e => (fs, Some e)
    | None => match fs (t0 ++ [c]) with
              | Some _ => (fs, Some EEXIST)
              | None => match fs t0 with Some (Dir true) => (fs_set fs (t0 ++ [c]) (Dir true), None) | _ => (fs, Some EOTHER) end
              end
    end).
  { intros fs'. assert (Hsp : a ++ t0 ++ [c] <> [EmptyString]).
    { destruct Ha as [-> | ->]; cbn; intros E; [|injection E as E; now destruct t0].
      destruct t0 as [|x t0]; cbn in E; [congruence|]. injection E as _ E. now destruct t0. }
    unfold mkdir. rewrite Hres, removelast_last.
    destruct (a ++ t0 ++ [c]) as [|[|] [|]] eqn:E; try reflexivity. congruence. }
  assert (Hlen : List.length (t0 ++ [c]) = S (List.length t0)) by (rewrite app_length; cbn; lia).
  destruct n as [|n]; [lia|]. cbn [make_directory]. rewrite Hmk.
  destruct (walk fs [] t0) as [e|] eqn:Ew.
  - destruct e.
    + (* ENOENT *)
      apply (walk_enoent fs Hok) in Ew as Hnone. cbn [app] in Hnone.
      assert (Ht0 : t0 <> []) by (intros ->; destruct Hok as [[w Hw] _]; congruence).
      assert (Hlast : removelast (a ++ t0 ++ [c]) = a ++ t0) by (rewrite app_assoc; apply removelast_last).
      assert (Hp : exists x y l, a ++ t0 ++ [c] = x :: y :: l).
      { destruct a as [|x a']; [destruct t0 as [|x [|y t0]]; [congruence|..]; cbn; eauto|]. destruct a' as [|z a']; [|destruct Ha; congruence].
        destruct t0 as [|y t0]; cbn; eauto. }
      rewrite Hlast. destruct Hp as (x & y & l & Hp).
      assert (Sel : forall X Y : fsys * bool, match a ++ t0 ++ [c] with [] => X | [_] => X | _ :: _ :: _ => Y end = Y) by (rewrite Hp; reflexivity).
      rewrite Sel.
      specialize (IH n fs Hok Ht0 Hne0 ltac:(lia)).
      destruct (make_directory n fs (a ++ t0)) as [fs2 ok]. cbn [fst snd] in IH. destruct IH as (P1 & P2 & P3).
      destruct ok.
      * destruct (proj1 P1 eq_refl) as [[w Hw]|(k & Hk & Hk1 & Hk2)]; [congruence|].
        specialize (P2 eq_refl).
        assert (Hok2 : fs_ok fs2).
        { split.
          - destruct Hok as [[w Hw] _]. exists w. rewrite (proj2 (P2 [])); auto. right. congruence.
          - intros q d Hq. destruct (fs (q ++ [d])) eqn:E2.
            + destruct Hok as [_ Hok]. destruct (Hok q d) as [w Hw]; [congruence|]. exists w. rewrite (proj2 (P2 q)); auto. right. congruence.
            + assert (Hpre : is_prefix (q ++ [d]) t0).
              { assert (Dec : is_prefix (q ++ [d]) t0 \/ ~ is_prefix (q ++ [d]) t0).
                { destruct (list_eq_dec string_dec (firstn (List.length (q ++ [d])) t0) (q ++ [d])) as [Ee|Ne].
                  - left. exists (skipn (List.length (q ++ [d])) t0). rewrite <- Ee at 1. now rewrite firstn_skipn.
                  - right. intros [r Hr]. apply Ne. rewrite Hr. rewrite firstn_app, Nat.sub_diag. cbn [firstn]. now rewrite firstn_all, app_nil_r. }
                destruct Dec as [|Nd]; auto. rewrite (proj2 (P2 _)) in Hq by auto. congruence. }
              assert (Hpre' : is_prefix q t0) by (destruct Hpre as [r Hr]; exists ([d] ++ r); now rewrite app_assoc).
              destruct (fs q) as [nd|] eqn:E3; [|exists true; now apply P2].
              rewrite (proj2 (P2 q)) by (right; congruence). rewrite E3.
              destruct nd as [w|]; [eauto|]. exfalso.
              (* q is a file and a prefix of t0, but the longest existing prefix of t0 is a directory *)
              destruct Hpre' as [r Hr].
              destruct (Nat.le_gt_cases (List.length q) k) as [Hle|Hgt].
              -- destruct (firstn_prefix (List.length q) k t0 Hle) as [r' Hr'].
                 replace (firstn (List.length q) t0) with q in Hr' by (rewrite Hr, firstn_app, Nat.sub_diag; cbn [firstn]; now rewrite firstn_all, app_nil_r).
                 destruct r' as [|x' r']; [rewrite app_nil_r in Hr'; congruence|].
                 destruct (fs_prefix fs Hok (x' :: r') q) as [w Hw]; congruence.
              -- destruct (firstn_prefix (S k) (List.length q) t0 ltac:(lia)) as [r' Hr'].
                 replace (firstn (List.length q) t0) with q in Hr' by (rewrite Hr, firstn_app, Nat.sub_diag; cbn [firstn]; now rewrite firstn_all, app_nil_r).
                 pose proof (fs_none_ext fs Hok _ r' Hk2). congruence. }
        assert (Hd0 : fs2 t0 = Some (Dir true)) by (apply P2; auto; exists []; now rewrite app_nil_r).
        assert (Hnt : fs (t0 ++ [c]) = None) by (now apply fs_none_ext).
        assert (Hnp : ~ is_prefix (t0 ++ [c]) t0).
        { intros [r Hr]. apply (f_equal (@List.length string)) in Hr. rewrite !app_length in Hr. cbn in Hr. lia. }
        assert (Hn2 : fs2 (t0 ++ [c]) = None) by (rewrite (proj2 (P2 _)); auto).
        rewrite Hmk. rewrite (walk_dir fs2 Hok2 t0 [] true) by exact Hd0. rewrite Hn2, Hd0. cbn [fst snd].
        split; [|split; [|discriminate]].
        -- split; [intros _|reflexivity]. right. exists k. split; [lia|].
           rewrite !firstn_app. replace (k - List.length t0)%nat with O by lia. replace (S k - List.length t0)%nat with O by lia.
           cbn [firstn]. rewrite !app_nil_r. auto.
        -- intros _ q. destruct (list_eq_dec string_dec q (t0 ++ [c])) as [-> | Nq].
           ++ rewrite fs_set_same. split; [auto|]. intros [H|H]; [|congruence]. exfalso; apply H. exists []. now rewrite app_nil_r.
           ++ rewrite fs_set_other by auto.
              assert (Eq : is_prefix q (t0 ++ [c]) <-> is_prefix q t0).
              { split; intros [r Hr].
                - destruct (exists_last (l := r)) as (r' & x' & Ex).
                  { intros ->. rewrite app_nil_r in Hr. congruence. }
                  subst r. rewrite app_assoc in Hr. apply app_inj_tail in Hr as [Hr _]. now exists r'.
                - exists (r ++ [c]). rewrite Hr. now rewrite app_assoc. }
              rewrite Eq. apply P2.
      * cbn [fst snd]. split; [|split; [discriminate|]].
        -- split; [discriminate|]. intros Hcr. exfalso. assert (Hcr0 : creatable fs t0); [|apply P1 in Hcr0; congruence].
           destruct Hcr as [[w Hw]|(k & Hk & Hk1 & Hk2)].
           ++ pose proof (fs_none_ext fs Hok t0 [c] Hnone). congruence.
           ++ right. exists k. assert (k <> List.length t0).
              { intros ->. rewrite firstn_app, Nat.sub_diag in Hk1. cbn [firstn] in Hk1. rewrite firstn_all, app_nil_r in Hk1. congruence. }
              split; [lia|]. rewrite !firstn_app in Hk1, Hk2. replace (k - List.length t0)%nat with O in Hk1 by lia.
              replace (S k - List.length t0)%nat with O in Hk2 by lia. cbn [firstn] in Hk1, Hk2. rewrite !app_nil_r in Hk1, Hk2. auto.
        -- intros _. apply P3. reflexivity.
    + exfalso. now apply (walk_eexist fs t0 []).
    + (* a file in the way *)
      cbn [fst snd]. split; [|split; [discriminate|auto]]. split; [discriminate|]. intros Hcr. exfalso.
      apply walk_other in Ew as (j & Hj & Hfile). cbn [app] in Hfile.
      assert (Hj' : firstn j (t0 ++ [c]) = firstn j t0).
      { rewrite firstn_app. replace (j - List.length t0)%nat with O by lia. cbn [firstn]. apply app_nil_r. }
      rewrite <- Hj' in Hfile.
      destruct Hcr as [[w Hw]|(k & Hk & Hk1 & Hk2)].
      * destruct (fs_prefix fs Hok (skipn j (t0 ++ [c])) (firstn j (t0 ++ [c]))) as [w' Hw'].
        -- rewrite firstn_skipn. congruence.
        -- intros E. apply (f_equal (@List.length string)) in E. rewrite skipn_length, Hlen in E. cbn [List.length] in E. lia.
        -- congruence.
      * destruct (Nat.le_gt_cases j k) as [Hle|Hgt].
        -- destruct (firstn_prefix j k (t0 ++ [c]) Hle) as [r Hr]. destruct r as [|x r]; [rewrite app_nil_r in Hr; congruence|].
           destruct (fs_prefix fs Hok (x :: r) (firstn j (t0 ++ [c]))) as [w' Hw']; congruence.
        -- destruct (firstn_prefix (S k) j (t0 ++ [c]) ltac:(lia)) as [r Hr].
           pose proof (fs_none_ext fs Hok _ r Hk2). congruence.
  - apply walk_none in Ew as [w Hw]. cbn [app] in Hw.
    destruct (fs (t0 ++ [c])) as [nd|] eqn:Et.
    + (* exists *)
      unfold directory_exists. rewrite Hres, Et. cbn [fst snd].
      destruct nd as [w'|]; (split; [|split; try discriminate; intros _ q; try reflexivity; auto]).
      * split; [intros _|reflexivity]. left. eauto.
      * split; [intros [r Hr] Hq; exfalso|auto].
        pose proof (fs_none_ext fs Hok q r Hq). congruence.
      * split; [discriminate|]. intros [[w' Hw']|(k & Hk & Hk1 & Hk2)]; [congruence|].
        pose proof (fs_none_ext fs Hok _ (skipn (S k) (t0 ++ [c])) Hk2) as X. rewrite firstn_skipn in X. congruence.
    + rewrite Hw. destruct w.
      * cbn [fst snd]. split; [|split; [|discriminate]].
        -- split; [intros _|reflexivity]. right. exists (List.length t0). split; [lia|].
           split; [rewrite firstn_app, Nat.sub_diag; cbn [firstn]; now rewrite firstn_all, app_nil_r|].
           rewrite firstn_all2; [exact Et|lia].
        -- intros _ q. destruct (list_eq_dec string_dec q (t0 ++ [c])) as [-> | Nq].
           ++ rewrite fs_set_same. split; [auto|]. intros [H|H]; [|congruence]. exfalso; apply H. exists []. now rewrite app_nil_r.
           ++ rewrite fs_set_other by auto. split; auto. intros [r Hr] Hq. exfalso.
              destruct (exists_last (l := r)) as (r' & x' & Ex).
              { intros ->. rewrite app_nil_r in Hr. congruence. }
              subst r. rewrite app_assoc in Hr. apply app_inj_tail in Hr as [Hr _].
              pose proof (fs_none_ext fs Hok q r' Hq). rewrite <- Hr in *. congruence.
      * cbn [fst snd]. split; [|split; [discriminate|auto]]. split; [discriminate|].
        intros [[w' Hw']|(k & Hk & Hk1 & Hk2)]; [congruence|].
        destruct (Nat.lt_ge_cases k (List.length t0)) as [Hlt|Hge].
        -- rewrite firstn_app in Hk2. replace (S k - List.length t0)%nat with O in Hk2 by lia. change (firstn 0 [c]) with (@nil string) in Hk2. rewrite app_nil_r in Hk2.
           pose proof (fs_none_ext fs Hok _ (skipn (S k) t0) Hk2) as X. rewrite firstn_skipn in X. congruence.
        -- assert (k = List.length t0) as -> by lia.
           rewrite firstn_app, Nat.sub_diag in Hk1. cbn [firstn] in Hk1. rewrite firstn_all, app_nil_r in Hk1. congruence.
Qed.

(** * nearest_divide *)
Lemma nd_unique I n r r' : nearest_divide I n r -> nearest_divide I n r' -> r = r'.
Proof. intros H; revert r'. induction H as [res Hi|res r Hi H IH]; intros r' H'; inversion H'; subst; auto; contradiction. Qed.
(** from [n], everything up to [r] fails the test, [r] passes *)
Lemma nd_reach I n r : 0 <= n <= r -> r < 2 ^ 32 -> (forall k, n <= k < r -> ~ I k) -> I r -> nearest_divide I n r.
Proof.
  intros Hn Hr Hno Hi. remember (Z.to_nat (r - n)) as m eqn:Em. revert n Hn Hno Em.
  induction m as [|m IH]; intros n Hn Hno Em.
  - replace n with r by lia. now apply nd_stop.
  - apply nd_next; [apply Hno; lia|]. rewrite u32_small by lia. apply IH; [lia| |lia]. intros k Hk. apply Hno. lia.
Qed.
Lemma nd_wrap I n : 0 <= n < 2 ^ 32 -> (forall k, n <= k < 2 ^ 32 -> ~ I k) -> I 0 -> nearest_divide I n 0.
Proof.
  intros Hn Hno Hi. remember (Z.to_nat (2 ^ 32 - 1 - n)) as m eqn:Em. revert n Hn Hno Em.
  induction m as [|m IH]; intros n Hn Hno Em.
  - apply nd_next; [apply Hno; lia|]. replace (n + 1) with (2 ^ 32) by lia. change (u32 (2 ^ 32)) with 0. now apply nd_stop.
  - apply nd_next; [apply Hno; lia|]. rewrite u32_small by lia. apply IH; [lia| |lia]. intros k Hk. apply Hno. lia.
Qed.
