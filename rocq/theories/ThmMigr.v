(** Theorems C101 (particles that migrate between the ranks) and C102 (deadlocks of that exchange). *)
From Verif Require Import Base ListUtil DecompModel DecompProofs CollectorModel CollectorProofs MpiModel MpiNet MigrModel
  MigrNet MigrProofs.
From Coq Require Import ZifyBool Permutation.

(** * C102 *)
Section C102.
Context {M : Type}.

(** The exchange can come to a standstill exactly when two neighbours both have more messages for each other than
    the library can store; every schedule is finite. *)
Theorem C102_deadlock_free_iff : forall K W (plus minus : Z -> list M),
  ((forall s, steps K (start (migr_prog W plus minus)) s -> stuck K s -> finished s) <->
   (forall p, 0 <= p < W - 1 -> (length (plus p) <= K)%nat \/ (length (minus (p + 1)%Z) <= K)%nat)) /\
  (forall s, steps K (start (migr_prog W plus minus)) s -> Acc (fun t u => step K u t) s).
Proof.
  intros K W plus minus. split; [split|].
  - intros H p Hp. destruct (le_dec (length (plus p)) K) as [|N1]; [now left|].
    destruct (le_dec (length (minus (p + 1))) K) as [|N2]; [now right|exfalso].
    destruct (migr_stops W plus minus K _ (steps_refl K (start (migr_prog W plus minus)))) as (t & Ht & Hst).
    pose proof (H t Ht Hst) as Hf. destruct (clogged W plus minus K p t Hp) as (_ & X & _); [lia..|exact Ht|].
    apply X. rewrite (Hf p). reflexivity.
  - intros H s Hs Hst. now apply (migr_progress W plus minus K s).
  - intros s Hs. now apply (migr_acc W plus minus K).
Qed.

(** and in that case no schedule at all gets through *)
Theorem C102_both_full_refuted : forall K W (plus minus : Z -> list M) p,
  0 <= p < W - 1 -> (K < length (plus p))%nat -> (K < length (minus (p + 1)%Z))%nat ->
  (forall s, steps K (start (migr_prog W plus minus)) s -> ~ finished s) /\
  (exists s, steps K (start (migr_prog W plus minus)) s /\ stuck K s /\ ~ finished s).
Proof.
  intros K W plus minus p Hp K1 K2.
  assert (A : forall s, steps K (start (migr_prog W plus minus)) s -> ~ finished s).
  { intros s Hs Hf. destruct (clogged W plus minus K p s Hp K1 K2 Hs) as (_ & X & _). apply X. rewrite (Hf p). reflexivity. }
  split; [exact A|].
  destruct (migr_stops W plus minus K _ (steps_refl K (start (migr_prog W plus minus)))) as (t & Ht & Hst).
  exists t. split; [exact Ht|]. split; [exact Hst|]. now apply A.
Qed.
End C102.

Lemma payload_length {P} (q : list P) : Z.of_nat (length q) < 2 ^ 32 -> length (payload q) = S (length q).
Proof.
  intros H. unfold payload. rewrite u32_small by lia. cbn [length]. rewrite map_length, Nat2Z.id, firstn_all. reflexivity.
Qed.

(** What the code sends: the count and the particles.  With room for [K] messages per pair of ranks the exchange
    always gets through when of every two neighbours at least one has fewer than [K] particles for the other *)
Theorem C102_particles_partial : forall (P : Type) K W (up down : Z -> list P),
  (forall p, Z.of_nat (length (up p)) < 2 ^ 32) -> (forall p, Z.of_nat (length (down p)) < 2 ^ 32) ->
  (forall p, 0 <= p < W - 1 -> (length (up p) < K)%nat \/ (length (down (p + 1)%Z) < K)%nat) ->
  forall s, steps K (start (migr_prog W (fun p => payload (up p)) (fun p => payload (down p)))) s -> stuck K s -> finished s.
Proof.
  intros P K W up down L1 L2 H. apply C102_deadlock_free_iff. intros p Hp.
  rewrite !payload_length by auto. destruct (H p Hp); [left|right]; lia.
Qed.

(** Without any buffering (every send waits for its receive) two or more ranks never get through, not even when no
    particle migrates *)
Theorem C102_rendezvous_refuted : forall (P : Type) W (up down : Z -> list P), 2 <= W ->
  forall s, steps 0 (start (migr_prog W (fun p => payload (up p)) (fun p => payload (down p)))) s -> ~ finished s.
Proof.
  intros P W up down HW. apply (C102_both_full_refuted 0 W (fun p => payload (up p)) (fun p => payload (down p)) 0).
  - lia.
  - unfold payload; cbn [length]; lia.
  - unfold payload; cbn [length]; lia.
Qed.

Example C102_ex : migr_prog 3 (fun p => payload [p]) (fun p => payload (if p =? 2 then [] else [10 + p])) 1 =
  [Send 2 (Count 1); Send 2 (Part 1); Send 0 (Count 1); Send 0 (Part 11); Recv 0; Recv 0; Recv 2].
Proof. reflexivity. Qed.
Example C102_ex_fits : forall p, 0 <= p < 3 - 1 -> (length (payload [p]) <= 2)%nat \/ (length (payload [(10 + p)%Z]) <= 2)%nat.
Proof. intros p _. left. rewrite payload_length by (cbn [length]; lia). apply le_n. Qed.
Example C102_ex_full : (1 < length (payload [7]))%nat /\ (1 < length (payload [8]))%nat.
Proof. rewrite !payload_length by (cbn [length]; lia). cbn [length]. lia. Qed.

(** * C101 *)
Section C101.
Context {P : Type}.
Variables cr cz sp : P -> Z.

(** [W] ranks with equal slabs of [nz a] cells; the domains divide the cells; all cells fit [int] *)
Definition good_split (W : Z) (a : area) : Prop :=
  1 <= W /\ sane (nr a) (rd_ a) 0 /\ 1 <= zd_ a < 2 ^ 32 /\ 0 < nr a < 2 ^ 31 /\ 0 < nz a /\ nz a * W < 2 ^ 31 /\
  (rd_ a | nr a) /\ (zd_ a | nz a).
Definition inside (W : Z) (a : area) (p : P) : bool :=
  (0 <=? cr p) && (cr p <? nr a) && (0 <=? cz p) && (cz p <? nz a * W).
(** all particles of species [sid], rank by rank; the number of all particles of a rank *)
Definition everybody (W : Z) (a : area) (sid : Z) (st : Z -> smb P) : list P :=
  flat_map (fun r => particles_of a sid (st r)) (ranks W).
Definition population (a : area) (ids : list Z) (st : smb P) : Z :=
  sumZ (fun sid => Z.of_nat (length (particles_of a sid st))) ids.
(** the particle moved less than one slab: it is outside at the axis or at the left wall, or still in its slab, or in the
    slab of a neighbour inside the tube, or it left the last slab *)
Definition tame (W : Z) (a : area) (r : Z) (p : P) : Prop :=
  cr p < 0 \/ cz p < 0 \/ nz a * r <= cz p < nz a * (r + 1) \/
  (0 <= cr p < nr a /\ nz a * (r - 1) <= cz p < nz a * (r + 2)) \/ (r = W - 1 /\ nz a * W <= cz p).

Definition state_ok (W : Z) (a : area) (ids : list Z) (st : Z -> smb P) : Prop :=
  forall r, 0 <= r < W -> ids_ok a ids (st r) /\ population a ids (st r) < 2 ^ 32 /\
    forall i j s l p, 0 <= i < rd_ a -> 0 <= j < zd_ a -> In (s, l) (st r i j) -> In p l -> sp p = s /\ int_cells cr cz p.
Definition state_tame (W : Z) (a : area) (st : Z -> smb P) : Prop :=
  forall r i j s l p, 0 <= r < W -> 0 <= i < rd_ a -> 0 <= j < zd_ a -> In (s, l) (st r i j) -> In p l -> tame W a r p.

Lemma slab_of W a r : good_split W a -> 0 <= r < W -> good_slab a (nz a * r).
Proof.
  intros (HW & Sr & Hz & Pr & Pz & Pe & Dr & Dz) Hr. unfold good_slab.
  assert (nz a * r + nz a <= nz a * W) by nia. assert (0 <= nz a * r) by nia.
  split; [assumption|]. split.
  { unfold sane. split; [lia|]. split; [lia|]. split; [lia|]. split; [|lia].
    destruct Dz as [q Hq]. assert (0 < q) by nia. assert (zd_ a <= nz a) by nia. nia. }
  repeat (split; [solve [assumption | lia]|]). assumption.
Qed.

Lemma start_queues a base ids st : queues_ok cr cz sp a base ids (mkMs st [] []).
Proof. split; intros p []. Qed.

(** the number of queued particles *)
Lemma sum_ids {A} (g : A -> Z) ids (l : list A) : NoDup ids -> (forall x, In x l -> In (g x) ids) ->
  sumZ (fun sid => cntl (fun x => g x =? sid) l) ids = Z.of_nat (length l).
Proof.
  intros Hn. induction l as [|x l IH]; intros H.
  - clear. cbn [length]. induction ids as [|s ids IH]; [reflexivity|]. unfold sumZ in *; cbn [fold_right]. rewrite IH. reflexivity.
  - rewrite (sumZ_ext _ (fun sid => (if g x =? sid then 1 else 0) + cntl (fun x => g x =? sid) l)) by (intros; now rewrite cntl_cons).
    rewrite sumZ_add, IH by (intros; apply H; now right). cbn [length].
    assert (E : sumZ (fun sid => if g x =? sid then 1 else 0) ids = 1); [|lia].
    specialize (H x (or_introl eq_refl)). clear IH l. revert H. induction Hn as [|s ids Hs Hn IH]; intros H; [destruct H|].
    unfold sumZ in *; cbn [fold_right]. destruct (g x =? s) eqn:E.
    + assert (g x = s) by lia. subst s.
      assert (Z0 : forall l', ~ In (g x) l' -> fold_right (fun sid s => (if g x =? sid then 1 else 0) + s) 0 l' = 0).
      { clear. induction l' as [|y l' IH]; intros N; cbn [fold_right]; [reflexivity|].
        rewrite IH by (intros X; apply N; now right). destruct (g x =? y) eqn:E; [|lia]. exfalso. apply N. left. lia. }
      rewrite Z0 by exact Hs. lia.
    + rewrite IH; [lia|]. destruct H as [->|H]; [lia|exact H].
Qed.
Lemma sumZ_le {A} (f g : A -> Z) l : (forall x, In x l -> f x <= g x) -> sumZ f l <= sumZ g l.
Proof.
  induction l as [|x l IH]; intros H; [unfold sumZ; cbn; lia|]. unfold sumZ in *; cbn [fold_right].
  pose proof (H x (or_introl eq_refl)). assert (fold_right (fun x s => f x + s) 0 l <= fold_right (fun x s => g x + s) 0 l) by (apply IH; intros; apply H; now right). lia.
Qed.
Lemma cntl_nonneg {A} (f : A -> bool) l : 0 <= cntl f l.
Proof. rewrite cntl_length. lia. Qed.
Lemma cntl_le_length {A} (f : A -> bool) l : cntl f l <= Z.of_nat (length l).
Proof. induction l as [|x l IH]; [cbn; lia|]. rewrite cntl_cons. cbn [length]. destruct (f x); lia. Qed.

(** one rank *)
Lemma rank_collects W a ids (st : Z -> smb P) r : good_split W a -> state_ok W a ids st -> 0 <= r < W ->
  exists s, mcollect P cr cz a (nz a * r) (code_order a) (mkMs (st r) [] []) = Ok s /\
    ids_ok a ids (doms_of s) /\ tagged cr cz sp a (doms_of s) /\ queues_ok cr cz sp a (nz a * r) ids s /\
    (forall u v, 0 <= u < rd_ a -> 0 <= v < zd_ a -> all_home_m cr cz a (nz a * r) u v (doms_of s u v)) /\
    (forall f sid, (forall p, f p = true -> kept cr cz a (nz a * r) p = true) -> mcnt sp a f sid s = cnt a f sid (st r)) /\
    Z.of_nat (length (q_plus s)) + Z.of_nat (length (q_minus s)) <= population a ids (st r).
Proof.
  intros HG HS Hr. pose proof (slab_of W a r HG Hr) as Hs. destruct (HS r Hr) as (Hids & Hpop & Htag).
  assert (Hpos : 0 <= rd_ a /\ 0 <= zd_ a).
  { destruct HG as (_ & (? & ? & _) & ? & _). lia. }
  destruct (mcollect_spec cr cz sp a (nz a * r) Hs ids (code_order a) (mkMs (st r) [] [])) as (s & E & A1 & A2 & A3 & A4 & _ & A6).
  - exact Hids.
  - exact Htag.
  - apply start_queues.
  - intros i j Hij. now apply code_order_In in Hij.
  - exists s. split; [exact E|]. split; [exact A1|]. split; [exact A2|]. split; [exact A3|]. split.
    { intros u v Hu Hv. apply A4. now apply code_order_In. }
    assert (A6' : forall f sid, (forall p, f p = true -> kept cr cz a (nz a * r) p = true) -> mcnt sp a f sid s = cnt a f sid (st r)).
    { intros f sid Hf. rewrite A6 by exact Hf. unfold mcnt, qcnt. cbn [doms_of q_plus q_minus].
      change (cntl (fun p => f p && (sp p =? sid)) []) with 0. lia. }
    split; [exact A6'|].
    destruct A1 as [Hn _]. destruct A3 as [Q1 Q2].
    rewrite <- (sum_ids sp ids (q_plus s)), <- (sum_ids sp ids (q_minus s)); auto; [|intros; now apply Q2|intros; now apply Q1].
    rewrite <- sumZ_add. unfold population. apply sumZ_le. intros sid _.
    pose proof (A6' (kept cr cz a (nz a * r)) sid (fun p H => H)) as C. unfold mcnt, qcnt in C.
    rewrite (cntl_ext (fun p => kept cr cz a (nz a * r) p && (sp p =? sid)) (fun p => sp p =? sid) (q_plus s)) in C.
    2:{ intros p Hp. destruct (Q1 p Hp) as (U & _ & _). unfold kept. rewrite U, orb_true_r. reflexivity. }
    rewrite (cntl_ext (fun p => kept cr cz a (nz a * r) p && (sp p =? sid)) (fun p => sp p =? sid) (q_minus s)) in C.
    2:{ intros p Hp. destruct (Q2 p Hp) as (U & _ & _). unfold kept. rewrite U, orb_true_r. reflexivity. }
    rewrite !cnt_particles_of in C.
    pose proof (cntl_le_length (kept cr cz a (nz a * r)) (particles_of a sid (st r))).
    pose proof (cntl_nonneg (kept cr cz a (nz a * r)) (particles_of a sid (doms_of s))). lia.
Qed.

(** membership: a queued particle was on the rank *)
Lemma cntl_pos_In {A} (f : A -> bool) l : 0 < cntl f l -> exists x, In x l /\ f x = true.
Proof.
  induction l as [|x l IH]; intros H; [unfold cntl, sumZ in H; cbn in H; lia|]. rewrite cntl_cons in H.
  destruct (f x) eqn:E; [exists x; split; [now left|auto]|]. destruct (IH ltac:(lia)) as (y & ? & ?). exists y. split; [now right|auto].
Qed.
Lemma In_cntl_pos {A} (f : A -> bool) l x : In x l -> f x = true -> 0 < cntl f l.
Proof.
  induction l as [|y l IH]; intros Hin E; [destruct Hin|]. rewrite cntl_cons. destruct Hin as [->|H].
  - rewrite E. pose proof (cntl_nonneg f l). lia.
  - specialize (IH H E). destruct (f y); lia.
Qed.
Lemma In_particles_of a sid (st : smb P) p : In p (particles_of a sid st) ->
  exists i j l, 0 <= i < rd_ a /\ 0 <= j < zd_ a /\ In (sid, l) (st i j) /\ In p l.
Proof.
  unfold particles_of. intros H. apply in_flat_map in H as ([i j] & Hij & H). apply In_pairs in Hij. cbn [fst snd] in H.
  apply in_flat_map in H as ([s l] & Hs & H). cbn [fst snd] in H. destruct (s =? sid) eqn:E; [|destruct H].
  exists i, j, l. assert (s = sid) by lia. subst. tauto.
Qed.
Lemma particles_of_In a sid (st : smb P) p i j l : 0 <= i < rd_ a -> 0 <= j < zd_ a -> In (sid, l) (st i j) -> In p l ->
  In p (particles_of a sid st).
Proof.
  intros Hi Hj Hin Hp. unfold particles_of. apply in_flat_map. exists (i, j). split; [now apply In_pairs|]. cbn [fst snd].
  apply in_flat_map. exists (sid, l). split; [exact Hin|]. cbn [fst snd]. now rewrite Z.eqb_refl.
Qed.

Variable eq_dec : forall x y : P, {x = y} + {x <> y}.
Definition is (x y : P) : bool := if eq_dec x y then true else false.
Lemma is_true x y : is x y = true <-> x = y.
Proof. unfold is. destruct (eq_dec x y); split; congruence. Qed.

Lemma queued_was_there W a ids st r s p : good_split W a -> state_ok W a ids st -> 0 <= r < W ->
  mcollect P cr cz a (nz a * r) (code_order a) (mkMs (st r) [] []) = Ok s -> In p (q_plus s) \/ In p (q_minus s) ->
  exists i j l, 0 <= i < rd_ a /\ 0 <= j < zd_ a /\ In (sp p, l) (st r i j) /\ In p l.
Proof.
  intros HG HS Hr E Hin. destruct (rank_collects W a ids st r HG HS Hr) as (s' & E' & A1 & A2 & A3 & A4 & A5 & _).
  assert (s' = s) by congruence. subst s'. apply In_particles_of.
  assert (K : kept cr cz a (nz a * r) p = true).
  { destruct A3 as [Q1 Q2]. unfold kept. destruct Hin as [H|H]; [destruct (Q1 p H) as (-> & _)|destruct (Q2 p H) as (-> & _)]; now rewrite !orb_true_r. }
  pose proof (A5 (is p) (sp p)) as C. rewrite cnt_particles_of in C.
  destruct (cntl_pos_In (is p) (particles_of a (sp p) (st r))) as (x & Hx & Ex).
  { rewrite <- C by (intros q Hq; apply is_true in Hq; now subst q). unfold mcnt, qcnt. rewrite cnt_particles_of.
    pose proof (cntl_nonneg (is p) (particles_of a (sp p) (doms_of s))).
    pose proof (cntl_nonneg (fun q => is p q && (sp q =? sp p)) (q_plus s)).
    pose proof (cntl_nonneg (fun q => is p q && (sp q =? sp p)) (q_minus s)).
    assert (F : is p p && (sp p =? sp p) = true) by (rewrite Z.eqb_refl; apply andb_true_iff; split; [now apply is_true|reflexivity]).
    destruct Hin as [Hin|Hin]; pose proof (In_cntl_pos (fun q => is p q && (sp q =? sp p)) _ p Hin F); lia. }
  apply is_true in Ex. now subst x.
Qed.

(** a tame run: what is received is inside the receiver's slab *)
Lemma tame_receives W a ids st r s : good_split W a -> state_ok W a ids st -> state_tame W a st -> 0 <= r < W ->
  mcollect P cr cz a (nz a * r) (code_order a) (mkMs (st r) [] []) = Ok s ->
  (r < W - 1 -> forall p, In p (q_plus s) -> in_slab cr cz a (nz a * (r + 1)) p = true /\ In (sp p) ids /\ int_cells cr cz p) /\
  (0 < r -> forall p, In p (q_minus s) -> in_slab cr cz a (nz a * (r - 1)) p = true /\ In (sp p) ids /\ int_cells cr cz p) /\
  (r = W - 1 -> forall p, In p (q_plus s) -> inside W a p = false) /\
  (r = 0 -> q_minus s = []).
Proof.
  intros HG HS HT Hr E. destruct (rank_collects W a ids st r HG HS Hr) as (s' & E' & A1 & A2 & A3 & A4 & A5 & _).
  assert (s' = s) by congruence. subst s'. destruct A3 as [Q1 Q2]. pose proof HG as (_ & _ & _ & _ & Pz & _).
  split; [|split; [|split]].
  - intros Hr1 p Hp. destruct (Q1 p Hp) as (U & S1 & S2). split; [|tauto].
    destruct (queued_was_there W a ids st r s p HG HS Hr E (or_introl Hp)) as (i & j & l & Hi & Hj & Hin & Hl).
    pose proof (HT r i j (sp p) l p Hr Hi Hj Hin Hl) as T. unfold tame, goes_up, in_slab in *. nia.
  - intros Hr1 p Hp. destruct (Q2 p Hp) as (U & S1 & S2). split; [|tauto].
    destruct (queued_was_there W a ids st r s p HG HS Hr E (or_intror Hp)) as (i & j & l & Hi & Hj & Hin & Hl).
    pose proof (HT r i j (sp p) l p Hr Hi Hj Hin Hl) as T. unfold tame, goes_down, in_slab in *. nia.
  - intros -> p Hp. destruct (Q1 p Hp) as (U & _). unfold goes_up, inside in *. nia.
  - intros ->. destruct (q_minus s) as [|p l] eqn:Eq; [reflexivity|exfalso]. destruct (Q2 p (or_introl eq_refl)) as (U & _).
    unfold goes_down in U. lia.
Qed.

Lemma short_queues W a ids st r s : good_split W a -> state_ok W a ids st -> 0 <= r < W ->
  mcollect P cr cz a (nz a * r) (code_order a) (mkMs (st r) [] []) = Ok s ->
  Z.of_nat (length (q_plus s)) <= population a ids (st r) /\ Z.of_nat (length (q_minus s)) <= population a ids (st r) /\
  population a ids (st r) < 2 ^ 32.
Proof.
  intros HG HS Hr E. destruct (rank_collects W a ids st r HG HS Hr) as (s' & E' & _ & _ & _ & _ & _ & L).
  assert (s' = s) by congruence. subst s'. destruct (HS r Hr) as (_ & Hp & _). lia.
Qed.

(** Every particle inside the simulation area is afterwards on exactly one rank, in the domain that contains its
    cell; nothing else is left. *)
Theorem C101_conserves_partial : forall K W a ids (st st' : Z -> smb P),
  good_split W a -> state_ok W a ids st -> state_tame W a st -> migrated cr cz sp K W a st st' ->
  (forall sid, Permutation (everybody W a sid st') (filter (inside W a) (everybody W a sid st))) /\
  (forall r, 0 <= r < W -> ids_ok a ids (st' r)) /\
  (forall r i j s l p, 0 <= r < W -> 0 <= i < rd_ a -> 0 <= j < zd_ a -> In (s, l) (st' r i j) -> In p l ->
     sp p = s /\ home_m cr cz a (nz a * r) i j p).
Proof.
  intros K W a ids st st' HG HS HT (mid & Hmid & s & Hs & Hf & Hrec).
  destruct (migr_delivers W _ _ K s Hs Hf) as [Dup Ddown]. cbn beta in Dup, Ddown.
  pose proof HG as (HW & _).
  (* rank by rank *)
  assert (R : forall r, 0 <= r < W -> ids_ok a ids (st' r) /\ tagged cr cz sp a (st' r) /\
     (forall u v, 0 <= u < rd_ a -> 0 <= v < zd_ a -> all_home_m cr cz a (nz a * r) u v (st' r u v)) /\
     (forall f sid, cnt a f sid (st' r) = cnt a f sid (doms_of (mid r)) + (if 0 <? r then qcnt sp f sid (q_plus (mid (r - 1))) else 0)
        + (if r <? W - 1 then qcnt sp f sid (q_minus (mid (r + 1))) else 0))).
  { intros r Hr. specialize (Hrec r Hr). pose proof (slab_of W a r HG Hr) as Hsl.
    destruct (rank_collects W a ids st r HG HS Hr) as (s' & E' & A1 & A2 & _ & A4 & _). rewrite (Hmid r Hr) in E'.
    injection E' as <-.
    assert (B : exists b, (if 0 <? r then do l <- decode (got s r (r - 1)); receive P cr cz sp a (nz a * r) l (doms_of (mid r))
        else Ok (doms_of (mid r))) = Ok b /\ ids_ok a ids b /\ tagged cr cz sp a b /\
        (forall u v, 0 <= u < rd_ a -> 0 <= v < zd_ a -> all_home_m cr cz a (nz a * r) u v (b u v)) /\
        (forall f sid, cnt a f sid b = cnt a f sid (doms_of (mid r)) + (if 0 <? r then qcnt sp f sid (q_plus (mid (r - 1))) else 0))).
    { destruct (0 <? r) eqn:E0.
      - specialize (Dup (r - 1) ltac:(lia)). replace (r - 1 + 1) with r in Dup by lia.
        pose proof (Hmid (r - 1) ltac:(lia)) as Em. pose proof (short_queues W a ids st (r - 1) _ HG HS ltac:(lia) Em).
        rewrite Dup, decode_payload by lia. cbn [bind].
        destruct (tame_receives W a ids st (r - 1) _ HG HS HT ltac:(lia) Em) as (T & _).
        specialize (T ltac:(lia)). replace (r - 1 + 1) with r in T by lia.
        exact (receive_spec cr cz sp a (nz a * r) Hsl ids (q_plus (mid (r - 1))) (doms_of (mid r)) A1 A2 T A4).
      - exists (doms_of (mid r)). repeat (split; [assumption || reflexivity|]). intros; lia. }
    destruct B as (b & Eb & B1 & B2 & B3 & B4). rewrite Eb in Hrec. cbn [bind] in Hrec.
    destruct (r <? W - 1) eqn:E1.
    - specialize (Ddown (r + 1) ltac:(lia)). replace (r + 1 - 1) with r in Ddown by lia.
      pose proof (Hmid (r + 1) ltac:(lia)) as Em. pose proof (short_queues W a ids st (r + 1) _ HG HS ltac:(lia) Em).
      rewrite Ddown, decode_payload in Hrec by lia. cbn [bind] in Hrec.
      destruct (tame_receives W a ids st (r + 1) _ HG HS HT ltac:(lia) Em) as (_ & T & _).
      specialize (T ltac:(lia)). replace (r + 1 - 1) with r in T by lia.
      destruct (receive_spec cr cz sp a (nz a * r) Hsl ids (q_minus (mid (r + 1))) b B1 B2 T B3) as (x & Ex & C1 & C2 & C3 & C4).
      rewrite Ex in Hrec. injection Hrec as <-. repeat (split; [assumption|]). intros f sid. rewrite C4, B4. lia.
    - injection Hrec as <-. repeat (split; [assumption|]). intros f sid. rewrite B4. lia. }
  split; [|split].
  - intros sid. apply (cntl_permutation eq_dec). intros f0. rewrite cntl_filter.
    set (f := fun x => f0 x && inside W a x).
    assert (Hsum : forall x, cntl x (everybody W a sid st) = sumZ (fun r => cnt a x sid (st r)) (ranks W)).
    { intros x. unfold everybody. rewrite cntl_flat_map. apply sumZ_ext. intros r _. now rewrite cnt_particles_of. }
    assert (Hsum' : forall x, cntl x (everybody W a sid st') = sumZ (fun r => cnt a x sid (st' r)) (ranks W)).
    { intros x. unfold everybody. rewrite cntl_flat_map. apply sumZ_ext. intros r _. now rewrite cnt_particles_of. }
    assert (Ef : cntl f0 (everybody W a sid st') = cntl f (everybody W a sid st')).
    { apply cntl_ext. intros p Hp. unfold f. unfold everybody in Hp. apply in_flat_map in Hp as (r & Hr & Hp).
      unfold ranks in Hr. apply In_range in Hr. destruct (R r ltac:(lia)) as (_ & _ & Hh & _).
      apply In_particles_of in Hp as (i & j & l & Hi & Hj & Hin & Hp). destruct (Hh i j Hi Hj sid l p Hin Hp) as [Hsl _].
      replace (inside W a p) with true; [now rewrite andb_true_r|]. unfold in_slab in Hsl. unfold inside.
      destruct HG as (_ & _ & _ & _ & Pz & _). nia. }
    rewrite Ef, Hsum, Hsum'.
    rewrite (sumZ_ext (fun r => cnt a f sid (st' r)) (fun r => (cnt a f sid (doms_of (mid r)) +
       (if 0 <? r then qcnt sp f sid (q_plus (mid (r - 1))) else 0)) + (if r <? W - 1 then qcnt sp f sid (q_minus (mid (r + 1))) else 0))).
    2:{ intros r Hr. unfold ranks in Hr. apply In_range in Hr. apply R. lia. }
    rewrite !sumZ_add, (sum_up (fun r => qcnt sp f sid (q_plus (mid r)))), (sum_down (fun r => qcnt sp f sid (q_minus (mid r)))) by lia.
    rewrite <- !sumZ_add. apply sumZ_ext. intros r Hr. unfold ranks in Hr. apply In_range in Hr.
    destruct (rank_collects W a ids st r HG HS ltac:(lia)) as (s' & E' & A1 & A2 & A3 & A4 & A5 & _). rewrite (Hmid r ltac:(lia)) in E'.
    injection E' as <-. change (fun x => f0 x && inside W a x) with f. rewrite <- (A5 f sid).
    2:{ intros p Hp. unfold f in Hp. unfold kept, in_slab, goes_up, goes_down, inside in *. lia. }
    unfold mcnt.
    destruct (tame_receives W a ids st r _ HG HS HT ltac:(lia) (Hmid r ltac:(lia))) as (_ & _ & T3 & T4).
    assert (L1 : (if r <? W - 1 then qcnt sp f sid (q_plus (mid r)) else 0) = qcnt sp f sid (q_plus (mid r))).
    { destruct (r <? W - 1) eqn:E; [reflexivity|]. symmetry. unfold qcnt. specialize (T3 ltac:(lia)).
      destruct (Z.eq_dec (cntl (fun p => f p && (sp p =? sid)) (q_plus (mid r))) 0) as [|N]; [assumption|exfalso].
      pose proof (cntl_nonneg (fun p => f p && (sp p =? sid)) (q_plus (mid r))).
      destruct (cntl_pos_In (fun p => f p && (sp p =? sid)) (q_plus (mid r)) ltac:(lia)) as (p & Hp & Hp').
      unfold f in Hp'. rewrite (T3 p Hp) in Hp'. rewrite andb_false_r in Hp'. discriminate. }
    assert (L2 : (if 0 <? r then qcnt sp f sid (q_minus (mid r)) else 0) = qcnt sp f sid (q_minus (mid r))).
    { destruct (0 <? r) eqn:E; [reflexivity|]. rewrite T4 by lia. reflexivity. }
    rewrite L1, L2. reflexivity.
  - intros r Hr. now apply R.
  - intros r i j x l p Hr Hi Hj Hin Hp. destruct (R r Hr) as (_ & Tg & Hh & _). split.
    + now apply (Tg i j x l p).
    + now apply (Hh i j Hi Hj x l p).
Qed.

(** with room for all particles of a rank the migration takes place *)
Theorem C101_takes_place : forall K W a ids (st : Z -> smb P),
  good_split W a -> state_ok W a ids st -> state_tame W a st ->
  (forall r, 0 <= r < W -> population a ids (st r) < Z.of_nat K) ->
  exists st', migrated cr cz sp K W a st st'.
Proof.
  intros K W a ids st HG HS HT HK. pose proof HG as (HW & _).
  assert (Hmid : exists mid : Z -> mstate P, forall r, 0 <= r < W ->
    mcollect P cr cz a (nz a * r) (code_order a) (mkMs (st r) [] []) = Ok (mid r)).
  { exists (fun r => match mcollect P cr cz a (nz a * r) (code_order a) (mkMs (st r) [] []) with Ok x => x | _ => mkMs (st r) [] [] end).
    intros r Hr. destruct (rank_collects W a ids st r HG HS Hr) as (s' & -> & _). reflexivity. }
  destruct Hmid as [mid Hmid].
  set (up := fun p => payload (q_plus (mid p))). set (down := fun p => payload (q_minus (mid p))).
  destruct (migr_stops W up down K _ (steps_refl K (start (migr_prog W up down)))) as (s & Hs & Hst).
  assert (Hf : finished s).
  { apply (migr_progress W up down K s); [|exact Hs|exact Hst]. intros p Hp. left. unfold up.
    pose proof (short_queues W a ids st p _ HG HS ltac:(lia) (Hmid p ltac:(lia))). rewrite payload_length by lia.
    specialize (HK p ltac:(lia)). lia. }
  destruct (migr_delivers W up down K s Hs Hf) as [Dup Ddown].
  assert (R : forall r, 0 <= r < W -> exists x,
    (do b <- (if 0 <? r then do l <- decode (got s r (r - 1)); receive P cr cz sp a (nz a * r) l (doms_of (mid r))
              else Ok (doms_of (mid r)));
     (if r <? W - 1 then do l <- decode (got s r (r + 1)); receive P cr cz sp a (nz a * r) l b else Ok b)) = Ok x).
  { intros r Hr. pose proof (slab_of W a r HG Hr) as Hsl.
    destruct (rank_collects W a ids st r HG HS Hr) as (s' & E' & A1 & A2 & _ & A4 & _). rewrite (Hmid r Hr) in E'.
    injection E' as <-.
    assert (B : exists b, (if 0 <? r then do l <- decode (got s r (r - 1)); receive P cr cz sp a (nz a * r) l (doms_of (mid r))
        else Ok (doms_of (mid r))) = Ok b /\ ids_ok a ids b /\ tagged cr cz sp a b /\
        (forall u v, 0 <= u < rd_ a -> 0 <= v < zd_ a -> all_home_m cr cz a (nz a * r) u v (b u v))).
    { destruct (0 <? r) eqn:E0.
      - specialize (Dup (r - 1) ltac:(lia)). replace (r - 1 + 1) with r in Dup by lia. unfold up in Dup.
        pose proof (Hmid (r - 1) ltac:(lia)) as Em. pose proof (short_queues W a ids st (r - 1) _ HG HS ltac:(lia) Em).
        rewrite Dup, decode_payload by lia. cbn [bind].
        destruct (tame_receives W a ids st (r - 1) _ HG HS HT ltac:(lia) Em) as (T & _).
        specialize (T ltac:(lia)). replace (r - 1 + 1) with r in T by lia.
        destruct (receive_spec cr cz sp a (nz a * r) Hsl ids (q_plus (mid (r - 1))) (doms_of (mid r)) A1 A2 T A4) as (x & Ex & ? & ? & ? & _).
        exists x. auto.
      - exists (doms_of (mid r)). auto. }
    destruct B as (b & Eb & B1 & B2 & B3). rewrite Eb. cbn [bind].
    destruct (r <? W - 1) eqn:E1; [|eauto].
    specialize (Ddown (r + 1) ltac:(lia)). replace (r + 1 - 1) with r in Ddown by lia. unfold down in Ddown.
    pose proof (Hmid (r + 1) ltac:(lia)) as Em. pose proof (short_queues W a ids st (r + 1) _ HG HS ltac:(lia) Em).
    rewrite Ddown, decode_payload by lia. cbn [bind].
    destruct (tame_receives W a ids st (r + 1) _ HG HS HT ltac:(lia) Em) as (_ & T & _).
    specialize (T ltac:(lia)). replace (r + 1 - 1) with r in T by lia.
    destruct (receive_spec cr cz sp a (nz a * r) Hsl ids (q_minus (mid (r + 1))) b B1 B2 T B3) as (x & Ex & _). eauto. }
  set (g := fun r => match (do b <- (if 0 <? r then do l <- decode (got s r (r - 1)); receive P cr cz sp a (nz a * r) l (doms_of (mid r))
              else Ok (doms_of (mid r)));
     (if r <? W - 1 then do l <- decode (got s r (r + 1)); receive P cr cz sp a (nz a * r) l b else Ok b)) with Ok x => x | _ => st r end).
  exists g, mid. split; [exact Hmid|]. exists s. split; [exact Hs|]. split; [exact Hf|]. intros r Hr.
  destruct (R r Hr) as [x Ex]. unfold g. rewrite Ex. reflexivity.
Qed.

(** A particle that crosses the upper border of its slab and leaves through the outer wall in the same step, or
    that skips the next slab, breaks the receiver: no schedule leads to a defined result. *)
Lemma receive_bad a base p : forall l st st', In p l -> (forall x, receive1 P cr cz sp a base p x = UB) ->
  receive P cr cz sp a base l st = Ok st' -> False.
Proof.
  induction l as [|q l IH]; intros st st' Hin Hb E; [destruct Hin|]. cbn [receive] in E.
  destruct Hin as [->|Hin].
  - rewrite Hb in E. discriminate.
  - destruct (receive1 P cr cz sp a base q st) as [x| |]; cbn [bind] in E; try discriminate. now apply (IH x st').
Qed.
Theorem C101_corner_refuted : forall K W a ids (st st' : Z -> smb P) r i j s l p,
  good_split W a -> state_ok W a ids st -> 0 <= r < W - 1 ->
  0 <= i < rd_ a -> 0 <= j < zd_ a -> In (s, l) (st r i j) -> In p l ->
  nz a * (r + 1) <= cz p -> (nr a <= cr p \/ (0 <= cr p /\ nz a * (r + 2) <= cz p)) ->
  ~ migrated cr cz sp K W a st st'.
Proof.
  intros K W a ids st st' r i j s l p HG HS Hr Hi Hj Hin Hp Hz Hbad (mid & Hmid & t & Ht & Hf & Hrec).
  destruct (migr_delivers W _ _ K t Ht Hf) as [Dup _]. cbn beta in Dup. specialize (Dup r ltac:(lia)).
  destruct (rank_collects W a ids st r HG HS ltac:(lia)) as (s' & E' & A1 & A2 & A3 & A4 & A5 & _).
  rewrite (Hmid r ltac:(lia)) in E'. injection E' as <-.
  destruct (HS r ltac:(lia)) as (_ & _ & Htag). destruct (Htag i j s l p Hi Hj Hin Hp) as [Hsp [Hir Hiz]].
  pose proof HG as (_ & _ & _ & Pr & Pz & _).
  assert (Hbase : 0 <= nz a * r) by nia.
  assert (Hq : In p (q_plus (mid r))).
  { assert (Kp : kept cr cz a (nz a * r) p = true) by (unfold kept, goes_up; nia).
    pose proof (A5 (is p) s) as C. specialize (C ltac:(intros q Hq; apply is_true in Hq; now subst q)).
    rewrite cnt_particles_of in C.
    pose proof (In_cntl_pos (is p) _ p (particles_of_In a s (st r) p i j l Hi Hj Hin Hp) ltac:(now apply is_true)) as C1.
    rewrite <- C in C1. unfold mcnt, qcnt in C1. rewrite cnt_particles_of in C1.
    destruct (Z_lt_ge_dec 0 (cntl (is p) (particles_of a s (doms_of (mid r))))) as [H|H1].
    { exfalso. apply cntl_pos_In in H as (x & Hx & Ex). apply is_true in Ex. subst x.
      apply In_particles_of in Hx as (u & v & l' & Hu & Hv & Hin' & Hp').
      destruct (A4 u v Hu Hv s l' p Hin' Hp') as [Hsl _]. unfold in_slab in Hsl. nia. }
    destruct (Z_lt_ge_dec 0 (cntl (fun q => is p q && (sp q =? s)) (q_minus (mid r)))) as [H|H2].
    { exfalso. apply cntl_pos_In in H as (x & Hx & Ex). apply andb_true_iff in Ex as [Ex _]. apply is_true in Ex. subst x.
      destruct A3 as [_ Q2]. destruct (Q2 p Hx) as (U & _). unfold goes_down in U. nia. }
    destruct (cntl_pos_In (fun q => is p q && (sp q =? s)) (q_plus (mid r)) ltac:(lia)) as (x & Hx & Ex).
    apply andb_true_iff in Ex as [Ex _]. apply is_true in Ex. now subst x. }
  specialize (Hrec (r + 1) ltac:(lia)). replace (0 <? r + 1) with true in Hrec by lia.
  replace (r + 1 - 1) with r in Hrec by lia.
  pose proof (short_queues W a ids st r _ HG HS ltac:(lia) (Hmid r ltac:(lia))).
  rewrite Dup, decode_payload in Hrec by lia. cbn [bind] in Hrec.
  destruct (receive P cr cz sp a (nz a * (r + 1)) (q_plus (mid r)) (doms_of (mid (r + 1)))) as [x| |] eqn:E; cbn [bind] in Hrec; try discriminate.
  pose proof (slab_of W a (r + 1) HG ltac:(lia)) as Hsl.
  apply (receive_bad a (nz a * (r + 1)) p _ _ _ Hq) in E; [exact E|]. intros y.
  destruct (Z_lt_ge_dec (cr p) (nr a)) as [Hlt|Hge].
  - apply (receive1_above cr cz sp a (nz a * (r + 1)) Hsl); [lia|]. nia.
  - apply (receive1_bad_r cr cz sp a (nz a * (r + 1)) Hsl). lia.
Qed.
End C101.

(** two ranks with 4 x 4 cells and 2 x 2 domains each; a particle is (name, r cell, z cell) of species 7 *)
Definition mg_area : area := {| nr := 4; nz := 4; rd_ := 2; zd_ := 2 |}.
Definition mg_cr (p : Z * Z * Z) : Z := snd (fst p).
Definition mg_cz (p : Z * Z * Z) : Z := snd p.
Definition mg_sp (p : Z * Z * Z) : Z := 7.
(** rank 0, domain (0, 1): a stays, b goes to rank 1, c goes to domain (1, 0); rank 1, domain (0, 0): d goes to
    rank 0, e left the area at the axis; domain (1, 1): f left the area *)
Definition mg_state (r : Z) : smb (Z * Z * Z) := fun i j =>
  [(7, if (r =? 0) && (i =? 0) && (j =? 1) then [(1, 0, 2); (2, 1, 5); (3, 3, 0)]
       else if (r =? 1) && (i =? 0) && (j =? 0) then [(4, 2, 3); (5, -1, 4)]
       else if (r =? 1) && (i =? 1) && (j =? 1) then [(6, 3, 8)] else [])].
Example C101_ex_split : good_split 2 mg_area.
Proof.
  unfold good_split, sane, mg_area; cbn [nr nz rd_ zd_].
  repeat match goal with |- _ /\ _ => split end; try lia; now exists 2.
Qed.
Ltac mg_cases i j :=
  let H := fresh in
  assert (H : (i = 0 \/ i = 1) /\ (j = 0 \/ j = 1)) by lia; destruct H as [[-> | ->] [-> | ->]].
Example C101_ex_state : state_ok mg_cr mg_cz mg_sp 2 mg_area [7] mg_state.
Proof.
  intros r Hr. assert (Er : r = 0 \/ r = 1) by lia. split; [|split].
  - split; [constructor; [intros []|constructor]|]. intros i j Hi Hj. reflexivity.
  - destruct Er as [-> | ->]; vm_compute; reflexivity.
  - intros i j s l p Hi Hj Hin Hp. cbn [mg_area rd_ zd_] in *.
    assert (X : s = 7 /\ (p = (1, 0, 2) \/ p = (2, 1, 5) \/ p = (3, 3, 0) \/ p = (4, 2, 3) \/ p = (5, -1, 4) \/ p = (6, 3, 8))).
    { destruct Hin as [[= <- <-]|[]]. split; [reflexivity|].
      destruct Er as [-> | ->]; mg_cases i j; cbn in Hp; intuition. }
    destruct X as [-> X]. split; [reflexivity|]. unfold int_cells, mg_cr, mg_cz.
    destruct X as [->|[->|[->|[->|[->| ->]]]]]; cbn [fst snd]; lia.
Qed.
Example C101_ex_tame : state_tame mg_cr mg_cz 2 mg_area mg_state.
Proof.
  intros r i j s l p Hr Hi Hj [[= <- <-]|[]] Hp. cbn [mg_area rd_ zd_] in *. assert (Er : r = 0 \/ r = 1) by lia.
  unfold tame, mg_cr, mg_cz, mg_area; cbn [nr nz].
  destruct Er as [-> | ->]; mg_cases i j; cbn in Hp; intuition (subst; cbn [fst snd]; lia).
Qed.
Example C101_ex_moves : exists st', migrated mg_cr mg_cz mg_sp 4 2 mg_area mg_state st' /\
  Permutation (everybody 2 mg_area 7 st') [(1, 0, 2); (2, 1, 5); (3, 3, 0); (4, 2, 3)].
Proof.
  destruct (C101_takes_place mg_cr mg_cz mg_sp ltac:(repeat decide equality) 4 2 mg_area [7] mg_state) as [st' H].
  - exact C101_ex_split.
  - exact C101_ex_state.
  - exact C101_ex_tame.
  - intros r Hr. assert (Er : r = 0 \/ r = 1) by lia. destruct Er as [-> | ->]; vm_compute; reflexivity.
  - exists st'. split; [exact H|].
    destruct (C101_conserves_partial mg_cr mg_cz mg_sp ltac:(repeat decide equality) 4 2 mg_area [7] mg_state st'
      C101_ex_split C101_ex_state C101_ex_tame H) as [Hp _].
    specialize (Hp 7). vm_compute in Hp |- *. exact Hp.
Qed.
(** a particle of rank 0 that crosses into slab 1 and through the outer wall (r cell 4 of 0..3) in one step *)
Definition mg_corner (r : Z) : smb (Z * Z * Z) := fun i j =>
  [(7, if (r =? 0) && (i =? 1) && (j =? 1) then [(1, 4, 4)] else [])].
Example C101_ex_corner : forall K st', ~ migrated mg_cr mg_cz mg_sp K 2 mg_area mg_corner st'.
Proof.
  intros K st'. apply (C101_corner_refuted mg_cr mg_cz mg_sp ltac:(repeat decide equality) K 2 mg_area [7] mg_corner st' 0 1 1 7 [(1, 4, 4)] (1, 4, 4)).
  - exact C101_ex_split.
  - intros r Hr. assert (Er : r = 0 \/ r = 1) by lia. split; [|split].
    + split; [constructor; [intros []|constructor]|]. intros i j Hi Hj. reflexivity.
    + destruct Er as [-> | ->]; vm_compute; reflexivity.
    + intros i j s l p Hi Hj [[= <- <-]|[]] Hp. cbn [mg_area rd_ zd_] in *.
      assert (p = (1, 4, 4)) by (destruct Er as [-> | ->]; mg_cases i j; cbn in Hp; intuition).
      subst p. split; [reflexivity|]. unfold int_cells, mg_cr, mg_cz; cbn [fst snd]. lia.
  - lia.
  - cbn [mg_area rd_]; lia.
  - cbn [mg_area zd_]; lia.
  - left; reflexivity.
  - left; reflexivity.
  - unfold mg_area, mg_cz; cbn [nz snd]. lia.
  - left. unfold mg_area, mg_cr; cbn [nr fst snd]. lia.
Qed.

Print Assumptions C101_conserves_partial.
Print Assumptions C101_takes_place.
Print Assumptions C101_corner_refuted.
Print Assumptions C102_deadlock_free_iff.
Print Assumptions C102_both_full_refuted.
Print Assumptions C102_particles_partial.
Print Assumptions C102_rendezvous_refuted.
