(** Theorems about the initial placement, continued: the flat sequence, regular and centered placement, density profile. *)
From Coq Require Import Reals Lra Psatz ZifyBool.
From Verif Require Import Base RndUtil ParticleModel ParticleProofs PushModel InitModel ThmParticle ThmInit.
Open Scope R_scope.

(** * C86: the sequence of random_reverse *)
Section Reverse.
Variable p : Z.
Hypothesis Hp : (2 <= p)%Z.
(** mirror image of the digits to base p at the point *)
Fixpoint radinv (fuel : nat) (n : Z) : R :=
  match fuel with
  | O => 0
  | S f => if (1 <=? n)%Z then (IZR (n mod p) + radinv f (n / p)) / IZR p else 0
  end.
Lemma p_pos : 0 < IZR p.
Proof. apply IZR_lt. lia. Qed.
Lemma minus_mod n : ((n - n mod p) / p = n / p)%Z.
Proof. replace (n - n mod p)%Z with (n / p * p)%Z by (pose proof (Z.div_mod n p ltac:(lia)); lia). apply Z.div_mul. lia. Qed.
Lemma div_fuel n f : (0 <= n < 2 ^ Z.of_nat (S f))%Z -> (0 <= n / p < 2 ^ Z.of_nat f)%Z.
Proof.
  intros H. rewrite Nat2Z.inj_succ, Z.pow_succ_r in H by lia. split; [apply Z.div_pos; lia|].
  apply Z.div_lt_upper_bound; [lia|]. nia.
Qed.
Lemma loop_radinv fuel : forall n order r, (0 <= n < 2 ^ Z.of_nat fuel)%Z ->
  reverse_loop fuel n p (S order) r = Some (r + radinv fuel n * / IZR p ^ order).
Proof.
  pose proof p_pos. induction fuel as [|f IH]; intros n order r Hn.
  - change (2 ^ Z.of_nat 0)%Z with 1%Z in Hn. assert (n = 0%Z) by lia. subst n. cbn. f_equal. ring.
  - cbn [reverse_loop radinv]. destruct (1 <=? n)%Z eqn:E; [|f_equal; ring].
    rewrite minus_mod, IH by now apply div_fuel. f_equal.
    assert (P : IZR p ^ order <> 0) by (apply pow_nonzero; lra).
    cbn [pow]. field. split; [auto|lra].
Qed.
Lemma radinv_range fuel : forall n, (0 <= n)%Z -> 0 <= radinv fuel n < 1.
Proof.
  pose proof p_pos. induction fuel as [|f IH]; intros n Hn; cbn [radinv]; [lra|]. destruct (1 <=? n)%Z; [|lra].
  assert (A := IH (n / p)%Z ltac:(apply Z.div_pos; lia)). pose proof (Z.mod_pos_bound n p ltac:(lia)) as B.
  assert (0 <= IZR (n mod p)) by (apply IZR_le; lia).
  assert (IZR (n mod p) + 1 <= IZR p) by (rewrite <- plus_IZR; apply IZR_le; lia).
  split; [apply Rmult_le_pos; [lra|left; now apply Rinv_0_lt_compat]|].
  apply Rmult_lt_reg_r with (IZR p); [lra|]. unfold Rdiv. rewrite Rmult_assoc, Rinv_l; lra.
Qed.
Lemma radinv_step f n : (0 <= n < 2 ^ Z.of_nat (S f))%Z -> radinv (S f) n = (IZR (n mod p) + radinv f (n / p)) / IZR p.
Proof.
  intros H. cbn [radinv]. destruct (1 <=? n)%Z eqn:E; [reflexivity|]. assert (n = 0%Z) by lia. subst n.
  rewrite Z.mod_0_l, Z.div_0_l by lia. destruct f; cbn [radinv]; [|cbn [Z.leb Z.compare]]; unfold Rdiv; ring.
Qed.
Lemma radinv_fuel f : forall n, (0 <= n < 2 ^ Z.of_nat f)%Z -> radinv (S f) n = radinv f n.
Proof.
  induction f as [|f IH]; intros n Hn.
  - change (2 ^ Z.of_nat 0)%Z with 1%Z in Hn. assert (n = 0%Z) by lia. now subst n.
  - cbn [radinv] in *. destruct (1 <=? n)%Z; [|reflexivity]. pose proof (div_fuel _ _ Hn) as D. specialize (IH _ D).
    f_equal. f_equal. exact IH.
Qed.
Lemma radinv_fuel_le f f' n : (f <= f')%nat -> (0 <= n < 2 ^ Z.of_nat f)%Z -> radinv f' n = radinv f n.
Proof.
  intros H Hn. induction H as [|f' H IH]; [reflexivity|]. rewrite radinv_fuel; auto. split; [lia|].
  apply Z.lt_le_trans with (1 := proj2 Hn). apply Z.pow_le_mono_r; lia.
Qed.
(** the number of the strip of width p^-k *)
Fixpoint strip (k : nat) (n : Z) : Z := match k with O => 0 | S k' => (n mod p) * p ^ Z.of_nat k' + strip k' (n / p) end%Z.
Lemma strip_range k : forall n, (0 <= strip k n < p ^ Z.of_nat k)%Z.
Proof.
  induction k as [|k IH]; intros n; cbn [strip]; [rewrite Z.pow_0_r; lia|].
  rewrite Nat2Z.inj_succ, Z.pow_succ_r by lia. pose proof (Z.mod_pos_bound n p ltac:(lia)). specialize (IH (n / p)%Z). nia.
Qed.
Lemma strip_radinv k : forall f n, (0 <= n < 2 ^ Z.of_nat f)%Z -> Int_part (radinv f n * IZR p ^ k) = strip k n.
Proof.
  pose proof p_pos. induction k as [|k IH]; intros f n Hn.
  - cbn [pow strip]. rewrite Rmult_1_r. pose proof (radinv_range f n ltac:(lia)). apply Int_part_unique. cbn. lra.
  - rewrite <- (radinv_fuel f n Hn).
    assert (Hn' : (0 <= n < 2 ^ Z.of_nat (S f))%Z) by (split; [lia|]; apply Z.lt_le_trans with (1 := proj2 Hn); apply Z.pow_le_mono_r; lia).
    rewrite radinv_step by auto. pose proof (div_fuel n f Hn') as D. specialize (IH f _ D).
    cbn [strip pow]. apply Int_part_unique. destruct (Int_part_bounds (radinv f (n / p) * IZR p ^ k)) as [A B]. rewrite IH in A, B.
    rewrite plus_IZR, mult_IZR, <- pow_IZR.
    replace ((IZR (n mod p) + radinv f (n / p)) / IZR p * (IZR p * IZR p ^ k))
      with (IZR (n mod p) * IZR p ^ k + radinv f (n / p) * IZR p ^ k) by (field; lra). lra.
Qed.
Lemma strip_inj k : forall n m, strip k n = strip k m -> (n / p ^ Z.of_nat k = m / p ^ Z.of_nat k)%Z -> n = m.
Proof.
  induction k as [|k IH]; intros n m E Q; cbn [strip] in *.
  - rewrite Z.pow_0_r, !Z.div_1_r in Q. auto.
  - rewrite Nat2Z.inj_succ, Z.pow_succ_r in Q by lia. rewrite <- !Z.div_div in Q by lia.
    pose proof (strip_range k (n / p)). pose proof (strip_range k (m / p)).
    pose proof (Z.mod_pos_bound n p ltac:(lia)). pose proof (Z.mod_pos_bound m p ltac:(lia)).
    set (q := (p ^ Z.of_nat k)%Z) in *. set (a := strip k (n / p)) in *. set (b := strip k (m / p)) in *.
    assert (EM : (n mod p = m mod p)%Z) by (set (u := (n mod p)%Z) in *; set (v := (m mod p)%Z) in *; clearbody u v a b q; destruct (Z.lt_trichotomy u v) as [?|[?|?]]; nia).
    assert (n / p = m / p)%Z by (apply IH; auto; fold a b; rewrite EM in E; lia).
    pose proof (Z.div_mod n p ltac:(lia)) as A1. pose proof (Z.div_mod m p ltac:(lia)) as A2. congruence.
Qed.
Lemma strip_surj k : forall b s, (0 <= s < p ^ Z.of_nat k)%Z -> exists n, (n / p ^ Z.of_nat k = b)%Z /\ strip k n = s.
Proof.
  induction k as [|k IH]; intros b s Hs; cbn [strip].
  - exists b. rewrite Z.pow_0_r in *. rewrite Z.div_1_r. lia.
  - rewrite Nat2Z.inj_succ, Z.pow_succ_r in * by lia. set (q := (p ^ Z.of_nat k)%Z) in *.
    assert (0 < q)%Z by (apply Z.pow_pos_nonneg; lia).
    destruct (IH b (s mod q)%Z (Z.mod_pos_bound s q ltac:(lia))) as (n & Hb & Hn).
    assert (0 <= s / q < p)%Z by (split; [apply Z.div_pos; lia|apply Z.div_lt_upper_bound; lia]).
    exists (s / q + n * p)%Z. rewrite <- Z.div_div by lia. rewrite Z.div_add, Z.mod_add by lia.
    rewrite (Z.div_small (s / q)), (Z.mod_small (s / q)) by lia. rewrite Z.add_0_l. split; [auto|].
    rewrite Hn. pose proof (Z.div_mod s q ltac:(lia)). lia.
Qed.
End Reverse.

(** the value of random_reverse: a number from [0,1) *)
Definition rev_value (p n : Z) (r : R) : Prop := forall fuel, (31 <= fuel)%nat -> random_reverse fuel n p = Ok (Some r).
Lemma rev_exists p n : (2 <= p)%Z -> (0 <= n < 2 ^ 31)%Z -> rev_value p n (radinv p 31 n).
Proof.
  intros Hp Hn fuel Hf. unfold random_reverse. destruct (n <? 2 ^ 31)%Z eqn:E; [|lia].
  rewrite loop_radinv; auto.
  - rewrite (radinv_fuel_le p Hp 31 fuel) by auto. cbn [pow]. do 2 f_equal. rewrite Rinv_1. ring.
  - split; [lia|]. apply Z.lt_le_trans with (2 ^ 31)%Z; [lia|]. apply Z.pow_le_mono_r; lia.
Qed.
Lemma rev_unique p n r : (2 <= p)%Z -> (0 <= n < 2 ^ 31)%Z -> rev_value p n r -> r = radinv p 31 n.
Proof. intros Hp Hn H. pose proof (rev_exists p n Hp Hn) as E. specialize (H 31%nat (le_n _)). specialize (E 31%nat (le_n _)). congruence. Qed.
Theorem C86_defined : forall p n, (2 <= p)%Z -> (0 <= n < 2 ^ 31)%Z -> exists r, rev_value p n r /\ 0 <= r < 1.
Proof. intros p n Hp Hn. exists (radinv p 31 n). split; [now apply rev_exists|]. apply radinv_range; auto. lia. Qed.
(** every block of p^k consecutive numbers (beginning at a multiple of p^k) fills each of the p^k strips of width p^-k
    exactly once *)
Definition in_strip (p : Z) (k : nat) (s : Z) (r : R) : Prop := IZR s <= r * IZR p ^ k < IZR s + 1.
Theorem C86_stratified : forall p k b s, (2 <= p)%Z -> (0 <= s < p ^ Z.of_nat k)%Z -> (0 <= b)%Z -> ((b + 1) * p ^ Z.of_nat k <= 2 ^ 31)%Z ->
  exists n, (b * p ^ Z.of_nat k <= n < (b + 1) * p ^ Z.of_nat k)%Z /\ (exists r, rev_value p n r /\ in_strip p k s r) /\
  (forall m r, (b * p ^ Z.of_nat k <= m < (b + 1) * p ^ Z.of_nat k)%Z -> rev_value p m r -> in_strip p k s r -> m = n).
Proof.
  intros p k b s Hp Hs Hb Hmax. set (q := (p ^ Z.of_nat k)%Z) in *. assert (Hq : (0 < q)%Z) by (apply Z.pow_pos_nonneg; lia).
  destruct (strip_surj p Hp k b s Hs) as (n & Nb & Ns). fold q in Nb.
  assert (Bn : (b * q <= n < (b + 1) * q)%Z) by (pose proof (Z.div_mod n q ltac:(lia)); pose proof (Z.mod_pos_bound n q ltac:(lia)); nia).
  assert (Rn : (0 <= n < 2 ^ 31)%Z) by nia.
  exists n. split; [auto|]. split.
  - exists (radinv p 31 n). split; [now apply rev_exists|]. unfold in_strip. rewrite <- Ns.
    rewrite <- (strip_radinv p Hp k 31 n) by exact Rn. apply Int_part_bounds.
  - intros m r Hm Hr Hi. assert (Rm : (0 <= m < 2 ^ 31)%Z) by nia.
    rewrite (rev_unique p m r Hp Rm Hr) in Hi. unfold in_strip in Hi. apply Int_part_unique in Hi. rewrite (strip_radinv p Hp k 31 m) in Hi by exact Rm.
    apply (strip_inj p Hp k); [congruence|]. fold q. rewrite Nb. symmetry. apply Z.div_unique with (m - b * q)%Z; lia.
Qed.
(** so that different macro-particles get different draws *)
Theorem C86_distinct : forall p n m r, (2 <= p)%Z -> (0 <= n < 2 ^ 31)%Z -> (0 <= m < 2 ^ 31)%Z -> rev_value p n r -> rev_value p m r -> n = m.
Proof.
  intros p n m r Hp Hn Hm A B. apply rev_unique in A, B; auto.
  assert (P : (2 ^ 31 <= p ^ Z.of_nat 31)%Z) by (apply Z.pow_le_mono_l; lia).
  apply (strip_inj p Hp 31).
  - rewrite <- (strip_radinv p Hp 31 31 n), <- (strip_radinv p Hp 31 31 m) by assumption. congruence.
  - rewrite !Z.div_small by lia. reflexivity.
Qed.
Lemma digit_step f k d p r : (1 <= k < p)%Z -> (d * p + k = r)%Z -> (0 <= d)%Z ->
  forall order acc, reverse_loop (S f) r p order acc = reverse_loop f d p (S order) (acc + IZR k * / IZR p ^ order).
Proof.
  intros Hk E Hd order acc. cbn [reverse_loop]. destruct (1 <=? r)%Z eqn:L; [|nia].
  assert (M : (r mod p = k)%Z) by (subst r; rewrite Z.add_comm, Z.mod_add, Z.mod_small; lia).
  rewrite M. replace ((r - k) / p)%Z with d; [reflexivity|]. subst r. replace (d * p + k - k)%Z with (d * p)%Z by lia. rewrite Z.div_mul; lia.
Qed.
Example C86_ex : rev_value 13 29 (3 / 13 + 2 / 169) /\ rev_value 11 70 (4 / 11 + 6 / 121).
Proof.
  split; intros fuel Hf; do 2 (destruct fuel as [|fuel]; [lia|]); unfold random_reverse;
    [destruct (29 <? 2 ^ 31)%Z eqn:E | destruct (70 <? 2 ^ 31)%Z eqn:E]; try lia;
    do 2 f_equal.
  - rewrite (digit_step _ 3 2), (digit_step _ 2 0) by lia. destruct fuel; cbn [reverse_loop Z.leb Z.compare]; f_equal; cbn [pow]; field.
  - rewrite (digit_step _ 4 6), (digit_step _ 6 0) by lia. destruct fuel; cbn [reverse_loop Z.leb Z.compare]; f_equal; cbn [pow]; field.
Qed.
(** the flat placement: all draws are defined, and no two macro-particles share the radius or the longitude *)
Theorem C86_flat : forall macro i j, (0 <= i < macro)%Z -> (0 <= j < macro)%Z -> (macro < 2 ^ 31)%Z ->
  forall fuel, (31 <= fuel)%nat -> exists a b a' b',
  flat_draws fuel macro i = Ok (Some a, Some b) /\ flat_draws fuel macro j = Ok (Some a', Some b') /\
  0 <= a < 1 /\ 0 <= b < 1 /\ (i <> j -> a <> a' /\ b <> b').
Proof.
  intros macro i j Hi Hj Hm fuel Hf.
  assert (U : forall k, (0 <= k < macro)%Z -> u32 (macro - 1 - k) = (macro - 1 - k)%Z) by (intros; apply u32_small; lia).
  exists (radinv 13 31 i), (radinv 11 31 (macro - 1 - i)), (radinv 13 31 j), (radinv 11 31 (macro - 1 - j)).
  assert (F : forall k, (0 <= k < macro)%Z -> flat_draws fuel macro k = Ok (Some (radinv 13 31 k), Some (radinv 11 31 (macro - 1 - k)))).
  { intros k Hk. unfold flat_draws. rewrite U by auto. rewrite (rev_exists 13 k) by lia. cbn [bind].
    rewrite (rev_exists 11) by lia. reflexivity. }
  split; [apply F; lia|]. split; [apply F; lia|]. split; [apply radinv_range; lia|]. split; [apply radinv_range; lia|].
  intros Hij. split; intros E.
  - apply Hij. apply (C86_distinct 13 i j (radinv 13 31 i)); try lia; [apply rev_exists; lia|rewrite E; apply rev_exists; lia].
  - assert (macro - 1 - i = macro - 1 - j)%Z; [|lia].
    apply (C86_distinct 11 _ _ (radinv 11 31 (macro - 1 - i))); try lia; [apply rev_exists; lia|rewrite E; apply rev_exists; lia].
Qed.
Theorem C86_limit_refuted : forall fuel n p, (2 ^ 31 <= n)%Z -> random_reverse fuel n p = UB.
Proof. intros. unfold random_reverse. destruct (n <? 2 ^ 31)%Z eqn:E; [lia|reflexivity]. Qed.

(** * C87: regular placement *)
Lemma loop_values_spec fuel : forall x lim d l, loop_values fuel x lim d = Some l ->
  l = map (fun k => x + INR k * d) (seq 0 (length l)) /\ lim < x + INR (length l) * d /\
  ((0 < length l)%nat -> x + (INR (length l) - 1) * d <= lim).
Proof.
  induction fuel as [|f IH]; intros x lim d l H; cbn [loop_values] in H; destruct (Rle_dec x lim) as [L|L]; try discriminate.
  - injection H as <-. cbn. split; [reflexivity|]. split; [lra|lia].
  - destruct (loop_values f (x + d) lim d) as [l'|] eqn:E; [|discriminate]. injection H as <-.
    destruct (IH _ _ _ _ E) as (A & B & C). cbn [length]. rewrite S_INR. split.
    + cbn [seq map]. f_equal; [cbn; ring|]. rewrite A at 1. rewrite <- seq_shift, map_map. apply map_ext. intros k. rewrite S_INR. ring.
    + split; [lra|]. intros _. destruct l' as [|y l'].
      * cbn. lra.
      * specialize (C ltac:(cbn; lia)). cbn [length] in *. lra.
  - injection H as <-. cbn. split; [reflexivity|]. split; [lra|lia].
Qed.
Lemma nat_above (x : R) : exists n, INR n > x.
Proof.
  exists (Z.to_nat (Z.max 0 (up x))). rewrite INR_IZR_INZ, Z2Nat.id by lia. destruct (archimed x) as [A _].
  pose proof (IZR_le (up x) (Z.max 0 (up x)) ltac:(lia)). lra.
Qed.
Lemma loop_values_stops d : 0 < d -> forall x lim, exists n, forall fuel, (n <= fuel)%nat -> exists l, loop_values fuel x lim d = Some l.
Proof.
  intros Hd x lim. destruct (nat_above ((lim - x) / d)) as [n Hn].
  assert (K : lim < x + INR n * d).
  { apply Rmult_gt_compat_r with (r := d) in Hn; [|lra]. unfold Rdiv in Hn. rewrite Rmult_assoc, Rinv_l in Hn; lra. }
  clear Hn. exists n. revert x K. induction n as [|n IH]; intros x K fuel Hf.
  - cbn in K. exists []. destruct fuel; cbn [loop_values]; destruct (Rle_dec x lim); reflexivity || lra.
  - destruct fuel as [|f]; [lia|]. cbn [loop_values]. destruct (Rle_dec x lim); [|eauto].
    destruct (IH (x + d)) with (fuel := f) as [l ->]; [rewrite S_INR in K; lra|lia|]. eauto.
Qed.
Lemma flat_map_length {A B C} (f : A -> B -> C) (l : list A) (m : list B) : length (flat_map (fun a => map (f a) m) l) = (length l * length m)%nat.
Proof. induction l as [|a l IH]; cbn [flat_map]; [reflexivity|]. rewrite app_length, map_length, IH. cbn. reflexivity. Qed.

Section Regular.
Variables (NR NZ : Z) (g : geo) (macro : Z).
Hypothesis D : domain_of NR NZ g.
Hypothesis Hm : (1 <= macro)%Z.
Let Rs := IZR (r_cells g) * g_dr g.
Let Zs := IZR (z_cells g) * g_dz g.
Lemma Rs_pos : 0 < Rs.
Proof. unfold Rs. rewrite (dom_r_cells _ _ _ D). destruct D as (A & _ & B & _). apply Rmult_lt_0_compat; [apply IZR_lt; lia|lra]. Qed.
Lemma Zs_pos : 0 < Zs.
Proof. unfold Zs. rewrite (dom_z_cells _ _ _ D). destruct D as (_ & A & _ & _ & B & _). apply Rmult_lt_0_compat; [apply IZR_lt; lia|lra]. Qed.
Lemma m_pos : 0 < IZR macro.
Proof. apply IZR_lt. lia. Qed.
Lemma rm_pos : 0 < sqrt (IZR macro * Rs / Zs).
Proof. pose proof Rs_pos. pose proof Zs_pos. pose proof m_pos. apply sqrt_lt_R0. apply Rmult_lt_0_compat; [apply Rmult_lt_0_compat; lra|now apply Rinv_0_lt_compat]. Qed.
Lemma zm_pos : 0 < sqrt (IZR macro * Zs / Rs).
Proof. pose proof Rs_pos. pose proof Zs_pos. pose proof m_pos. apply sqrt_lt_R0. apply Rmult_lt_0_compat; [apply Rmult_lt_0_compat; lra|now apply Rinv_0_lt_compat]. Qed.
Lemma macros_product : sqrt (IZR macro * Rs / Zs) * sqrt (IZR macro * Zs / Rs) = IZR macro.
Proof.
  pose proof Rs_pos. pose proof Zs_pos. pose proof m_pos. rewrite <- sqrt_mult.
  - replace (IZR macro * Rs / Zs * (IZR macro * Zs / Rs)) with (IZR macro * IZR macro) by (field; lra). apply sqrt_square. lra.
  - left. apply Rmult_lt_0_compat; [apply Rmult_lt_0_compat; lra|now apply Rinv_0_lt_compat].
  - left. apply Rmult_lt_0_compat; [apply Rmult_lt_0_compat; lra|now apply Rinv_0_lt_compat].
Qed.
Lemma interval_pos s m : 0 < s -> 0 < m -> 0 < s / m.
Proof. intros. apply Rmult_lt_0_compat; auto. now apply Rinv_0_lt_compat. Qed.
(** fewer steps than the size has intervals *)
Lemma loop_count fuel size s m l : 0 < s -> 0 < m -> size <= s -> loop_values fuel MNZL (size - s / m) (s / m) = Some l ->
  (0 < length l)%nat -> INR (length l) < m.
Proof.
  intros Hs Hmm Hle H Hl. destruct (loop_values_spec _ _ _ _ _ H) as (_ & _ & C). specialize (C Hl).
  pose proof MNZL_eq. pose proof (interval_pos s m Hs Hmm) as I.
  assert (INR (length l) * (s / m) < s) by lra.
  apply Rmult_lt_reg_r with (s / m); auto. replace (m * (s / m)) with s by (field; lra). lra.
Qed.
Lemma r_size_le : r_size g <= Rs.
Proof. unfold r_size, Rs. destruct D as (A & _). destruct (w_rr g); lra. Qed.
Lemma z_size_le : z_size g <= Zs.
Proof. unfold z_size, Zs. destruct D as (_ & A & _). destruct (w_zz g); lra. Qed.
Lemma regular_short fuel l : regular_placement g fuel macro = Some l -> (Z.of_nat (length l) < macro)%Z.
Proof.
  unfold regular_placement, regular_r_interval, regular_z_interval. fold Rs Zs.
  destruct (loop_values fuel MNZL (r_size g - _) _) as [rs|] eqn:E1; [|discriminate].
  destruct (loop_values fuel MNZL (z_size g - _) _) as [zs|] eqn:E2; [|discriminate].
  intros H. injection H as <-. rewrite flat_map_length.
  destruct (Nat.eq_dec (length rs) 0) as [Z1|Z1]; [rewrite Z1; cbn; lia|].
  destruct (Nat.eq_dec (length zs) 0) as [Z2|Z2]; [rewrite Z2, Nat.mul_0_r; cbn; lia|].
  pose proof (loop_count _ _ _ _ _ Rs_pos rm_pos r_size_le E1 ltac:(lia)) as A.
  pose proof (loop_count _ _ _ _ _ Zs_pos zm_pos z_size_le E2 ltac:(lia)) as B.
  apply lt_IZR. rewrite <- macros_product, <- INR_IZR_INZ, mult_INR.
  apply Rmult_le_0_lt_compat; auto; apply pos_INR.
Qed.
Lemma regular_stops : exists n, forall fuel, (n <= fuel)%nat -> exists l, regular_placement g fuel macro = Some l.
Proof.
  unfold regular_placement, regular_r_interval, regular_z_interval. fold Rs Zs.
  destruct (loop_values_stops _ (interval_pos _ _ Rs_pos rm_pos) MNZL (r_size g - Rs / sqrt (IZR macro * Rs / Zs))) as [n1 H1].
  destruct (loop_values_stops _ (interval_pos _ _ Zs_pos zm_pos) MNZL (z_size g - Zs / sqrt (IZR macro * Zs / Rs))) as [n2 H2].
  exists (max n1 n2). intros fuel Hf. destruct (H1 fuel ltac:(lia)) as [rs ->]. destruct (H2 fuel ltac:(lia)) as [zs ->]. eauto.
Qed.
Lemma regular_area fuel l : regular_placement g fuel macro = Some l -> Forall (inside_area NR NZ (g_dr g) (g_dz g)) l.
Proof.
  assert (V : forall size dx ls, loop_values fuel MNZL (size - dx) dx = Some ls -> 0 < dx -> forall x, In x ls -> 0 <= x <= size).
  { intros size dx ls H Hd x Hx. destruct (loop_values_spec _ _ _ _ _ H) as (A & _ & C). rewrite A in Hx.
    apply in_map_iff in Hx. destruct Hx as (k & <- & Hk). apply in_seq in Hk. specialize (C ltac:(lia)).
    pose proof MNZL_eq. assert (0 <= INR k) by apply pos_INR.
    assert (INR k + 1 <= INR (length ls)) by (rewrite <- S_INR; apply le_INR; lia). nra. }
  unfold regular_placement, regular_r_interval, regular_z_interval. fold Rs Zs.
  destruct (loop_values fuel MNZL (r_size g - _) _) as [rs|] eqn:E1; [|discriminate].
  destruct (loop_values fuel MNZL (z_size g - _) _) as [zs|] eqn:E2; [|discriminate].
  intros H. injection H as <-. rewrite Forall_forall. intros y Hy. apply in_flat_map in Hy. destruct Hy as (i & Hi & Hy).
  apply in_map_iff in Hy. destruct Hy as (j & <- & Hj).
  pose proof (V _ _ _ E1 (interval_pos _ _ Rs_pos rm_pos) _ Hi) as Bi. pose proof (V _ _ _ E2 (interval_pos _ _ Zs_pos zm_pos) _ Hj) as Bj.
  pose proof D as (A & A' & B & B' & C & C' & W & W').
  split; cbn [fst snd].
  - rewrite (dom_bot _ _ _ D). rewrite (dom_r_size _ _ _ D) in Bi. set (s := (_ - _ - _) * g_dr g) in Bi.
    destruct (Req_dec s 0) as [S0|S0].
    + replace i with (0 * s) by lra. unfold s. apply shifted_in_area; auto; lra || lia.
    + replace i with (i / s * s) by (field; auto). unfold s at 2. unfold s at 3. apply shifted_in_area; auto; try lra; try lia.
      split; [apply Rmult_le_pos; [lra|left; apply Rinv_0_lt_compat; lra]|].
      apply Rmult_le_reg_r with s; [lra|]. unfold Rdiv. rewrite Rmult_assoc, Rinv_l; lra.
  - rewrite (dom_left _ _ _ D). rewrite (dom_z_size _ _ _ D) in Bj. set (s := (_ - _ - _) * g_dz g) in Bj.
    destruct (Req_dec s 0) as [S0|S0].
    + replace j with (0 * s) by lra. unfold s. apply shifted_in_area; auto; lra || lia.
    + replace j with (j / s * s) by (field; auto). unfold s at 2. unfold s at 3. apply shifted_in_area; auto; try lra; try lia.
      split; [apply Rmult_le_pos; [lra|left; apply Rinv_0_lt_compat; lra]|].
      apply Rmult_le_reg_r with s; [lra|]. unfold Rdiv. rewrite Rmult_assoc, Rinv_l; lra.
Qed.
End Regular.
(** the placement always ends, inside the walls of the area *)
Theorem C87_placed_partial : forall NR NZ g macro, domain_of NR NZ g -> (1 <= macro)%Z -> exists n, forall fuel, (n <= fuel)%nat ->
  exists l, regular_placement g fuel macro = Some l /\ Forall (inside_area NR NZ (g_dr g) (g_dz g)) l.
Proof.
  intros NR NZ g macro D Hm. destruct (regular_stops NR NZ g macro D Hm) as [n H]. exists n. intros fuel Hf.
  destruct (H fuel Hf) as [l E]. exists l. split; auto. now apply (regular_area NR NZ g macro D Hm fuel).
Qed.
(** but never with the requested number of macro-particles *)
Theorem C87_amount_refuted : forall NR NZ g macro fuel l, domain_of NR NZ g -> (1 <= macro)%Z ->
  regular_placement g fuel macro = Some l -> (Z.of_nat (length l) < macro)%Z.
Proof. intros NR NZ g macro fuel l D Hm H. now apply (regular_short NR NZ g macro D Hm fuel). Qed.
(** a square domain without walls and m^2 macro-particles: a whole row and a whole column are missing *)
Theorem C87_square_refuted : forall NR NZ g m fuel l, domain_of NR NZ g -> w_rr g = false -> w_zz g = false -> (1 <= m)%Z ->
  let s := IZR (g_top g - g_bot g) * g_dr g in
  IZR (g_right g - g_left g) * g_dz g = s -> IZR m * MNZL <= s ->
  regular_placement g fuel (m * m) = Some l -> Z.of_nat (length l) = ((m - 1) * (m - 1))%Z.
Proof.
  intros NR NZ g m fuel l D Wr Wz Hm s Hs Hlim. unfold regular_placement, regular_r_interval, regular_z_interval, r_size, z_size.
  rewrite (dom_r_cells _ _ _ D), (dom_z_cells _ _ _ D), Wr, Wz, Hs. fold s. rewrite !Rminus_0_r.
  assert (P : 0 < s) by (destruct D as (A & _ & B & _); unfold s; apply Rmult_lt_0_compat; [apply IZR_lt; lia|lra]).
  assert (M : 1 <= IZR m) by (apply IZR_le; lia).
  replace (IZR (m * m) * s / s) with (IZR m * IZR m) by (rewrite mult_IZR; field; lra). rewrite sqrt_square by lra.
  destruct (loop_values fuel MNZL (s - s / IZR m) (s / IZR m)) as [rs|] eqn:E; [|discriminate].
  intros H. injection H as <-. rewrite flat_map_length, Nat2Z.inj_mul.
  replace (Z.of_nat (length rs)) with (m - 1)%Z; [reflexivity|].
  destruct (loop_values_spec _ _ _ _ _ E) as (_ & B & C). pose proof MNZL_eq as ME.
  assert (I : 0 < s / IZR m) by (apply interval_pos; lra).
  assert (Lim : MNZL <= s / IZR m).
  { apply Rmult_le_reg_r with (IZR m); [lra|]. unfold Rdiv. rewrite Rmult_assoc, Rinv_l; lra. }
  assert (S1 : s = IZR m * (s / IZR m)) by (field; lra). set (d := s / IZR m) in *.
  assert (X : IZR m - 1 <= INR (length rs) + 1 - 0 /\ INR (length rs) < IZR m /\ IZR m - 1 - 1 < INR (length rs)).
  { split; [|split].
    - apply Rmult_le_reg_r with d; auto. lra.
    - destruct (Nat.eq_dec (length rs) 0) as [Z0|Z0]; [rewrite Z0; cbn; lra|]. specialize (C ltac:(lia)).
      apply Rmult_lt_reg_r with d; auto. lra.
    - apply Rmult_lt_reg_r with d; auto. lra. }
  destruct X as (_ & X & Y). rewrite INR_IZR_INZ in X, Y. apply lt_IZR in X.
  rewrite <- !minus_IZR in Y. apply lt_IZR in Y. lia.
Qed.
Example C87_ex : domain_of 30 60 g_mid /\ regular_r_interval g_mid 64 = 5 / 2 /\ regular_z_interval g_mid 64 = 5 / 2.
Proof.
  split; [apply g_mid_domain|]. unfold regular_r_interval, regular_z_interval.
  rewrite (dom_r_cells _ _ _ g_mid_domain), (dom_z_cells _ _ _ g_mid_domain). cbn [g_mid g_top g_bot g_left g_right g_dr g_dz].
  change (20 - 10)%Z with 10%Z. change (40 - 20)%Z with 20%Z. split.
  - replace (64 * (10 * 1) / (20 * 2)) with (4 * 4) by field. rewrite sqrt_square by lra. field.
  - replace (64 * (20 * 2) / (10 * 1)) with (16 * 16) by field. rewrite sqrt_square by lra. field.
Qed.

Print Assumptions C86_defined.
Print Assumptions C86_stratified.
Print Assumptions C86_distinct.
Print Assumptions C86_flat.
Print Assumptions C86_limit_refuted.
Print Assumptions C87_placed_partial.
Print Assumptions C87_amount_refuted.
Print Assumptions C87_square_refuted.
