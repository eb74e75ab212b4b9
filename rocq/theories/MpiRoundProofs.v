(** Facts about a round of the main loop on several MPI processes: the geometry, the fields and the particles of a rank. *)
From Coq Require Import ZifyBool Reals Lra Psatz Permutation.
From Verif Require Import Base RndUtil DecompModel DecompProofs CollectorModel CollectorProofs ListUtil PushModel ParticleModel ParticleProofs StepModel
  ThmParticle ThmInit ThmDecomp ThmStep ThmFlight GridModel GridProofs OverlayModel YeeModel YeeProofs ThmYee ExtModel ThmExt CurrentModel CurrentProofs ThmCurrent ThmCurrent2
  YeeSmb ThmYeeSmb SmbCorner SmbCurrent ThmDivide RoundModel RoundProofs ThmRound DensModel MpiModel MigrModel MigrProofs ThmMigr FieldMpiModel FieldMpi MpiExchange MpiCurrent MpiRoundModel.
Open Scope Z_scope.

(** ** lists *)
Lemma zseq_shift n a b : zseq n (a + b) = map (fun k => a + k) (zseq n b).
Proof. revert b. induction n as [|n IH]; intros b; [reflexivity|]. cbn [zseq map]. f_equal. rewrite <- IH. f_equal; ring. Qed.
Lemma zrange_blocks W C : 0 <= W -> 0 <= C -> zrange 0 (W * C) = flat_map (fun p => map (fun k => p * C + k) (zrange 0 C)) (zrange 0 W).
Proof.
  intros HW HC. pattern W. apply natlike_ind; [reflexivity| |exact HW]. clear W HW. intros W HW IH.
  unfold zrange in *. rewrite !Z.sub_0_r in *. replace (Z.to_nat (Z.succ W)) with (Z.to_nat W + 1)%nat by lia.
  rewrite zseq_app, flat_map_app, <- IH. cbn [zseq flat_map]. rewrite app_nil_r.
  replace (Z.to_nat (Z.succ W * C)) with (Z.to_nat (W * C) + Z.to_nat C)%nat by (rewrite <- Z2Nat.inj_add by nia; f_equal; ring).
  rewrite zseq_app. f_equal. rewrite <- zseq_shift. f_equal. rewrite !Z2Nat.id by nia. ring.
Qed.
Lemma flat_map_flat {A B D} (f : B -> list D) (h : A -> list B) l : flat_map f (flat_map h l) = flat_map (fun x => flat_map f (h x)) l.
Proof. induction l as [|x l IH]; [reflexivity|]. cbn. now rewrite flat_map_app, IH. Qed.
Lemma flat_map_over {A B D} (f : B -> list D) (h : A -> B) l : flat_map f (map h l) = flat_map (fun x => f (h x)) l.
Proof. induction l as [|x l IH]; [reflexivity|]. cbn. now rewrite IH. Qed.
Lemma everyone_blocks {A} W R C (f : doms (list A)) : 0 <= W -> 0 <= C ->
  Permutation (everyone R (W * C) f) (flat_map (fun p => everyone R C (fun q => f (fst q, p * C + snd q))) (zrange 0 W)).
Proof.
  intros HW HC. unfold everyone. cbn [fst snd]. rewrite (perm_exchange (fun p i => flat_map (fun k => f (i, p * C + k)) (zrange 0 C)) (zrange 0 W) (zrange 0 R)).
  apply perm_flat_ext. intros i _. rewrite (zrange_blocks W C HW HC), flat_map_flat. apply perm_flat_ext. intros p _. now rewrite flat_map_over.
Qed.
Lemma ranks_zrange W : ranks W = zrange 0 W.
Proof. apply range_zrange. Qed.

(** ** particles and their tags *)
Definition untagged (st : Z -> smb tpt) (C : Z) : smb pt := fun i k => untag (st (k / C) i (k mod C)).
Lemma untag_species sid (d : domain tpt) : flat_map (fun s => if fst s =? sid then snd s else []) (untag d) = map snd (flat_map (fun s => if fst s =? sid then snd s else []) d).
Proof.
  unfold untag. induction d as [|t d IH]; [reflexivity|]. cbn [map flat_map fst snd]. rewrite IH, map_app. f_equal. destruct t as [x l]. cbn [fst snd]. destruct (x =? sid); reflexivity.
Qed.
(** the particles of a species on all ranks and in the area as one array of domains *)
Lemma untagged_species W R C s sid (st : Z -> smb tpt) : 0 <= W -> 1 <= C ->
  Permutation (particles_of {| nr := R * s; nz := W * C * s; rd_ := R; zd_ := W * C |} sid (untagged st C))
              (map snd (everybody W {| nr := R * s; nz := C * s; rd_ := R; zd_ := C |} sid st)).
Proof.
  intros HW HC. unfold everybody, particles_of. cbn [rd_ zd_]. rewrite <- everyone_pairs, map_flat_map, ranks_zrange.
  rewrite (everyone_blocks W R C _ HW ltac:(lia)). apply perm_flat_ext. intros p _. rewrite <- everyone_pairs. unfold everyone. cbn [fst snd]. rewrite map_flat_map.
  apply perm_flat_ext. intros i _. rewrite map_flat_map.
  assert (E : forall l, (forall k, In k l -> 0 <= k < C) -> Permutation (flat_map (fun k => flat_map (fun s0 => if fst s0 =? sid then snd s0 else []) (untagged st C i (p * C + k))) l)
     (flat_map (fun k => map snd (flat_map (fun s0 => if fst s0 =? sid then snd s0 else []) (st p i k))) l)); [|apply E; intros k Hk; apply In_zrange' in Hk; lia].
  intros l Hl. apply perm_flat_ext. intros k Hk. specialize (Hl k Hk). unfold untagged.
  rewrite (Z.add_comm (p * C) k), Z.div_add, Z.mod_add, Z.div_small, Z.mod_small by lia. now rewrite Z.add_0_l, untag_species.
Qed.
Lemma untagged_ids W R C s ids (st : Z -> smb tpt) : 1 <= C -> (forall p, 0 <= p < W -> ids_ok {| nr := R * s; nz := C * s; rd_ := R; zd_ := C |} ids (st p)) -> 1 <= W ->
  ids_ok {| nr := R * s; nz := W * C * s; rd_ := R; zd_ := W * C |} ids (untagged st C).
Proof.
  intros HC H HW. split; [apply (H 0); lia|]. cbn [rd_ zd_]. intros i k Hi Hk. destruct (split_col W C HC k Hk) as (p & t & -> & Hp & Ht).
  unfold untagged. rewrite (Z.add_comm (p * C) t), Z.div_add, Z.mod_add, Z.div_small, Z.mod_small by lia. rewrite Z.add_0_l.
  unfold untag. rewrite map_map. cbn [fst]. now apply (H p Hp).
Qed.
(** how many *)
Definition headcount {P} (d : domain P) : Z := sumZ (fun t => Z.of_nat (length (snd t))) d.
Lemma sumZ_map {A B} (f : B -> Z) (h : A -> B) l : sumZ f (map h l) = sumZ (fun x => f (h x)) l.
Proof. unfold sumZ. induction l as [|x l IH]; [reflexivity|]. cbn [map fold_right]. now rewrite IH. Qed.
Lemma length_sumZ {A B} (f : A -> list B) l : Z.of_nat (length (flat_map f l)) = sumZ (fun x => Z.of_nat (length (f x))) l.
Proof. unfold sumZ. induction l as [|x l IH]; [reflexivity|]. cbn [flat_map fold_right]. rewrite app_length, Nat2Z.inj_add. now rewrite IH. Qed.
Lemma headcount_population {P} (n m : Z) ids (st : smb P) : ids_ok {| nr := n; nz := m; rd_ := 1; zd_ := 1 |} ids st ->
  population {| nr := n; nz := m; rd_ := 1; zd_ := 1 |} ids st = headcount (st 0 0).
Proof.
  intros [N I]. specialize (I 0 0 ltac:(cbn; lia) ltac:(cbn; lia)). unfold population, headcount.
  assert (E := by_species (fun _ (q : P) => q) (st 0 0) ids N I).
  assert (L := f_equal (fun l => Z.of_nat (length l)) E). cbv beta in L. rewrite !length_sumZ in L.
  transitivity (sumZ (fun x : Z * list P => Z.of_nat (length (map (fun q : P => q) (snd x)))) (st 0 0)).
  - rewrite L. apply sumZ_ext. intros sid _. rewrite map_length. unfold particles_of. cbn [rd_ zd_]. rewrite <- everyone_pairs.
    unfold everyone, zrange. change (Z.to_nat (1 - 0)) with 1%nat. cbn [zseq flat_map fst snd]. now rewrite !app_nil_r.
  - apply sumZ_ext. intros t _. now rewrite map_length.
Qed.
Lemma rank_population {P} W a ids (st : Z -> smb P) p n : 0 <= p < W -> sumZ (fun sid => Z.of_nat (length (everybody W a sid st))) ids <= n -> population a ids (st p) <= n.
Proof.
  intros Hp H. eapply Z.le_trans; [|exact H]. unfold population. apply sumZ_le. intros sid _. unfold everybody. rewrite length_sumZ, ranks_zrange.
  assert (I : In p (zrange 0 W)) by (apply In_zrange'; lia). clear - I.
  induction (zrange 0 W) as [|x l IH]; [destruct I|]. unfold sumZ. cbn [fold_right].
  assert (N : 0 <= sumZ (fun r => Z.of_nat (length (particles_of a sid (st r)))) l) by (clear; induction l as [|x l IH]; unfold sumZ in *; cbn [fold_right]; lia).
  destruct I as [->|I]; [unfold sumZ in N; lia|]. specialize (IH I). unfold sumZ in *. lia.
Qed.

(** ** specification: near the border between two ranks *)
(** a place whose magnetic field is read from both sides of the border between two ranks; [n]: the cells of a rank *)
Definition near_rank_border (g : YeeModel.geo) (W n : Z) (z : R) : Prop :=
  exists p, 0 < p < W /\ (IZR (p * n) * g_dz g - g_dz g <= z < IZR (p * n) * g_dz g + g_dz g / 2)%R.

Section Rank.
Variable g : YeeModel.geo.
Variables W R C s : Z.
Hypothesis HW : 1 <= W.
Hypothesis HR : 1 <= R.
Hypothesis HC : 1 <= C.
Hypothesis Hs : 4 <= s.
Hypothesis Gr : g_nr g = R * s.
Hypothesis Gz : g_nz g = W * C * s.
Hypothesis GrL : g_nr g < 2 ^ 31.
Hypothesis GzL : g_nz g < 2 ^ 31.
Hypothesis D0 : g_d0 g = 0.
Hypothesis D1 : g_d1 g = 0.
Hypothesis Hdr : (0 < g_dr g)%R.
Hypothesis Hdz : (0 < g_dz g)%R.
Let a := {| nr := R * s; nz := C * s; rd_ := R; zd_ := C |}.
Let whole := {| nr := R * s; nz := W * C * s; rd_ := R; zd_ := W * C |}.
Let dr := g_dr g.
Let dz := g_dz g.

Lemma WC : 1 <= W * C.
Proof using HW HC. clear - HW HC. nia. Qed.
Lemma WCs : W * C * s < 2 ^ 31.
Proof using Gz GzL. lia. Qed.
Lemma slab_bound p k : 0 <= p < W -> 0 <= k <= C -> DecompModel.bound (C * s) C (C * s * p) k = (p * C + k) * s.
Proof using HW HC Hs Gz GzL.
  intros Hp Hk. assert (L := WCs). assert (B1 : C * s * p + C * s <= W * C * s) by nia. assert (B2 : 0 <= C * s * p) by nia.
  assert (S : sane (C * s) C (C * s * p)) by (unfold sane; nia).
  rewrite bound_eq by auto. replace (C * s * k) with (s * k * C) by ring. rewrite Z.div_mul by lia. ring.
Qed.
Lemma good_ranks : good_split W a.
Proof using HW HR HC Hs Gr Gz GrL GzL.
  assert (L := WCs). assert (C <= W * C) by nia. unfold good_split, sane, a. cbn [nr nz rd_ zd_]. repeat split; try nia; [exists s|exists s]; ring.
Qed.
Lemma home_rank (q : tpt) p i k : 0 <= p < W -> 0 <= i < R -> 0 <= k < C ->
  home_m (fun q => pt_cr dr (snd q)) (fun q => pt_cz dz (snd q)) a (nz a * p) i k q <-> home (pt_cr dr) (pt_cz dz) whole i (p * C + k) (snd q).
Proof using HW HC Hs Gz GzL.
  intros Hp Hi Hk. assert (L := WCs). assert (0 <= p * C + k < W * C) by nia. unfold home_m, home. cbn [nr nz rd_ zd_ a whole].
  rewrite !slab_bound by lia. rewrite !(bound_dom s Hs (W * C)) by lia. now replace (p * C + (k + 1)) with (p * C + k + 1) by ring.
Qed.
Lemma rank_geo_whole p i k : 0 <= p < W -> 0 <= k < C -> rank_domain_geo whole dr dz W p i k = domain_geo whole dr dz i (p * C + k).
Proof using HW HC Hs Gz GzL.
  intros Hp Hk. assert (L := WCs). assert (0 <= p * C + k < W * C) by nia. unfold rank_domain_geo, domain_geo. cbn [nr nz rd_ zd_ whole].
  replace (W * C * s / W) with (C * s) by (replace (W * C * s) with (C * s * W) by ring; now rewrite Z.div_mul by lia).
  replace (W * C / W) with C by (rewrite (Z.mul_comm W C); now rewrite Z.div_mul by lia).
  rewrite !slab_bound by lia. rewrite !(bound_dom s Hs (W * C)) by lia. replace (p * C + (k + 1)) with (p * C + k + 1) by ring.
  f_equal.
  - assert (IZR W <> 0)%R by (apply not_0_IZR; lia). assert (IZR C <> 0)%R by (apply not_0_IZR; lia). rewrite !mult_IZR. field. auto.
  - apply eq_true_iff_eq. rewrite andb_true_iff, negb_true_iff. split; nia.
  - apply eq_true_iff_eq. rewrite andb_true_iff, negb_true_iff. split; nia.
Qed.

(** ** the fields *)
Lemma contributions_at f F i n r pl (bad : Z -> Z -> Prop) : 0 <= i < R -> 0 <= n < W * C -> fits2 s s f -> fits2 (R * s) (W * C * s) F ->
  (forall x y, inw s s x y -> ~ bad x y -> lv f x y = lv F (i * s + x) (n * s + y)) ->
  (let x := p_i pl - i * s in let y := p_k pl - n * s in
   -1 <= x /\ x + 1 <= s /\ -1 <= y /\ y + 1 <= s /\ (forall u w, 0 <= u <= 1 -> 0 <= w <= 1 -> ~ bad (x + u) (y + w))) ->
  contributions (dom_geo g R (W * C) s (i, n)) f r pl = contributions g F r pl.
Proof using HR HC Hs D0 D1.
  intros Hi Hk Ff FF A B. cbv zeta in B. unfold contributions, dom_geo. cbn [fst snd g_d0 g_d1 g_dr]. rewrite D0, D1, !Z.add_0_r, !Z.sub_0_r.
  set (x := p_i pl - i * s) in *. set (y := p_k pl - n * s) in *.
  assert (Ex : p_i pl = i * s + x) by lia. assert (Ey : p_k pl = n * s + y) by lia. rewrite Ex, Ey. clearbody x y. clear Ex Ey.
  assert (I1 : 0 <= i * s /\ i * s + s <= R * s) by nia. assert (I2 : 0 <= n * s /\ n * s + s <= W * C * s) by nia.
  destruct B as (B1 & B2 & B3 & B4 & NS).
  assert (Rd : forall u w, 0 <= u <= 1 -> 0 <= w <= 1 -> rget f (x + u) (y + w) = rget F (i * s + x + u) (n * s + y + w)).
  { intros u w Hu Hw. rewrite (rget_eq s s f) by (auto; unfold inw; lia). rewrite (rget_eq (R * s) (W * C * s) F) by (auto; unfold inw; lia).
    rewrite A by (try apply NS; unfold inw; lia). do 2 f_equal; lia. }
  assert (R0 := Rd 0 0 ltac:(lia) ltac:(lia)). assert (R1 := Rd 1 0 ltac:(lia) ltac:(lia)). assert (R2 := Rd 0 1 ltac:(lia) ltac:(lia)). assert (R3 := Rd 1 1 ltac:(lia) ltac:(lia)).
  rewrite !Z.add_0_r in R0. rewrite !Z.add_0_r in R1. rewrite !Z.add_0_r in R2. rewrite R0, R1, R2, R3, ?Z.add_0_r. reflexivity.
Qed.
Section Reads.
Variables p i k : Z.
Variables r z : Rdefinitions.R.
Hypothesis Hp : 0 <= p < W.
Hypothesis Hi : 0 <= i < R.
Hypothesis Hk : 0 <= k < C.
Hypothesis Hr : i * s <= cell_number r (g_dr g) < i * s + s.
Hypothesis Hz : (p * C + k) * s <= cell_number z (g_dz g) < (p * C + k) * s + s.
Hypothesis N : R = 1 \/ C = 1 \/ ~ crossing g s r z.
Lemma reads_skew cr cz u w : cr = cell_number r (g_dr g) \/ cr = cell_number (r - / 2 * g_dr g) (g_dr g) -> cz = cell_number z (g_dz g) \/ cz = cell_number (z - / 2 * g_dz g) (g_dz g) ->
  0 <= u <= 1 -> 0 <= w <= 1 -> ~ skew R C s i k (cr - i * s + u) (cz - (p * C + k) * s + w).
Proof using HR Gr Hs Hdr Hdz Hr Hz Hi Hk N.
  intros Hcr Hcz Hu Hw Sk. destruct (reads (g_dr g) r i s cr Hdr ltac:(lia) Hr Hcr) as (A1 & A2 & A3 & A4).
  destruct (reads (g_dz g) z (p * C + k) s cz Hdz ltac:(lia) Hz Hcz) as (B1 & B2 & B3 & B4). unfold skew in Sk.
  destruct N as [N'|[N'|N']]; [lia|lia|]. apply N'. destruct Sk as [Sk|Sk]; [left; split; [apply A3|apply B4]|right; split; [apply A4|apply B3]]; lia.
Qed.
Lemma reads_border cz w : cz = cell_number z (g_dz g) \/ cz = cell_number (z - / 2 * g_dz g) (g_dz g) -> W = 1 \/ ~ near_rank_border g W (C * s) z ->
  0 <= w <= 1 -> ~ rank_border W C s p k (cz - (p * C + k) * s + w).
Proof using HW HC Hs Hdz Hz Hp Hk.
  intros Hcz NB Hw B. destruct (reads (g_dz g) z (p * C + k) s cz Hdz ltac:(lia) Hz Hcz) as (B1 & B2 & B3 & B4).
  destruct NB as [NB|NB]; [unfold rank_border in B; lia|]. apply NB. clear NB.
  pose proof (cell_number_bounds z (g_dz g) Hdz) as [Z1 Z2]. set (c := cell_number z (g_dz g)) in *.
  destruct B as [(K & P & Y)|(K & P & Y)].
  - exists p. split; [lia|]. destruct (B3 ltac:(lia)) as [M L]. fold c in M, L. assert (E : c = p * (C * s)).
    { subst k. rewrite Z.add_0_r in Hz. assert (X := mod_dom c (p * C) s ltac:(lia) Hz). lia. }
    rewrite <- E. split; lra.
  - exists (p + 1). split; [lia|]. assert (M := B4 ltac:(lia)). unfold near_high in M. fold c in M. assert (E : c = (p + 1) * (C * s) - 1).
    { assert (X := mod_dom c (p * C + k) s ltac:(lia) Hz). subst k. nia. }
    assert (E' : IZR ((p + 1) * (C * s)) = (IZR c + 1)%R) by (rewrite E, minus_IZR; lra). rewrite E'. split; lra.
Qed.
Lemma rank_field_e m G : YeeSmb.all_fit R C s (m p) -> fits3 (R * s) (W * C * s) G -> rank_all W R C s m G ->
  get_field_e (dom_geo g R (W * C) s (i, p * C + k)) (m p (i, k)) r z = get_field_e g G r z.
Proof using HW HR HC Hs Gr D0 D1 Hdr Hdz Hp Hi Hk Hr Hz N.
  intros Fm FG A. assert (Hn : 0 <= p * C + k < W * C) by nia.
  assert (Ct : forall c cr cz, cr = cell_number r (g_dr g) \/ cr = cell_number (r - / 2 * g_dr g) (g_dr g) -> cz = cell_number z (g_dz g) \/ cz = cell_number (z - / 2 * g_dz g) (g_dz g) ->
     forall pl, p_i pl = cr -> p_k pl = cz -> contributions (dom_geo g R (W * C) s (i, p * C + k)) (getc c (m p (i, k))) r pl = contributions g (getc c G) r pl).
  { intros c cr cz Hcr Hcz pl E1 E2. apply (contributions_at _ _ _ _ _ _ (skew R C s i k)); [exact Hi|exact Hn|now apply Fm|apply FG|intros; now apply A|]. cbv zeta. rewrite E1, E2.
    destruct (reads (g_dr g) r i s cr Hdr ltac:(lia) Hr Hcr) as (A1 & A2 & A3 & A4). destruct (reads (g_dz g) z (p * C + k) s cz Hdz ltac:(lia) Hz Hcz) as (B1 & B2 & B3 & B4).
    repeat (split; [assumption|]). intros u w Hu Hw. now apply reads_skew. }
  unfold get_field_e. set (h := dom_geo g R (W * C) s (i, p * C + k)) in *.
  change (place_half_r h r z) with (place_half_r g r z). change (place_half_z h r z) with (place_half_z g r z). change (place_node h r z) with (place_node g r z).
  assert (Er := Ct Cr _ _ (or_intror eq_refl) (or_introl eq_refl) (place_half_r g r z) eq_refl eq_refl). assert (Ez := Ct Cz _ _ (or_introl eq_refl) (or_intror eq_refl) (place_half_z g r z) eq_refl eq_refl).
  assert (Ep := Ct Cphi _ _ (or_introl eq_refl) (or_introl eq_refl) (place_node g r z) eq_refl eq_refl).
  cbn [getc] in *. now rewrite Er, Ez, Ep.
Qed.
Lemma rank_field_h m G : YeeSmb.all_fit R C s (m p) -> fits3 (R * s) (W * C * s) G -> rank_all_inside W R C s m G -> W = 1 \/ ~ near_rank_border g W (C * s) z ->
  get_field_h (dom_geo g R (W * C) s (i, p * C + k)) (m p (i, k)) r z = get_field_h g G r z.
Proof using HW HR HC Hs Gr D0 D1 Hdr Hdz Hp Hi Hk Hr Hz N.
  intros Fm FG A NB. assert (Hn : 0 <= p * C + k < W * C) by nia.
  assert (Ct : forall c cr cz, cr = cell_number r (g_dr g) \/ cr = cell_number (r - / 2 * g_dr g) (g_dr g) -> cz = cell_number z (g_dz g) \/ cz = cell_number (z - / 2 * g_dz g) (g_dz g) ->
     forall pl, p_i pl = cr -> p_k pl = cz -> contributions (dom_geo g R (W * C) s (i, p * C + k)) (getc c (m p (i, k))) r pl = contributions g (getc c G) r pl).
  { intros c cr cz Hcr Hcz pl E1 E2. apply (contributions_at _ _ _ _ _ _ (fun x y => skew R C s i k x y \/ rank_border W C s p k y)); [exact Hi|exact Hn|now apply Fm|apply FG|intros; apply A; tauto|].
    cbv zeta. rewrite E1, E2.
    destruct (reads (g_dr g) r i s cr Hdr ltac:(lia) Hr Hcr) as (A1 & A2 & A3 & A4). destruct (reads (g_dz g) z (p * C + k) s cz Hdz ltac:(lia) Hz Hcz) as (B1 & B2 & B3 & B4).
    repeat (split; [assumption|]). intros u w Hu Hw [Sk|Sk]; [now apply (reads_skew cr cz u w)|now apply (reads_border cz w)]. }
  unfold get_field_h. set (h := dom_geo g R (W * C) s (i, p * C + k)) in *.
  change (place_half_r h r z) with (place_half_r g r z). change (place_half_z h r z) with (place_half_z g r z). change (place_half_rz h r z) with (place_half_rz g r z).
  assert (Hz' := Ct Cz _ _ (or_intror eq_refl) (or_introl eq_refl) (place_half_r g r z) eq_refl eq_refl). assert (Hr' := Ct Cr _ _ (or_introl eq_refl) (or_intror eq_refl) (place_half_z g r z) eq_refl eq_refl).
  assert (Hp' := Ct Cphi _ _ (or_intror eq_refl) (or_intror eq_refl) (place_half_rz g r z) eq_refl eq_refl).
  cbn [getc] in *. now rewrite Hz', Hr', Hp'.
Qed.
End Reads.
(** a particle that moves calmly stays between the mirrors *)
Lemma bounce_stays lo hi x0 x1 v d : (lo + d <= hi -> lo <= x0 <= hi -> Rabs (x1 - x0) < d -> lo <= fst (bounce lo hi x1 v) <= hi)%R.
Proof.
  clear. intros H H0 H1. unfold bounce. destruct (Rlt_dec hi x1); [|destruct (Rlt_dec x1 lo)]; cbn [fst]; unfold Rabs in *;
  repeat match goal with H : context [Rcase_abs ?a] |- _ => destruct (Rcase_abs a) end; lra.
Qed.
Lemma calm_stays q : calm g s q -> let q' := flight (g_nr g) (g_nz g) dr dz (g_dt g) q in 0 <= cell_number (pos_r q') dr < g_nr g /\ 0 <= cell_number (pos_z q') dz < g_nz g.
Proof using HR HC HW Hs Gr Gz Hdr Hdz.
  intros (Pphi & Ir & Iz & Mr & Mz & _). cbv zeta. assert (Q := WC). assert (4 <= g_nr g) by nia. assert (4 <= g_nz g) by nia.
  assert (N1 : (4 * dr <= IZR (g_nr g) * dr)%R) by (apply Rmult_le_compat_r; [unfold dr; lra|now apply IZR_le]).
  assert (N2 : (4 * dz <= IZR (g_nz g) * dz)%R) by (apply Rmult_le_compat_r; [unfold dz; lra|now apply IZR_le]).
  fold dr in Ir, Mr, Hdr. fold dz in Iz, Mz, Hdz.
  cbn [flight pos_r pos_z]. split; apply cell_number_range; auto.
  - assert (DR := radius_change2 (pos_r q) (vel_r q * g_dt g) (vel_phi q * g_dt g) dr ltac:(lra) Mr). rewrite !Rplus_0_l in DR.
    match goal with |- context [bounce ?lo ?hi ?x ?v] => assert (B := bounce_stays lo hi (pos_r q) x v dr ltac:(lra) ltac:(lra) DR) end. lra.
  - assert (DZ : (Rabs (pos_z q + vel_z q * g_dt g - pos_z q) < dz)%R) by (replace (pos_z q + vel_z q * g_dt g - pos_z q)%R with (vel_z q * g_dt g)%R by ring; exact Mz).
    match goal with |- context [bounce ?lo ?hi ?x ?v] => assert (B := bounce_stays lo hi (pos_z q) x v dz ltac:(lra) ltac:(lra) DZ) end. lra.
Qed.
End Rank.
