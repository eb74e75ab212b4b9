(** Facts about a round of the main loop: lists of particles, interpolation in a domain, the movement of one particle. *)
From Coq Require Import ZifyBool Reals Lra Psatz Permutation.
From Verif Require Import Base RndUtil DecompModel DecompProofs CollectorModel CollectorProofs ListUtil PushModel ParticleModel ParticleProofs StepModel
  ThmParticle ThmInit ThmDecomp ThmStep ThmFlight GridModel GridProofs OverlayModel YeeModel YeeProofs ThmYee ExtModel ThmExt CurrentModel CurrentProofs ThmCurrent ThmCurrent2
  YeeSmb ThmYeeSmb SmbCorner SmbCurrent ThmDivide RoundModel.
Open Scope Z_scope.

(** ** lists *)
Lemma flat_map_list_prod {A B D} (f : A * B -> list D) l m : flat_map f (list_prod l m) = flat_map (fun a => flat_map (fun b => f (a, b)) m) l.
Proof.
  induction l as [|a l IH]; [reflexivity|]. cbn [list_prod flat_map]. rewrite flat_map_app, IH. f_equal.
  clear. induction m as [|b m IH]; [reflexivity|]. cbn. now rewrite IH.
Qed.
Lemma range_zrange n : range (Z.to_nat n) = zrange 0 n.
Proof.
  unfold zrange. rewrite Z.sub_0_r. generalize (Z.to_nat n) as k. induction k as [|k IH]; [reflexivity|].
  cbn [range]. rewrite IH. replace (S k) with (k + 1)%nat by lia. rewrite zseq_app. reflexivity.
Qed.
Lemma everyone_pairs {A} R C (ps : doms (list A)) : everyone R C ps = flat_map ps (pairs R C).
Proof. unfold everyone, pairs. now rewrite flat_map_list_prod, !range_zrange. Qed.
Lemma perm_flat_app {A B} (f h : A -> list B) l : Permutation (flat_map f l ++ flat_map h l) (flat_map (fun x => f x ++ h x) l).
Proof.
  induction l as [|x l IH]; [constructor|]. cbn [flat_map]. rewrite <- IH, !app_assoc. apply Permutation_app_tail.
  rewrite <- !app_assoc. apply Permutation_app_head. apply Permutation_app_comm.
Qed.
Lemma perm_exchange {A B D} (f : A -> B -> list D) xs ys :
  Permutation (flat_map (fun x => flat_map (f x) ys) xs) (flat_map (fun y => flat_map (fun x => f x y) xs) ys).
Proof.
  induction xs as [|x xs IH]; cbn [flat_map]; [induction ys; [constructor|assumption]|].
  rewrite IH. apply perm_flat_app.
Qed.
Lemma perm_flat_ext {A B} (f h : A -> list B) l : (forall x, In x l -> Permutation (f x) (h x)) -> Permutation (flat_map f l) (flat_map h l).
Proof.
  induction l as [|x l IH]; intros H; [constructor|]. cbn. apply Permutation_app; [apply H; now left|apply IH; intros; apply H; now right].
Qed.
Lemma by_species {P D} (f : Z -> P -> D) (d : domain P) ids : NoDup ids -> map fst d = ids ->
  flat_map (fun s => map (f (fst s)) (snd s)) d = flat_map (fun sid => map (f sid) (flat_map (fun s => if fst s =? sid then snd s else []) d)) ids.
Proof.
  revert ids. induction d as [|s d IH]; intros ids N E; cbn [map flat_map] in *; [now subst|]. subst ids.
  inversion N as [|x l N1 N2]; subst. cbn [flat_map]. rewrite (IH (map fst d)) by auto. rewrite Z.eqb_refl, map_app.
  assert (Z : flat_map (fun s0 => if fst s0 =? fst s then snd s0 else []) d = []).
  { clear - N1. induction d as [|t d IH]; [reflexivity|]. cbn in *. replace (fst t =? fst s) with false by lia. apply IH. tauto. }
  rewrite Z. cbn [map]. rewrite app_nil_r. f_equal.
  assert (K : forall sid, In sid (map fst d) -> (fst s =? sid) = false).
  { intros sid H. destruct (fst s =? sid) eqn:E; [|reflexivity]. exfalso. apply N1. replace (fst s) with sid by lia. exact H. }
  revert K. generalize (map fst d) as l. clear. induction l as [|sid l IH]; intros K; [reflexivity|]. cbn [flat_map].
  rewrite K by now left. cbn [app]. f_equal. apply IH. intros; apply K; now right.
Qed.
Lemma map_flat_map {A B D} (f : B -> D) (h : A -> list B) l : map f (flat_map h l) = flat_map (fun x => map f (h x)) l.
Proof. induction l as [|x l IH]; [reflexivity|]. cbn. now rewrite map_app, IH. Qed.
(** the particles of all domains, species by species *)
Lemma everyone_species {P D} (f : Z -> P -> D) (a : area) ids (st : smb P) : ids_ok a ids st ->
  Permutation (everyone (rd_ a) (zd_ a) (fun ik => flat_map (fun s => map (f (fst s)) (snd s)) (st (fst ik) (snd ik))))
              (flat_map (fun sid => map (f sid) (particles_of a sid st)) ids).
Proof.
  intros [N I]. rewrite everyone_pairs.
  rewrite (perm_flat_ext _ (fun ik => flat_map (fun sid => map (f sid) (flat_map (fun s => if fst s =? sid then snd s else []) (st (fst ik) (snd ik)))) ids)).
  - rewrite perm_exchange. apply perm_flat_ext. intros sid _. unfold particles_of. rewrite map_flat_map. reflexivity.
  - intros [i k] Hik. apply In_pairs in Hik as [Hi Hk]. cbn [fst snd]. rewrite (by_species f (st i k) ids) by auto. reflexivity.
Qed.
Lemma In_particles {P} (a : area) sid (st : smb P) q : In q (particles_of a sid st) <->
  exists i k s, 0 <= i < rd_ a /\ 0 <= k < zd_ a /\ In s (st i k) /\ fst s = sid /\ In q (snd s).
Proof.
  unfold particles_of. rewrite in_flat_map. split.
  - intros ([i k] & Hik & H). apply In_pairs in Hik as [Hi Hk]. apply in_flat_map in H as (s & Hs & H). cbn [fst snd] in Hs.
    destruct (fst s =? sid) eqn:E; [|destruct H]. exists i, k, s. repeat split; auto; lia.
  - intros (i & k & s & Hi & Hk & Hs & E & Hq). exists (i, k). split; [now apply In_pairs|]. apply in_flat_map. exists s. split; [exact Hs|].
    now replace (fst s =? sid) with true by lia.
Qed.
Lemma Forall2_flat_map {A B E F} (Q : E -> F -> Prop) (S : A -> B -> Prop) (f : A -> list E) (h : B -> list F) l m :
  (forall x y, S x y -> Forall2 Q (f x) (h y)) -> Forall2 S l m -> Forall2 Q (flat_map f l) (flat_map h m).
Proof. intros H. induction 1; [constructor|]. cbn. apply Forall2_app; auto. Qed.
Lemma Forall2_fun {A B} (Q : A -> B -> Prop) l m m' : (forall x y z, In x l -> Q x y -> Q x z -> y = z) -> Forall2 Q l m -> Forall2 Q l m' -> m = m'.
Proof.
  intros H F. revert m'. induction F as [|x y l m Hxy F IH]; intros m' F'; inversion F'; subst; [reflexivity|].
  f_equal; [eapply H; eauto; now left|]. apply IH; auto. intros; eapply H; eauto; now right.
Qed.
(** related lists of the same particles in another order *)
Lemma perm_related {A B} (Q : A -> B -> Prop) l l' m m' : (forall x y z, Q x y -> Q x z -> y = z) -> Permutation l l' -> Forall2 Q l m -> Forall2 Q l' m' -> Permutation m m'.
Proof.
  intros H P F F'. destruct (Permutation_Forall2 P F) as (m2 & P2 & F2). rewrite (Forall2_fun Q l' m' m2); auto. intros; eapply H; eauto.
Qed.
(** the particles of a species after a step of all domains *)
Lemma stepped_species {P} (a : area) (Q : Z -> Z -> Z -> P -> P -> Prop) (Q1 : Z -> P -> P -> Prop) (st st1 : smb P) sid :
  (forall i k q q', 0 <= i < rd_ a -> 0 <= k < zd_ a -> Q i k sid q q' -> Q1 sid q q') ->
  (forall i k, 0 <= i < rd_ a -> 0 <= k < zd_ a -> Forall2 (fun s s' => fst s = fst s' /\ Forall2 (Q i k (fst s)) (snd s) (snd s')) (st i k) (st1 i k)) ->
  Forall2 (Q1 sid) (particles_of a sid st) (particles_of a sid st1).
Proof.
  intros HQ F. unfold particles_of.
  assert (A : forall ik, In ik (pairs (rd_ a) (zd_ a)) -> 0 <= fst ik < rd_ a /\ 0 <= snd ik < zd_ a) by (intros [i k] H; now apply In_pairs in H).
  induction (pairs (rd_ a) (zd_ a)) as [|[i k] l IH]; [constructor|]. cbn [flat_map fst snd]. apply Forall2_app; [|apply IH; intros; apply A; now right].
  destruct (A (i, k) (or_introl eq_refl)) as [Hi Hk]. cbn [fst snd] in Hi, Hk.
  refine (Forall2_flat_map (Q1 sid) (fun s s' => fst s = fst s' /\ Forall2 (Q i k (fst s)) (snd s) (snd s')) _ _ _ _ _ (F i k Hi Hk)).
  intros s s' [E Fs]. rewrite <- E. destruct (fst s =? sid) eqn:Es; [|constructor]. replace (fst s) with sid in Fs by lia.
  induction Fs; constructor; auto. now apply (HQ i k).
Qed.
Lemma step_build {P} (a : area) (Q : Z -> Z -> Z -> P -> P -> Prop) (st : smb P) :
  (forall i k s q, 0 <= i < rd_ a -> 0 <= k < zd_ a -> In s (st i k) -> In q (snd s) -> exists q', Q i k (fst s) q q') ->
  exists st1, (forall i k, 0 <= i < rd_ a -> 0 <= k < zd_ a -> Forall2 (fun s s' => fst s = fst s' /\ Forall2 (Q i k (fst s)) (snd s) (snd s')) (st i k) (st1 i k)) /\
    (forall i k, ~ (0 <= i < rd_ a /\ 0 <= k < zd_ a) -> st1 i k = st i k).
Proof.
  intros H.
  assert (One : forall i k, 0 <= i < rd_ a -> 0 <= k < zd_ a -> exists d, Forall2 (fun s s' => fst s = fst s' /\ Forall2 (Q i k (fst s)) (snd s) (snd s')) (st i k) d).
  { intros i k Hi Hk. specialize (fun s q => H i k s q Hi Hk). induction (st i k) as [|s l IH]; [exists []; constructor|].
    destruct IH as [d D]; [intros; apply H; auto; now right|].
    assert (Y : exists l', Forall2 (Q i k (fst s)) (snd s) l').
    { specialize (fun q => H s q (or_introl eq_refl)). induction (snd s) as [|q m IH]; [exists []; constructor|].
      destruct IH as [l' L]; [intros; apply H; now right|]. destruct (H q (or_introl eq_refl)) as [q' Hq]. exists (q' :: l'). now constructor. }
    destruct Y as [l' Y]. exists ((fst s, l') :: d). constructor; [split; [reflexivity|exact Y]|exact D]. }
  assert (All : forall L, exists st1, (forall i k, In (i, k) L -> 0 <= i < rd_ a -> 0 <= k < zd_ a ->
     Forall2 (fun s s' => fst s = fst s' /\ Forall2 (Q i k (fst s)) (snd s) (snd s')) (st i k) (st1 i k)) /\
     (forall i k, ~ (0 <= i < rd_ a /\ 0 <= k < zd_ a) -> st1 i k = st i k)).
  { intros L. induction L as [|[i j] L [st1 [IH O]]]; [exists st; split; [intros i j []|reflexivity]|].
    destruct (Z_le_dec 0 i), (Z_lt_dec i (rd_ a)), (Z_le_dec 0 j), (Z_lt_dec j (zd_ a));
      try (exists st1; split; [intros i' j' [[= <- <-]|Hin]; [lia|now apply IH]|exact O]).
    destruct (One i j ltac:(lia) ltac:(lia)) as [d D]. exists (upd_dom P st1 i j d). unfold upd_dom. split.
    - intros i' j' Hin Hi' Hj'. destruct ((i' =? i) && (j' =? j)) eqn:E; [assert (i' = i /\ j' = j) as [-> ->] by lia; exact D|].
      destruct Hin as [[= <- <-]|Hin]; [lia|now apply IH].
    - intros i' j' N. destruct ((i' =? i) && (j' =? j)) eqn:E; [lia|now apply O]. }
  destruct (All (pairs (rd_ a) (zd_ a))) as [st1 [S O]]. exists st1. split; [|exact O]. intros i k Hi Hk. apply S; auto. now apply In_pairs.
Qed.

(** ** specification: where in the area and how fast *)
(** [x] lies in the lower half of the first cell, or in the last cell, of a stretch of s cells of size d *)
Definition near_low (s : Z) (d x : R) : Prop := let c := cell_number x d in c mod s = 0 /\ (x < (IZR c + / 2) * d)%R.
Definition near_high (s : Z) (d x : R) : Prop := cell_number x d mod s = s - 1.
(** a place near the lower right or the upper left corner of a domain of s x s cells: the cells that the interpolation reads reach
    into the lower right or the upper left neighbour *)
Definition crossing (g : YeeModel.geo) (s : Z) (r z : R) : Prop :=
  (near_low s (g_dr g) r /\ near_high s (g_dz g) z) \/ (near_high s (g_dr g) r /\ near_low s (g_dz g) z).
(** a particle (with its new velocity) that lies between the mirrors and moves by less than a cell, but not exactly onto the border
    of a domain of s x s cells *)
Definition calm (g : YeeModel.geo) (s : Z) (p : part) : Prop :=
  let dr := g_dr g in let dz := g_dz g in let dt := g_dt g in
  pos_phi p = 0%R /\ (dr / 2 <= pos_r p <= IZR (g_nr g) * dr - dr / 2)%R /\ (dz / 2 <= pos_z p <= IZR (g_nz g) * dz - dz / 2)%R /\
  (sqrt ((vel_r p * dt) ^ 2 + (vel_phi p * dt) ^ 2) < dr)%R /\ (Rabs (vel_z p * dt) < dz)%R /\
  (forall n, sqrt ((pos_r p + vel_r p * dt) * (pos_r p + vel_r p * dt) + vel_phi p * dt * (vel_phi p * dt)) <> (IZR (n * s) * dr)%R /\
             (pos_z p + vel_z p * dt)%R <> (IZR (n * s) * dz)%R).

(** ** cells *)
Lemma half_below x d : (0 < d)%R -> cell_number (x - / 2 * d) d = cell_number x d \/
  (cell_number (x - / 2 * d) d = cell_number x d - 1 /\ (x < (IZR (cell_number x d) + / 2) * d)%R).
Proof.
  intros Hd. pose proof (cell_number_bounds x d Hd) as [A B]. set (c := cell_number x d) in *. clearbody c.
  destruct (Rlt_le_dec x ((IZR c + / 2) * d)) as [L|L].
  - right. split; [|exact L]. assert (H := cell_number_range (x - / 2 * d) d (c - 1) c Hd).
    rewrite minus_IZR in H. assert (c - 1 <= cell_number (x - / 2 * d) d < c) by (apply H; lra). lia.
  - left. assert (H := cell_number_range (x - / 2 * d) d c (c + 1) Hd). rewrite plus_IZR in H.
    assert (c <= cell_number (x - / 2 * d) d < c + 1) by (apply H; lra). lia.
Qed.
Lemma mod_dom c i s : 1 <= s -> i * s <= c < i * s + s -> c mod s = c - i * s.
Proof. intros Hs H. replace c with (c - i * s + i * s) at 1 by ring. rewrite Z.mod_add by lia. apply Z.mod_small. lia. Qed.
(** the two cells read in one direction *)
Lemma reads d x i s c : (0 < d)%R -> 2 <= s -> i * s <= cell_number x d < i * s + s -> c = cell_number x d \/ c = cell_number (x - / 2 * d) d ->
  -1 <= c - i * s /\ c - i * s + 1 <= s /\ (c - i * s = -1 -> near_low s d x) /\ (c - i * s + 1 = s -> near_high s d x).
Proof.
  intros Hd Hs Hx Hc. assert (M := mod_dom _ i s ltac:(lia) Hx). pose proof (half_below x d Hd) as Hb. split; [lia|]. split; [lia|].
  unfold near_low, near_high. cbv zeta. rewrite M. split; intros E.
  - destruct Hc as [->| ->]; [lia|]. destruct Hb as [Hb|[Hb L]]; [lia|]. split; [lia|exact L].
  - destruct Hb as [Hb|[Hb _]]; lia.
Qed.

Section Domain.
Variable g : YeeModel.geo.
Variables R C s : Z.
Hypothesis HR : 1 <= R.
Hypothesis HC : 1 <= C.
Hypothesis Hs : 4 <= s.
Hypothesis D0 : g_d0 g = 0.
Hypothesis D1 : g_d1 g = 0.
Hypothesis Hdr : (0 < g_dr g)%R.
Hypothesis Hdz : (0 < g_dz g)%R.

(** ** the interpolation *)
Lemma contributions_dom f F i k r pl : 0 <= i < R -> 0 <= k < C -> fits2 s s f -> fits2 (R * s) (C * s) F ->
  (forall x y, inw s s x y -> ~ skew R C s i k x y -> lv f x y = lv F (i * s + x) (k * s + y)) ->
  (let x := p_i pl - i * s in let y := p_k pl - k * s in
   -1 <= x /\ x + 1 <= s /\ -1 <= y /\ y + 1 <= s /\ (forall u w, 0 <= u <= 1 -> 0 <= w <= 1 -> ~ skew R C s i k (x + u) (y + w))) ->
  contributions (dom_geo g R C s (i, k)) f r pl = contributions g F r pl.
Proof using HR HC Hs D0 D1.
  intros Hi Hk Ff FF A B. cbv zeta in B. unfold contributions, dom_geo. cbn [fst snd g_d0 g_d1 g_dr]. rewrite D0, D1, !Z.add_0_r, !Z.sub_0_r.
  set (x := p_i pl - i * s) in *. set (y := p_k pl - k * s) in *.
  assert (Ex : p_i pl = i * s + x) by lia. assert (Ey : p_k pl = k * s + y) by lia. rewrite Ex, Ey. clearbody x y. clear Ex Ey.
  assert (I1 : 0 <= i * s /\ i * s + s <= R * s) by nia. assert (I2 : 0 <= k * s /\ k * s + s <= C * s) by nia.
  destruct B as (B1 & B2 & B3 & B4 & NS).
  assert (Rd : forall u w, 0 <= u <= 1 -> 0 <= w <= 1 -> rget f (x + u) (y + w) = rget F (i * s + x + u) (k * s + y + w)).
  { intros u w Hu Hw. rewrite (rget_eq s s f) by (auto; unfold inw; lia). rewrite (rget_eq (R * s) (C * s) F) by (auto; unfold inw; lia).
    rewrite A by (try apply NS; unfold inw; lia). do 2 f_equal; lia. }
  assert (R0 := Rd 0 0 ltac:(lia) ltac:(lia)). assert (R1 := Rd 1 0 ltac:(lia) ltac:(lia)). assert (R2 := Rd 0 1 ltac:(lia) ltac:(lia)). assert (R3 := Rd 1 1 ltac:(lia) ltac:(lia)).
  rewrite !Z.add_0_r in R0. rewrite !Z.add_0_r in R1. rewrite !Z.add_0_r in R2. rewrite R0, R1, R2, R3, ?Z.add_0_r. reflexivity.
Qed.
Lemma interpolation_dom m G i k r z : 0 <= i < R -> 0 <= k < C -> YeeSmb.all_fit R C s m -> fits3 (R * s) (C * s) G -> matches R C s m G ->
  i * s <= cell_number r (g_dr g) < i * s + s -> k * s <= cell_number z (g_dz g) < k * s + s -> R = 1 \/ C = 1 \/ ~ crossing g s r z ->
  get_field_e (dom_geo g R C s (i, k)) (m (i, k)) r z = get_field_e g G r z /\ get_field_h (dom_geo g R C s (i, k)) (m (i, k)) r z = get_field_h g G r z.
Proof using HR HC Hs D0 D1 Hdr Hdz.
  intros Hi Hk Fm FG A Hr Hz N.
  assert (Ct : forall c cr cz, cr = cell_number r (g_dr g) \/ cr = cell_number (r - / 2 * g_dr g) (g_dr g) -> cz = cell_number z (g_dz g) \/ cz = cell_number (z - / 2 * g_dz g) (g_dz g) ->
     forall pl, p_i pl = cr -> p_k pl = cz -> contributions (dom_geo g R C s (i, k)) (getc c (m (i, k))) r pl = contributions g (getc c G) r pl).
  { intros c cr cz Hcr Hcz pl E1 E2. apply contributions_dom; [exact Hi|exact Hk|now apply Fm|apply FG|intros; now apply A|]. cbv zeta. rewrite E1, E2.
    destruct (reads (g_dr g) r i s cr Hdr ltac:(lia) Hr Hcr) as (A1 & A2 & A3 & A4). destruct (reads (g_dz g) z k s cz Hdz ltac:(lia) Hz Hcz) as (B1 & B2 & B3 & B4).
    repeat (split; [assumption|]). intros u w Hu Hw Sk. unfold skew in Sk.
    destruct N as [N|[N|N]]; [lia|lia|]. apply N. destruct Sk as [Sk|Sk]; [left; split; [apply A3|apply B4]|right; split; [apply A4|apply B3]]; lia. }
  unfold get_field_e, get_field_h.
  change (place_half_r (dom_geo g R C s (i, k)) r z) with (place_half_r g r z). change (place_half_z (dom_geo g R C s (i, k)) r z) with (place_half_z g r z).
  change (place_half_rz (dom_geo g R C s (i, k)) r z) with (place_half_rz g r z). change (place_node (dom_geo g R C s (i, k)) r z) with (place_node g r z).
  assert (Er := Ct Cr _ _ (or_intror eq_refl) (or_introl eq_refl) (place_half_r g r z) eq_refl eq_refl). assert (Ez := Ct Cz _ _ (or_introl eq_refl) (or_intror eq_refl) (place_half_z g r z) eq_refl eq_refl).
  assert (Ep := Ct Cphi _ _ (or_introl eq_refl) (or_introl eq_refl) (place_node g r z) eq_refl eq_refl).
  assert (Hz' := Ct Cz _ _ (or_intror eq_refl) (or_introl eq_refl) (place_half_r g r z) eq_refl eq_refl). assert (Hr' := Ct Cr _ _ (or_introl eq_refl) (or_intror eq_refl) (place_half_z g r z) eq_refl eq_refl).
  assert (Hp' := Ct Cphi _ _ (or_intror eq_refl) (or_intror eq_refl) (place_half_rz g r z) eq_refl eq_refl).
  cbn [getc] in *. rewrite Er, Ez, Ep, Hz', Hr', Hp'. split; reflexivity.
Qed.
End Domain.
