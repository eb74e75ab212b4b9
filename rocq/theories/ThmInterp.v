(** Further theorems about the interpolation of fields to the position of a particle: properties C108 and C109. *)
From Coq Require Import ZifyBool Reals Lra Psatz.
From Verif Require Import Base RndUtil GridModel GridProofs OverlayModel YeeModel YeeProofs ThmYee ExtModel ThmExt.
Open Scope Z_scope.

(** * Specification *)
(** where the components are in a cell (the lattice of the field solver): longitudinal positions *)
Definition zpos_h (g : geo) (c : comp) (k : Z) : R := match c with Cz => IZR k * g_dz g | _ => (IZR k + / 2) * g_dz g end%R.
Definition zpos_e (g : geo) (c : comp) (k : Z) : R := match c with Cz => (IZR k + / 2) * g_dz g | _ => IZR k * g_dz g end%R.
(** cells of the domain and one ring of cells around it *)
Definition near (g : geo) (x y : Z) : Prop := -1 <= x <= g_nr g /\ -1 <= y <= g_nz g.

Lemma four_linear g (v : Z -> Z -> R) (v' : Z -> R) r p (zc : Z -> R) z al be : good g p ->
  (forall k, zc (k + 1) = (zc k + g_dz g)%R) -> p_dz1 p = (zc (p_k p + 1)%Z - z)%R -> p_dz2 p = (z - zc (p_k p))%R ->
  (forall x y, near g x y -> v x y = ((al + be * zc (y + g_d1 g)%Z) * v' x)%R) ->
  sum4 (four g v r p) = ((al + be * z) * sum4 (four g (fun x _ => v' x) r p))%R.
Proof.
  intros (H1 & H2 & V1 & V2) Hz E1 E2 Hv. unfold four, sum4. cbv zeta.
  rewrite !Hv by (unfold near; lia).
  replace (p_k p - g_d1 g + g_d1 g) with (p_k p) by lia. replace (p_k p - g_d1 g + 1 + g_d1 g) with (p_k p + 1) by lia.
  rewrite E1, E2, Hz. unfold cyl_rng_vol. field. split; lra.
Qed.
Lemma four_ext' g (v v' : Z -> Z -> R) r p : good g p -> (forall x y, near g x y -> v x y = v' x y) -> four g v r p = four g v' r p.
Proof. intros (H1 & H2 & _) H. unfold four. cbv zeta. rewrite !H by (unfold near; lia). reflexivity. Qed.

Section Steps.
Variable g : geo.
Lemma whole_step k : (IZR (k + 1) * g_dz g = IZR k * g_dz g + g_dz g)%R.
Proof. rewrite plus_IZR. ring. Qed.
Lemma half_step k : ((IZR (k + 1) + / 2) * g_dz g = (IZR k + / 2) * g_dz g + g_dz g)%R.
Proof. rewrite plus_IZR. ring. Qed.
End Steps.

(** * C108: a field that is linear in z is interpolated at the position of the particle *)
Theorem C108_magnetic : forall g f f' r z c al be s v v', fits3 (g_nr g) (g_nz g) f -> fits3 (g_nr g) (g_nz g) f' -> inside g r z ->
  (forall x y, near g x y -> lv (getc c f) x y = ((al + be * zpos_h g c (y + g_d1 g)) * s x)%R) ->
  (forall x y, near g x y -> lv (getc c f') x y = s x) ->
  get_field_h g f r z = Ok v -> get_field_h g f' r z = Ok v' -> vcomp c v = ((al + be * z) * vcomp c v')%R.
Proof.
  intros g f f' r z c al be s v v' F F' I H H'. destruct (places_good g r z I) as (G1 & G2 & G3 & G4 & _).
  rewrite !get_field_h_eq by assumption. intros ->%ok_inj ->%ok_inj.
  destruct c; cbn [vcomp getc] in *.
  - rewrite (four_ext' g (lv (c_r f')) (fun x _ => s x) r _ G2 H'). apply (four_linear g _ s r _ (zpos_h g Cr)); auto.
    + intros k. apply half_step.
    + cbn [place_half_z p_dz1 p_k zpos_h]. rewrite plus_IZR. lra.
  - rewrite (four_ext' g (lv (c_phi f')) (fun x _ => s x) r _ G3 H'). apply (four_linear g _ s r _ (zpos_h g Cphi)); auto.
    + intros k. apply half_step.
    + cbn [place_half_rz p_dz1 p_k zpos_h]. rewrite plus_IZR. lra.
  - rewrite (four_ext' g (lv (c_z f')) (fun x _ => s x) r _ G1 H'). apply (four_linear g _ s r _ (zpos_h g Cz)); auto.
    intros k. apply whole_step.
Qed.
(** the radial component of E, and the longitudinal one where E_phi does not interfere (C41) *)
Theorem C108_electric_partial : forall g f f' r z c al be s v v', fits3 (g_nr g) (g_nz g) f -> fits3 (g_nr g) (g_nz g) f' -> inside g r z ->
  (c = Cr \/ (c = Cz /\ forall x y, near g x y -> lv (c_phi f) x y = 0%R /\ lv (c_phi f') x y = 0%R)) ->
  (forall x y, near g x y -> lv (getc c f) x y = ((al + be * zpos_e g c (y + g_d1 g)) * s x)%R) ->
  (forall x y, near g x y -> lv (getc c f') x y = s x) ->
  get_field_e g f r z = Ok v -> get_field_e g f' r z = Ok v' -> vcomp c v = ((al + be * z) * vcomp c v')%R.
Proof.
  intros g f f' r z c al be s v v' F F' I Hc H H'. destruct (places_good g r z I) as (G1 & G2 & G3 & G4 & _).
  rewrite !get_field_e_eq by assumption. intros ->%ok_inj ->%ok_inj.
  destruct Hc as [-> | [-> Hp]]; cbn [vcomp getc] in *.
  - rewrite (four_ext' g (lv (c_r f')) (fun x _ => s x) r _ G1 H'). apply (four_linear g _ s r _ (zpos_e g Cr)); auto.
    intros k. apply whole_step.
  - rewrite (four_ext' g (lv (c_phi f)) (fun _ _ => 0%R) r _ G4) by (intros; now apply Hp).
    rewrite (four_ext' g (lv (c_phi f')) (fun _ _ => 0%R) r _ G4) by (intros; now apply Hp).
    destruct (four_zero g (fun _ _ => 0%R) r (place_node g r z)) as [_ ->]; [reflexivity|]. rewrite !Rplus_0_r.
    rewrite (four_ext' g (lv (c_z f')) (fun x _ => s x) r _ G2 H'). apply (four_linear g _ s r _ (zpos_e g Cz)); auto.
    + intros k. apply half_step.
    + cbn [place_half_z p_dz1 p_k zpos_e]. rewrite plus_IZR. lra.
Qed.
(** the azimuthal component of E loses the contribution of the cell to the upper right *)
Theorem C108_azimuthal_refuted : exists g f r z v, fits3 (g_nr g) (g_nz g) f /\ inside g r z /\
  (forall x y, lv (c_phi f) x y = 1%R) /\ get_field_e g f r z = Ok v /\
  forall f' r' v', fits3 (g_nr g) (g_nz g) f' -> (forall x y, lv (c_r f') x y = 1%R) -> r' = r -> get_field_e g f' r' z = Ok v' ->
  (vcomp Cphi v < vcomp Cr v')%R.
Proof.
  assert (F : fits3 3 3 only_phi) by (intros []; apply gz_fits).
  exists geo_ex, only_phi, (3/2)%R, (3/2)%R. eexists. split; [exact F|]. split; [apply inside_ex|]. split; [reflexivity|].
  split; [apply (get_field_e_eq geo_ex only_phi _ _ F inside_ex)|].
  intros f' r' v' F' U -> E'. rewrite (get_field_e_eq geo_ex f' _ _ F' inside_ex) in E'. apply ok_inj in E'. subst v'. cbn [vcomp].
  rewrite (four_ext geo_ex (lv (c_r f')) (fun _ _ => 1%R)) by exact U.
  rewrite (four_ext geo_ex (lv (c_phi only_phi)) (fun _ _ => 1%R)) by reflexivity.
  unfold four, sum4, last4, place_node, place_half_r, geo_ex. cbn [p_i p_k p_vol1 p_vol2 p_dz1 p_dz2 p_r2 g_dr g_dz g_d0 g_d1].
  assert (C1 : cell_number (3 / 2 - / 2 * 1) 1 = 1) by (apply Int_part_unique; lra). rewrite C1, cell_ex.
  unfold cell_volume, cyl_rng_vol. assert (P := PI_RGT_0). cbn [Z.add Pos.add Pos.succ].
  match goal with |- (?a < ?b)%R => replace a with (71/120)%R; [replace b with (3/4)%R|] end; try (field; lra); lra.
Qed.

(** * C109: the interpolation does not amplify *)
Definition weights_nonneg (g : geo) (r : R) (p : place) : Prop :=
  (r - / 2 * g_dr g <= p_r2 p <= r + / 2 * g_dr g)%R /\ (0 <= r - / 2 * g_dr g)%R /\ (0 <= p_dz1 p)%R /\ (0 <= p_dz2 p)%R.
Lemma ring_nonneg h a b : (0 <= h -> 0 <= a <= b -> 0 <= cyl_rng_vol h a b)%R.
Proof. intros Hh Hab. unfold cyl_rng_vol. pose proof PI_RGT_0. apply Rmult_le_pos; [apply Rmult_le_pos; lra|nra]. Qed.
Lemma share_bound x m w V : (0 < V -> 0 <= w -> Rabs x <= m -> - (m * w / V) <= x * w / V <= m * w / V)%R.
Proof.
  intros HV Hw Hx. assert (B : (- m <= x <= m)%R) by (unfold Rabs in Hx; destruct (Rcase_abs x); lra).
  assert (Q : (0 <= w / V)%R) by (apply Rmult_le_pos; [auto|apply Rlt_le, Rinv_0_lt_compat; auto]).
  replace (x * w / V)%R with (x * (w / V))%R by (unfold Rdiv; ring). replace (m * w / V)%R with (m * (w / V))%R by (unfold Rdiv; ring). nra.
Qed.
Lemma four_bounded g v r p m : good g p -> weights_nonneg g r p -> (forall x y, near g x y -> Rabs (v x y) <= m)%R ->
  (Rabs (sum4 (four g v r p)) <= sum4 (four g (fun _ _ => m) r p))%R /\
  (Rabs (sum4 (four g v r p) - last4 (four g v r p)) <= sum4 (four g (fun _ _ => m) r p))%R /\
  (Rabs (last4 (four g v r p)) <= sum4 (four g (fun _ _ => m) r p))%R.
Proof.
  intros (H1 & H2 & V1 & V2) ((R1 & R2) & R3 & Z1 & Z2) H. unfold four, sum4, last4. cbv zeta.
  set (x := p_i p - g_d0 g) in *. set (y := p_k p - g_d1 g) in *.
  assert (A : (0 <= cyl_rng_vol (p_dz1 p) (r - / 2 * g_dr g) (p_r2 p))%R) by (apply ring_nonneg; lra).
  assert (B : (0 <= cyl_rng_vol (p_dz1 p) (p_r2 p) (r + / 2 * g_dr g))%R) by (apply ring_nonneg; lra).
  assert (C : (0 <= cyl_rng_vol (p_dz2 p) (r - / 2 * g_dr g) (p_r2 p))%R) by (apply ring_nonneg; lra).
  assert (D : (0 <= cyl_rng_vol (p_dz2 p) (p_r2 p) (r + / 2 * g_dr g))%R) by (apply ring_nonneg; lra).
  pose proof (share_bound (v x y) m _ _ V1 A (H x y ltac:(unfold near; lia))) as S1.
  pose proof (share_bound (v (x + 1) y) m _ _ V2 B (H (x + 1) y ltac:(unfold near; lia))) as S2.
  pose proof (share_bound (v x (y + 1)) m _ _ V1 C (H x (y + 1) ltac:(unfold near; lia))) as S3.
  pose proof (share_bound (v (x + 1) (y + 1)) m _ _ V2 D (H (x + 1) (y + 1) ltac:(unfold near; lia))) as S4.
  repeat split; apply Rabs_le; lra.
Qed.
Lemma places_nonneg g r z : inside g r z ->
  weights_nonneg g r (place_half_r g r z) /\ weights_nonneg g r (place_half_z g r z) /\ weights_nonneg g r (place_half_rz g r z) /\
  weights_nonneg g r (place_node g r z).
Proof.
  intros ((D1 & D2 & Rr & Zr & Ax) & P0 & P1).
  pose proof (cell_number_bounds r (g_dr g) D1) as B1. pose proof (cell_number_bounds (r - / 2 * g_dr g) (g_dr g) D1) as B2.
  pose proof (cell_number_bounds z (g_dz g) D2) as B3. pose proof (cell_number_bounds (z - / 2 * g_dz g) (g_dz g) D2) as B4.
  unfold weights_nonneg, place_half_r, place_half_z, place_half_rz, place_node. cbn [p_r2 p_dz1 p_dz2]. rewrite ?plus_IZR.
  repeat match goal with |- _ /\ _ => split end; lra.
Qed.
Lemma node_uniform g v r z : inside g r z -> exists w N, sum4 (four g (fun _ _ => v) r (place_node g r z)) = (v * w)%R /\ 1 <= N /\ (IZR N - 1 <= 2 * r / g_dr g < IZR N + 1)%R /\
    (1 - / IZR N <= w <= 1 - / IZR (N + 2))%R.
Proof.
  intros I. destruct (places_good g r z I) as (_ & _ & _ & _ & N1 & N2). destruct I as ((D1 & D2 & _) & _).
  cbn [place_half_r place_half_z p_i] in N1, N2.
  eapply (uniform_sum g 0 (cell_number r (g_dr g))); cbn [place_node p_i p_k p_vol1 p_vol2 p_r2 p_dz1 p_dz2]; try reflexivity; try assumption; auto.
  - f_equal. lra.
  - lra.
  - rewrite plus_IZR. ring.
Qed.
Lemma uniform_le g m r z p : (0 <= m)%R -> inside g r z ->
  (p = place_half_r g r z \/ p = place_half_z g r z \/ p = place_half_rz g r z \/ p = place_node g r z) ->
  (sum4 (four g (fun _ _ => m) r p) <= m)%R.
Proof.
  intros Hm I Hp.
  assert (K : exists w N, sum4 (four g (fun _ _ => m) r p) = (m * w)%R /\ 1 <= N /\ (IZR N - 1 <= 2 * r / g_dr g < IZR N + 1)%R /\ (1 - / IZR N <= w <= 1 - / IZR (N + 2))%R).
  { destruct Hp as [Hp|[Hp|[Hp|Hp]]]; [apply (uniform_places g m r z I); auto..|]. rewrite Hp. now apply node_uniform. }
  destruct K as (w & N & -> & HN & _ & _ & W). assert (P : (0 < / IZR (N + 2))%R) by (apply Rinv_0_lt_compat, IZR_lt; lia). nra.
Qed.
Theorem C109_magnetic : forall g f r z c m v, fits3 (g_nr g) (g_nz g) f -> inside g r z ->
  (forall x y, near g x y -> Rabs (lv (getc c f) x y) <= m)%R -> get_field_h g f r z = Ok v -> (Rabs (vcomp c v) <= m)%R.
Proof.
  intros g f r z c m v F I H. destruct (places_good g r z I) as (G1 & G2 & G3 & G4 & _). destruct (places_nonneg g r z I) as (W1 & W2 & W3 & W4).
  rewrite get_field_h_eq by assumption. intros ->%ok_inj.
  assert (Hm : (0 <= m)%R).
  { destruct G1 as ((A & _) & (B & _) & _). eapply Rle_trans; [apply Rabs_pos|]. apply (H (-1) (-1)). 
    destruct (F c) as (X & Y & _). unfold near. destruct I as ((D1 & D2 & Rr & Zr & _) & _).
    pose proof (cell_number_range _ _ _ _ D1 Rr). pose proof (cell_number_range _ _ _ _ D2 Zr). lia. }
  destruct c; cbn [vcomp getc] in *.
  - eapply Rle_trans; [apply (four_bounded g _ r _ m G2 W2 H)|]. apply (uniform_le g m r z); auto.
  - eapply Rle_trans; [apply (four_bounded g _ r _ m G3 W3 H)|]. apply (uniform_le g m r z); auto.
  - eapply Rle_trans; [apply (four_bounded g _ r _ m G1 W1 H)|]. apply (uniform_le g m r z); auto.
Qed.
(** for E_z the azimuthal field adds its share *)
Theorem C109_electric : forall g f r z m n v, fits3 (g_nr g) (g_nz g) f -> inside g r z -> (0 <= m)%R -> (0 <= n)%R ->
  get_field_e g f r z = Ok v ->
  ((forall x y, near g x y -> Rabs (lv (c_r f) x y) <= m)%R -> (Rabs (vcomp Cr v) <= m)%R) /\
  ((forall x y, near g x y -> Rabs (lv (c_phi f) x y) <= m)%R -> (Rabs (vcomp Cphi v) <= m)%R) /\
  ((forall x y, near g x y -> Rabs (lv (c_z f) x y) <= m)%R -> (forall x y, near g x y -> Rabs (lv (c_phi f) x y) <= n)%R -> (Rabs (vcomp Cz v) <= m + n)%R).
Proof.
  intros g f r z m n v F I Hm Hn. destruct (places_good g r z I) as (G1 & G2 & G3 & G4 & _). destruct (places_nonneg g r z I) as (W1 & W2 & W3 & W4).
  rewrite get_field_e_eq by assumption. intros ->%ok_inj. cbn [vcomp]. split; [|split].
  - intros H. eapply Rle_trans; [apply (four_bounded g _ r _ m G1 W1 H)|]. apply (uniform_le g m r z); auto.
  - intros H. eapply Rle_trans; [apply (four_bounded g _ r _ m G4 W4 H)|]. apply (uniform_le g m r z); auto 6.
  - intros H H'. eapply Rle_trans; [apply Rabs_triang|]. apply Rplus_le_compat.
    + eapply Rle_trans; [apply (four_bounded g _ r _ m G2 W2 H)|]. apply (uniform_le g m r z); auto.
    + eapply Rle_trans; [apply (four_bounded g _ r _ n G4 W4 H')|]. apply (uniform_le g n r z); auto 6.
Qed.
(** H_z growing with z on the small domain *)
Definition slope_z : grid3 R := mkGrid3 (gz 0) (gz 0) (new_grid 3 3 2 (fun _ y => IZR (y - 2))).
Example C108_ex : fits3 3 3 slope_z /\ (forall x y, near geo_ex x y -> lv (getc Cz slope_z) x y = ((0 + 1 * zpos_h geo_ex Cz (y + g_d1 geo_ex)) * 1)%R) /\
  inside geo_ex (3/2) (3/2) /\ lv (c_z slope_z) 1 2 = 2%R.
Proof.
  assert (V : forall x y, lv (c_z slope_z) x y = IZR (y + 2 - 2)).
  { intros x y. reflexivity. }
  split; [intros []; try apply gz_fits; exact (gz_fits 0)|]. split; [|split; [apply inside_ex|rewrite V; f_equal]].
  intros x y _. cbn [getc]. rewrite V. unfold zpos_h. cbn [geo_ex g_d1 g_dz]. replace (y + 2 - 2) with (y + 0) by lia. ring.
Qed.

Print Assumptions C108_magnetic.
Print Assumptions C108_electric_partial.
Print Assumptions C108_azimuthal_refuted.
Print Assumptions C109_magnetic.
Print Assumptions C109_electric.
