(** Theorems about the absorbing layers of a divided area: properties C104 and C105. *)
From Coq Require Import ZifyBool Reals Lra Psatz Floats.SpecFloat.
From Verif Require Import Base GridModel OverlayModel GridProofs YeeModel YeeProofs ThmYee PmlModel.
Open Scope Z_scope.

(** the whole area: all cells, starting at 0 *)
Definition whole (G : geo) (p : pml) : Prop := g_d0 G = 0 /\ g_d1 G = 0 /\ g_nr G = p_G0 p /\ g_nz G = p_G1 p.
(** a non-empty domain of the area with the same steps *)
Definition domain_in (g G : geo) : Prop :=
  geo_ok g /\ 0 < g_nr g /\ 0 < g_nz g /\ g_dr g = g_dr G /\ g_dz g = g_dz G /\
  0 <= g_d0 g /\ 0 <= g_d1 g /\ g_d0 g + g_nr g <= g_nr G /\ g_d1 g + g_nz g <= g_nz G.

Section Dom.
Variables (G g : geo) (P : pml).
Hypothesis HP : pml_ok G P.
Hypothesis HW : whole G P.
Hypothesis HD : domain_in g G.
Lemma dom_layers : p_left (pml_of_domain g P) = (if g_d1 g <? p_left P then p_left P else 0) /\
  p_top (pml_of_domain g P) = (if p_G0 P - (g_d0 g + g_nr g) <? p_top P then p_top P else 0) /\
  p_right (pml_of_domain g P) = (if p_G1 P - (g_d1 g + g_nz g) <? p_right P then p_right P else 0).
Proof.
  destruct HP as (_ & _ & (_ & _ & A & B) & _). destruct HW as (W1 & W2 & W3 & W4). destruct HD as (_ & D1 & D2 & _ & _ & D3 & D4 & D5 & D6).
  unfold pml_of_domain, domain_pml. cbn [p_left p_top p_right]. rewrite !u64_small by lia. auto.
Qed.
Lemma dom_pml_ok : pml_ok g (pml_of_domain g P).
Proof.
  pose proof dom_layers as (L1 & L2 & L3). destruct HP as (_ & A2 & (_ & _ & A & B) & C & D & E).
  destruct HW as (W1 & W2 & W3 & W4). destruct HD as (D0 & D1 & D2 & D7 & D8 & D3 & D4 & D5 & D6).
  unfold pml_ok. rewrite L1, L2, L3, D7, D8. unfold pml_of_domain. cbn [p_left p_top p_right domain_pml p_G0 p_G1 p_L0 p_L1 p_s0 p_s1].
  repeat match goal with |- _ /\ _ => split end; auto; try tauto; try lia.
  all: match goal with |- context [if ?b then _ else _] => destruct b end; lia.
Qed.
End Dom.

(** * C104 *)
(** a domain gets a layer exactly if one of its cells is within the configured number of cells from the wall *)
Theorem C104_allotted : forall G g P, pml_ok G P -> whole G P -> domain_in g G ->
  let p := pml_of_domain g P in
  (p_left p <> 0 <-> exists k, g_d1 g <= k < g_d1 g + g_nz g /\ k < p_left P) /\
  (p_right p <> 0 <-> exists k, g_d1 g <= k < g_d1 g + g_nz g /\ g_nz G - p_right P <= k) /\
  (p_top p <> 0 <-> exists i, g_d0 g <= i < g_d0 g + g_nr g /\ g_nr G - p_top P <= i) /\
  (p_left p <> 0 -> p_left p = p_left P) /\ (p_right p <> 0 -> p_right p = p_right P) /\ (p_top p <> 0 -> p_top p = p_top P).
Proof.
  intros G g P HP HW HD. cbv zeta. destruct (dom_layers G g P HP HW HD) as (-> & -> & ->).
  destruct HP as (_ & _ & (_ & _ & A & B) & _ & C & _). destruct HW as (W1 & W2 & W3 & W4). destruct HD as (D0 & D1 & D2 & D7 & D8 & D3 & D4 & D5 & D6).
  split; [|split; [|split]].
  - destruct (g_d1 g <? p_left P) eqn:E; split; intros H; try lia.
    + exists (g_d1 g). lia.
    + destruct H as (k & H1 & H2). lia.
  - destruct (_ <? p_right P) eqn:E; split; intros H; try lia.
    + exists (g_d1 g + g_nz g - 1). lia.
    + destruct H as (k & H1 & H2). lia.
  - destruct (_ <? p_top P) eqn:E; split; intros H; try lia.
    + exists (g_d0 g + g_nr g - 1). lia.
    + destruct H as (k & H1 & H2). lia.
  - repeat split; destruct (_ <? _); congruence.
Qed.
(** the conductivities of a domain are those of the undivided area *)
Theorem C104_same_layers : forall G g P s S, pml_ok G P -> whole G P -> domain_in g G ->
  fits2 (g_nr g) (g_nz g) s -> fits2 (g_nr G) (g_nz G) S ->
  (forall i k, 0 <= i < g_nr g -> 0 <= k < g_nz g -> lv s i k = lv S (g_d0 g + i) (g_d1 g + k)) ->
  exists s' S', set_pml g (pml_of_domain g P) s = Ok s' /\ set_pml G P S = Ok S' /\
    forall i k, 0 <= i < g_nr g -> 0 <= k < g_nz g -> lv s' i k = lv S' (g_d0 g + i) (g_d1 g + k).
Proof.
  intros G g P s S HP HW HD Fs FS Z. pose proof (dom_pml_ok G g P HP HW HD) as Hp. pose proof (dom_layers G g P HP HW HD) as (L1 & L2 & L3).
  pose proof Hp as (_ & H2 & H3 & H4 & H5 & _). pose proof HP as (_ & K2 & K3 & K4 & K5 & _).
  destruct (set_pml_spec g _ H2 H3 H4 H5 s Fs) as (s' & E & _ & V). destruct (set_pml_spec G _ K2 K3 K4 K5 S FS) as (S' & E' & _ & V').
  destruct HW as (W1 & W2 & W3 & W4). destruct HD as (D0 & D1 & D2 & D7 & D8 & D3 & D4 & D5 & D6).
  exists s', S'. split; [exact E|]. split; [exact E'|]. intros i k Hi Hk. rewrite V, V', Z by lia.
  assert (Q0 : p_G0 (pml_of_domain g P) = p_G0 P /\ p_G1 (pml_of_domain g P) = p_G1 P /\ p_s0 (pml_of_domain g P) = p_s0 P /\ p_s1 (pml_of_domain g P) = p_s1 P) by (repeat split).
  destruct Q0 as (Q0 & Q1 & Q2 & Q3).
  assert (PR : forall n m, profile (pml_of_domain g P) n m = profile P n m) by (intros; unfold profile; now rewrite Q2, Q3).
  f_equal; [f_equal; [f_equal|]|].
  - unfold c_top. rewrite Q0, L2, W1. replace (g_d0 g + i + 0) with (i + g_d0 g) by lia. rewrite PR.
    destruct (_ <? p_top P) eqn:T; [reflexivity|].
    replace (1 <? i + g_d0 g + 1 - (p_G0 P - 0)) with false by lia. now replace (1 <? i + g_d0 g + 1 - (p_G0 P - p_top P)) with false by lia.
  - unfold c_left. rewrite L1, W2. replace (g_d1 g + k + 0) with (k + g_d1 g) by lia. rewrite PR.
    destruct (_ <? p_left P) eqn:T; [reflexivity|].
    replace (0 <? 0 - (k + g_d1 g)) with false by lia. now replace (0 <? p_left P - (k + g_d1 g)) with false by lia.
  - unfold c_right. rewrite Q1, L3, W2. replace (g_d1 g + k + 0) with (k + g_d1 g) by lia. rewrite PR.
    destruct (_ <? p_right P) eqn:T; [reflexivity|].
    replace (1 <? k + g_d1 g + 1 - (p_G1 P - 0)) with false by lia. now replace (1 <? k + g_d1 g + 1 - (p_G1 P - p_right P)) with false by lia.
Qed.
(** 8 x 16 cells, layers of 5 (left), 3 (outer wall) and 6 cells (right); the second of four domains in a row *)
Definition area_ex : geo := mkGeo 8 16 0 0 1 1 true true true true 1.
Definition dom_ex : geo := mkGeo 4 4 4 4 1 1 false false true false 1.
Definition pml_ex2 : pml := mkPml 5 3 6 1 2 8 16 8 16.
Example C104_ex : pml_ok area_ex pml_ex2 /\ whole area_ex pml_ex2 /\ domain_in dom_ex area_ex /\
  p_left (pml_of_domain dom_ex pml_ex2) = 5 /\ p_right (pml_of_domain dom_ex pml_ex2) = 0 /\ p_top (pml_of_domain dom_ex pml_ex2) = 3.
Proof.
  split; [unfold pml_ok, geo_ok, area_ex, pml_ex2; cbn; repeat split; lra || lia|].
  split; [repeat split|]. split; [unfold domain_in, geo_ok, dom_ex, area_ex; cbn; repeat split; lra || lia|]. vm_compute. auto.
Qed.

(** * C105: the thickness of the layers *)
(** exactly the cells with a positive conductivity: [p_left] cells at the left wall, but one cell less than configured
    at the right and at the outer wall *)
Theorem C105_thickness_partial : forall G P S, pml_ok G P -> whole G P -> fits2 (g_nr G) (g_nz G) S ->
  (forall i k, 0 <= i < g_nr G -> 0 <= k < g_nz G -> lv S i k = 0%R) -> (0 < p_s0 P)%R -> (0 < p_s1 P)%R ->
  exists S', set_pml G P S = Ok S' /\
    forall i k, 0 <= i < g_nr G -> 0 <= k < g_nz G ->
      ((0 < lv S' i k)%R <-> k < p_left P \/ g_nz G - (p_right P - 1) <= k \/ g_nr G - (p_top P - 1) <= i).
Proof.
  intros G P S HP HW FS Z S0 S1. pose proof HP as (_ & K2 & K3 & K4 & K5 & _). destruct HW as (W1 & W2 & W3 & W4).
  destruct (set_pml_spec G _ K2 K3 K4 K5 S FS) as (S' & E & _ & V). exists S'. split; [exact E|].
  intros i k Hi Hk. rewrite V, Z by auto.
  assert (PB : forall n m, 1 <= m <= n -> (0 < profile P n m)%R).
  { intros n m Hm. unfold profile. assert (A : (1 <= IZR m)%R) by (apply IZR_le; lia). assert (B : (IZR m <= IZR n)%R) by (apply IZR_le; lia).
    set (q := (IZR m / IZR n)%R).
    assert (Q : (0 < q <= 1)%R).
    { unfold q. split; [apply Rmult_lt_0_compat; [lra|apply Rinv_0_lt_compat; lra]|].
      apply Rmult_le_reg_r with (IZR n); [lra|]. unfold Rdiv. rewrite Rmult_assoc, Rinv_l; lra. }
    assert (QQ : (0 < q * q <= 1)%R) by nra. rewrite Rmult_assoc. set (w := (q * q)%R) in *. nra. }
  assert (T : (0 <= c_top G P i)%R /\ ((0 < c_top G P i)%R <-> g_nr G - (p_top P - 1) <= i)).
  { unfold c_top. cbv zeta. destruct (1 <? _) eqn:B; [|split; [lra|split; [lra|lia]]].
    pose proof (PB (p_top P) (i + g_d0 G + 1 - (p_G0 P - p_top P)) ltac:(lia)). split; [lra|split; [lia|auto]]. }
  assert (L : (0 <= c_left G P k)%R /\ ((0 < c_left G P k)%R <-> k < p_left P)).
  { unfold c_left. cbv zeta. destruct (0 <? _) eqn:B; [|split; [lra|split; [lra|lia]]].
    pose proof (PB (p_left P) (p_left P - (k + g_d1 G)) ltac:(lia)). split; [lra|split; [lia|auto]]. }
  assert (X : (0 <= c_right G P k)%R /\ ((0 < c_right G P k)%R <-> g_nz G - (p_right P - 1) <= k)).
  { unfold c_right. cbv zeta. destruct (1 <? _) eqn:B; [|split; [lra|split; [lra|lia]]].
    pose proof (PB (p_right P) (k + g_d1 G + 1 - (p_G1 P - p_right P)) ltac:(lia)). split; [lra|split; [lia|auto]]. }
  destruct T as [T1 T2], L as [L1 L2], X as [X1 X2]. rewrite <- T2, <- L2, <- X2. split; [|lra].
  intros H. destruct (Rlt_dec 0 (c_left G P k)); [auto|]. destruct (Rlt_dec 0 (c_right G P k)); [auto|]. right; right. lra.
Qed.
(** so a layer of one cell at the right wall does not exist, at the left wall it does *)
Theorem C105_one_cell_refuted : exists G P, pml_ok G P /\ whole G P /\ p_left P = 1 /\ p_right P = 1 /\ (0 < p_s0 P)%R /\ (0 < p_s1 P)%R /\
  forall S, fits2 (g_nr G) (g_nz G) S -> (forall i k, 0 <= i < g_nr G -> 0 <= k < g_nz G -> lv S i k = 0%R) ->
  exists S', set_pml G P S = Ok S' /\ (0 < lv S' 0 0)%R /\ ~ (0 < lv S' 0 (g_nz G - 1))%R.
Proof.
  assert (A : pml_ok area_ex (mkPml 1 0 1 1 2 8 16 8 16)) by (unfold pml_ok, geo_ok, area_ex; cbn; repeat split; lra || lia).
  assert (B : whole area_ex (mkPml 1 0 1 1 2 8 16 8 16)) by (repeat split).
  exists area_ex, (mkPml 1 0 1 1 2 8 16 8 16). split; [exact A|]. split; [exact B|]. cbn [p_left p_right p_s0 p_s1].
  split; [reflexivity|]. split; [reflexivity|]. split; [lra|]. split; [lra|]. intros S FS Z.
  destruct (C105_thickness_partial _ _ S A B FS Z) as (S' & E & V); [cbn; lra|cbn; lra|]. exists S'. split; [exact E|].
  cbn [area_ex g_nr g_nz p_left p_right p_top] in V. split.
  - apply V; lia.
  - change (g_nz area_ex - 1) with 15. rewrite V; lia.
Qed.
(** with the default length 0.15 and 216 cells instead of 256, the quotient of the sizes is below 216 in binary64; the
    distance of the last domain from the wall becomes -1, a huge unsigned number, and no domain gets the layer of 10 cells *)
Definition len_015 : spec_float := S754_finite false 5404319552844595 (-55).
Definition wall_005 : spec_float := S754_finite false 7205759403792794 (-57).
Theorem C105_lost_layer_refuted : valid_binary 53 1024 len_015 = true /\ valid_binary 53 1024 wall_005 = true /\
  pml_cells wall_005 216 = Ok 10 /\ global_cells len_015 len_015 216 = Ok 215 /\
  forall j, 0 <= j < 8 -> right_layer 215 216 8 10 j = 0.
Proof.
  split; [vm_compute; reflexivity|]. split; [vm_compute; reflexivity|]. split; [vm_compute; reflexivity|]. split; [vm_compute; reflexivity|].
  intros j Hj. assert (j = 0 \/ j = 1 \/ j = 2 \/ j = 3 \/ j = 4 \/ j = 5 \/ j = 6 \/ j = 7) as C by lia.
  destruct C as [->|[->|[->|[->|[->|[->|[->| ->]]]]]]]; vm_compute; reflexivity.
Qed.
(** in general: whenever the quotient is short by one or more cells, the last domain has no layer at the right wall *)
Theorem C105_lost_layer_general_refuted : forall G n zd r, 0 < zd -> 0 <= G < n -> n < 2 ^ 63 -> 0 <= r < 2 ^ 63 -> right_layer G n zd r (zd - 1) = 0.
Proof.
  intros G n zd r Hz HG Hn Hr. unfold right_layer, domain_pml. replace (zd - 1 + 1) with zd by lia. rewrite Z.div_mul by lia.
  replace (u64 (G - n) <? r) with false; [reflexivity|]. symmetry. apply Z.ltb_ge. unfold u64.
  replace (G - n) with (G - n + 2 ^ 64 + -1 * 2 ^ 64) by lia. rewrite Z.mod_add by lia. rewrite Z.mod_small by lia. lia.
Qed.
(** the default configuration is not affected *)
Example C105_default : global_cells len_015 len_015 256 = Ok 256 /\ pml_cells wall_005 256 = Ok 12 /\ right_layer 256 256 8 12 7 = 12.
Proof. repeat split; vm_compute; reflexivity. Qed.

Print Assumptions C104_allotted.
Print Assumptions C104_same_layers.
Print Assumptions C105_thickness_partial.
Print Assumptions C105_one_cell_refuted.
Print Assumptions C105_lost_layer_refuted.
Print Assumptions C105_lost_layer_general_refuted.
