(** Theorems about the division into domains: currents (C121), and the whole field part of a run (C122). *)
From Coq Require Import ZifyBool Reals Lra Permutation.
From Verif Require Import Base GridModel GridProofs CollectorModel OverlayModel OverlayConc OverlaySum OverlayPass ThmOverlay YeeModel YeeProofs ThmYee
  ExtModel ThmExt RndUtil CurrentModel CurrentProofs ThmCurrent ThmCurrent2 SumUtil YeeSmb ThmYeeSmb SmbCurrent.
Open Scope Z_scope.

(** ** the same deposit in the numbering of another domain *)
Definition shiftd (a b : Z) (d : dep) : dep := match d with Inc c i k v => Inc c (i - a) (k - b) v | Put c i k v => Put c (i - a) (k - b) v end.
Lemma amount_shift c a b x y ds : amount c x y (map (shiftd a b) ds) = amount c (x + a) (y + b) ds.
Proof.
  induction ds as [|[c' i k v|c' i k v] ds IH]; cbn [map shiftd amount]; [reflexivity| |exact IH].
  rewrite IH. replace (x =? i - a) with (x + a =? i) by lia. now replace (y =? k - b) with (y + b =? k) by lia.
Qed.
Lemma flat_map_shift {A} (f h : A -> list dep) a b l : (forall p, h p = map (shiftd a b) (f p)) -> flat_map h l = map (shiftd a b) (flat_map f l).
Proof. intros H. induction l as [|p l IH]; [reflexivity|]. cbn [flat_map]. now rewrite H, IH, map_app. Qed.
Ltac shifts := repeat (f_equal; try lia).
Lemma zigzag_shift g R C s i k p : zigzag (dom_geo g R C s (i, k)) p = map (shiftd (i * s) (k * s)) (zigzag g p).
Proof. unfold zigzag, dom_geo. cbn [fst snd g_dr g_dz g_dt g_d0 g_d1 map shiftd]. shifts. Qed.
Lemma azimuthal_shift g R C s i k p : azimuthal (dom_geo g R C s (i, k)) p = map (shiftd (i * s) (k * s)) (azimuthal g p).
Proof. unfold azimuthal, dom_geo. cbn [fst snd g_dr g_dz g_dt g_d0 g_d1 map shiftd]. shifts. Qed.
Lemma simple_shift g R C s i k q rn zn ro zo a b : simple (dom_geo g R C s (i, k)) q rn zn ro zo a b = map (shiftd (i * s) (k * s)) (simple g q rn zn ro zo a b).
Proof.
  unfold simple, dens_r, dens_z, dom_geo. cbn [fst snd g_dr g_dz g_dt g_d0 g_d1]. destruct (_ || _); [reflexivity|]. cbn [map shiftd]. shifts.
Qed.
Lemma strict_shift g R C s i k q rn zn ro zo : strict (dom_geo g R C s (i, k)) q rn zn ro zo = map (shiftd (i * s) (k * s)) (strict g q rn zn ro zo).
Proof.
  unfold strict, dens_strict, dom_geo. cbn [fst snd g_dr g_dz g_dt g_d0 g_d1].
  repeat match goal with |- context [if ?b then _ else _] => lazymatch type of b with bool => destruct b end end; cbn [map shiftd app]; shifts.
Qed.
Lemma rz_deps_shift g R C s i k p : rz_deps (dom_geo g R C s (i, k)) p = map (shiftd (i * s) (k * s)) (rz_deps g p).
Proof.
  unfold rz_deps, rz_particle. 
  change (legs (dom_geo g R C s (i, k))) with (legs g). change (g_dr (dom_geo g R C s (i, k))) with (g_dr g). change (g_dz (dom_geo g R C s (i, k))) with (g_dz g).
  destruct ((1 <? _) || _); [reflexivity|]. destruct (rlt _ _ || _); [apply strict_shift|].
  apply flat_map_shift. intros [[[[[r1 z1] r0] z0] a] b]. cbn [simple_leg]. apply simple_shift.
Qed.
Lemma amount_none (P : Z -> Z -> Prop) c x y ds : Forall (fun d => match d with Inc _ i k _ | Put _ i k _ => P i k end) ds -> ~ P x y -> amount c x y ds = 0%R.
Proof.
  induction 1 as [|[c' i k v|c' i k v] ds D _ IH]; intros N; cbn [amount]; [reflexivity| |auto].
  rewrite IH by exact N. destruct (ceqb c c' && (x =? i) && (y =? k)) eqn:E; [|lra].
  exfalso. apply N. replace x with i by lia. now replace y with k by lia.
Qed.

(** specification: none of the accesses of a domain with n x n cells goes to its upper left or lower right corner of ghost cells *)
Definition no_corner (n : Z) (ds : list dep) : Prop := Forall (fun d => match d with Inc _ i k _ | Put _ i k _ => anti n i k = false end) ds.

Section Divide.
Variable g : geo.
Variables R C s : Z.
Hypothesis HR : 1 <= R.
Hypothesis HC : 1 <= C.
Hypothesis Hs : 4 <= s.
Hypothesis HsL : s + 4 < 2 ^ 32.
Hypothesis Gr : g_nr g = R * s.
Hypothesis Gz : g_nz g = C * s.
Let dom i k := dom_geo g R C s (i, k).

(** what a component of the stitched currents holds, for a scheme that adds up [f] of all particles *)
Lemma stitched_amount (f : geo -> mover -> list dep) ps m c :
  (forall i k p, f (dom i k) p = map (shiftd (i * s) (k * s)) (f g p)) ->
  all_fit R C s m ->
  (forall i k, 0 <= i < R -> 0 <= k < C -> Forall (in_win s s) (flat_map (f (dom i k)) (ps (i, k)))) ->
  (R = 1 \/ C = 1 \/ forall i k, 0 <= i < R -> 0 <= k < C -> no_corner s (flat_map (f (dom i k)) (ps (i, k)))) ->
  (forall i k x y, 0 <= i < R -> 0 <= k < C -> inw s s x y -> lv (getc c (m (i, k))) x y = amount c x y (flat_map (f (dom i k)) (ps (i, k)))) ->
  forall m', pass3 Rplus R C m = Ok m' -> forall i k x y, 0 <= i < R -> 0 <= k < C -> 0 <= x < s -> 0 <= y < s ->
  lv (getc c (m' (i, k))) x y = amount c (i * s + x) (k * s + y) (flat_map (f g) (everyone R C ps)).
Proof using HR HC Hs HsL.
  clear Gr Gz. intros Sh F W D V m' E i k x y Hi Hk Hx Hy.
  assert (Am : forall a b X Y, amount c X Y (flat_map (f g) (ps (a, b))) = amount c (X - a * s) (Y - b * s) (flat_map (f (dom a b)) (ps (a, b)))).
  { intros a b X Y. rewrite (flat_map_shift (f g) (f (dom a b)) (a * s) (b * s)) by (intros; apply Sh). rewrite amount_shift. f_equal; lia. }
  destruct (stitch_sum R C s HR HC Hs HsL m F) as (m1 & E1 & _ & S1). rewrite E in E1. injection E1 as <-.
  rewrite (S1 c (fun p X Y => amount c X Y (flat_map (f g) (ps p)))); auto.
  - rewrite amount_everyone by lia. apply sum2_ext. intros a b Ha Hb. cbv beta.
    destruct (anti s _ _) eqn:A; [|reflexivity]. rewrite Am. symmetry.
    destruct D as [D|[D|D]].
    + exfalso. subst R. assert (i = 0) by lia. assert (a = 0) by lia. subst. unfold anti in A. lia.
    + exfalso. subst C. assert (k = 0) by lia. assert (b = 0) by lia. subst. unfold anti in A. lia.
    + apply (amount_none (fun x y => anti s x y = false)); [apply D; assumption|]. rewrite A. discriminate.
  - intros a b u w Ha Hb I. rewrite V by assumption. rewrite Am. f_equal; lia.
  - intros a b u w Ha Hb I. rewrite Am. apply (amount_none (inw s s)); [|intros I'; apply I; unfold inw in *; lia].
    eapply Forall_impl; [|apply (W a b Ha Hb)]. intros []; auto.
Qed.

(** ** C121, ZigZag *)
(** the old cell of a particle, counted from the first cell of its domain *)
Definition from_r (h : geo) (p : mover) : Z := cell_number (m_ro p) (g_dr h) - g_d0 h.
Definition from_z (h : geo) (p : mover) : Z := cell_number (m_zo p) (g_dz h) - g_d1 h.
(** the particle does not come from the lower neighbour in the last column, nor from the left neighbour in the last row *)
Definition off_corner (h : geo) (p : mover) : Prop :=
  ~ (from_r h p < 0 /\ g_nz h - 1 <= from_z h p) /\ ~ (g_nr h - 1 <= from_r h p /\ from_z h p < 0).

Lemma zigzag_win h p : lands_from_near h p -> Forall (in_win (g_nr h) (g_nz h)) (zigzag h p).
Proof. intros (L1 & L2 & L3 & L4). unfold zigzag. wins. Qed.
Lemma zigzag_no_corner h p n : g_nr h = n -> g_nz h = n -> lands_from_near h p -> off_corner h p -> no_corner n (zigzag h p).
Proof.
  intros <- N (L1 & L2 & _) (O1 & O2). unfold from_r, from_z in *. rewrite N in *. unfold no_corner, zigzag, anti.
  repeat apply Forall_cons; try apply Forall_nil; lia.
Qed.
Lemma zero_zigzag h ps x : fits3 (g_nr h) (g_nz h) x -> Forall (lands_from_near h) ps ->
  exists j, one_current zigzag_distribution h ps x = Ok j /\ fits3 (g_nr h) (g_nz h) j /\
  forall c u w, inw (g_nr h) (g_nz h) u w -> lv (getc c j) u w = amount c u w (flat_map (zigzag h) ps).
Proof.
  intros F L. unfold one_current, zigzag_distribution. destruct (zero3_spec _ _ x F) as (a & Ea & Fa & Va). rewrite Ea. cbn [bind].
  destruct (overlay_set3_eq _ _ a Fa) as (j0 & E0 & F0 & V0). rewrite E0. cbn [bind].
  destruct (do_deps_spec (g_nr h) (g_nz h) (flat_map (zigzag h) ps)) with (j := j0) as (j1 & E1 & F1 & V1); auto.
  { apply Forall_fm. intros p Hp. rewrite Forall_forall in L. now apply zigzag_win, L. }
  exists j1. split; [exact E1|]. split; [exact F1|]. intros c u w W. rewrite V1, (V0 c u w W), (Va c u w W).
  rewrite after_inc by (apply Forall_fm; intros p _; apply zigzag_inc). destruct (_ && _ && _ && _); lra.
Qed.
Lemma near_glob i k p : 0 <= i < R -> 0 <= k < C -> lands_from_near (dom i k) p -> lands_from_near g p.
Proof using HR HC Hs Gr Gz.
  intros Hi Hk (L1 & L2 & L3 & L4). unfold dom, dom_geo in *. cbn [fst snd g_nr g_nz g_d0 g_d1 g_dr g_dz] in *.
  assert (0 <= i * s /\ i * s + s <= R * s) by nia. assert (0 <= k * s /\ k * s + s <= C * s) by nia.
  unfold lands_from_near. rewrite Gr, Gz. lia.
Qed.

(** exactly: every cell gets the deposits of all particles of all domains, except those that a domain stored in two of its
    corners of ghost cells *)
Theorem C121_zigzag_exact : forall ps j, all_fit R C s j ->
  (forall i k, 0 <= i < R -> 0 <= k < C -> Forall (lands_from_near (dom_geo g R C s (i, k))) (ps (i, k))) ->
  exists j', smb_current zigzag_distribution g R C s ps j = Ok j' /\ all_fit R C s j' /\
    forall c i k x y, 0 <= i < R -> 0 <= k < C -> 0 <= x < s -> 0 <= y < s -> lv (getc c (j' (i, k))) x y =
      sum2 R C (fun a b => if anti s (i * s + x - a * s) (k * s + y - b * s) then 0%R
                           else amount c (i * s + x) (k * s + y) (flat_map (zigzag g) (ps (a, b)))).
Proof using HR HC Hs HsL Gr Gz.
  intros ps j Fj L. unfold smb_current.
  destruct (each_dom_spec R C (fun p x => do a <- zero3 x; zigzag_distribution (dom_geo g R C s p) (ps p) a) j
     (fun p x => fits3 s s x /\ forall c u w, inw s s u w -> lv (getc c x) u w = amount c u w (flat_map (zigzag (dom_geo g R C s p)) (ps p)))) as (j1 & E1 & P1); [lia|lia| |].
  { intros i k Hi Hk. destruct (zero_zigzag (dom i k) (ps (i, k)) (j (i, k)) (Fj i k Hi Hk) (L i k Hi Hk)) as (x & Ex & Fx & Vx).
    exists x. split; [exact Ex|]. split; [exact Fx|exact Vx]. }
  rewrite E1. cbn [bind].
  assert (Fj1 : all_fit R C s j1) by (intros i k Hi Hk; apply (P1 i k Hi Hk)).
  destruct (stitch_sum R C s HR HC Hs HsL j1 Fj1) as (j' & E' & F' & SS). exists j'. split; [exact E'|]. split; [exact F'|].
  intros c i k x y Hi Hk Hx Hy.
  assert (Am : forall a b X Y, amount c X Y (flat_map (zigzag g) (ps (a, b))) = amount c (X - a * s) (Y - b * s) (flat_map (zigzag (dom a b)) (ps (a, b)))).
  { intros a b X Y. rewrite (flat_map_shift (zigzag g) (zigzag (dom a b)) (a * s) (b * s)) by (intros; apply zigzag_shift). rewrite amount_shift. f_equal; lia. }
  apply (SS c (fun p X Y => amount c X Y (flat_map (zigzag g) (ps p)))); auto.
  - intros a b u w Ha Hb W. destruct (P1 a b Ha Hb) as (_ & V). rewrite (V c u w W), Am. fold (dom a b). f_equal; lia.
  - intros a b u w Ha Hb W. rewrite Am. apply (amount_none (inw s s)); [|intros I'; apply W; unfold inw in *; lia].
    apply Forall_fm. intros p Hp. specialize (L a b Ha Hb). rewrite Forall_forall in L.
    eapply Forall_impl; [|apply (zigzag_win (dom a b) p (L p Hp))]. intros []; auto.
Qed.
Theorem C121_zigzag_partial : forall ps all j J, all_fit R C s j -> fits3 (R * s) (C * s) J -> Permutation all (everyone R C ps) ->
  (forall i k, 0 <= i < R -> 0 <= k < C -> Forall (lands_from_near (dom_geo g R C s (i, k))) (ps (i, k))) ->
  (R = 1 \/ C = 1 \/ forall i k, 0 <= i < R -> 0 <= k < C -> Forall (off_corner (dom_geo g R C s (i, k))) (ps (i, k))) ->
  exists j' J', smb_current zigzag_distribution g R C s ps j = Ok j' /\ one_current zigzag_distribution g all J = Ok J' /\
    same_current R C s j' J' /\
    forall c X Y, 0 <= X < R * s -> 0 <= Y < C * s -> lv (getc c J') X Y = amount c X Y (flat_map (zigzag g) all).
Proof using HR HC Hs HsL Gr Gz.
  intros ps all j J Fj FJ P L D.
  assert (Lg : Forall (lands_from_near g) all).
  { apply Forall_forall. intros p Hp. apply (Permutation_in _ P), In_everyone in Hp as (i & k & Hi & Hk & Hp).
    apply (near_glob i k); auto. specialize (L i k Hi Hk). rewrite Forall_forall in L. now apply L. }
  destruct (zero_zigzag g all J) as (J' & EJ & FJ' & VJ); [now rewrite Gr, Gz|exact Lg|].
  unfold smb_current.
  destruct (each_dom_spec R C (fun p x => do a <- zero3 x; zigzag_distribution (dom_geo g R C s p) (ps p) a) j
     (fun p x => fits3 s s x /\ forall c u w, inw s s u w -> lv (getc c x) u w = amount c u w (flat_map (zigzag (dom_geo g R C s p)) (ps p)))) as (j1 & E1 & P1); [lia|lia| |].
  { intros i k Hi Hk. destruct (zero_zigzag (dom i k) (ps (i, k)) (j (i, k)) (Fj i k Hi Hk) (L i k Hi Hk)) as (x & Ex & Fx & Vx).
    exists x. split; [exact Ex|]. split; [exact Fx|exact Vx]. }
  rewrite E1. cbn [bind].
  assert (Fj1 : all_fit R C s j1) by (intros i k Hi Hk; apply (P1 i k Hi Hk)).
  destruct (stitch_sum R C s HR HC Hs HsL j1 Fj1) as (j' & E' & F' & _).
  exists j', J'. split; [exact E'|]. split; [exact EJ|].
  assert (VJ' : forall c X Y, 0 <= X < R * s -> 0 <= Y < C * s -> lv (getc c J') X Y = amount c X Y (flat_map (zigzag g) all)).
  { intros c X Y HX HY. apply VJ. rewrite Gr, Gz. unfold inw. lia. }
  split; [|exact VJ'].
  split; [now rewrite <- Gr, <- Gz|]. split; [exact F'|].
  intros i k c x y Hi Hk Hx Hy.
  rewrite (stitched_amount zigzag ps j1 c) with (m' := j'); auto.
  - rewrite VJ' by nia. apply amount_perm. apply Permutation_flat_map. now symmetry.
  - intros; apply zigzag_shift.
  - intros a b Ha Hb. apply Forall_fm. intros p Hp. apply (zigzag_win (dom a b)). specialize (L a b Ha Hb). rewrite Forall_forall in L. now apply L.
  - destruct D as [D|[D|D]]; auto. right. right. intros a b Ha Hb. apply Forall_fm. intros p Hp.
    specialize (L a b Ha Hb). specialize (D a b Ha Hb). rewrite Forall_forall in L, D. apply (zigzag_no_corner (dom a b)); auto.
  - intros a b u w Ha Hb W. apply (P1 a b Ha Hb). exact W.
Qed.

(** ** C121, Villasenor-Buneman *)
Definition long_r (p : mover) : Prop := (mnzl <= Rabs (m_r p - m_ro p))%R.
Lemma rz_deps_inc h p : sizes h -> bound h p -> long_r p -> Forall is_inc (rz_deps h p).
Proof.
  intros S B M. apply rlt_false in M. unfold rz_deps. rewrite (rz_particle_eq h p S B). destruct (1 <? _); [constructor|].
  rewrite M. cbn [orb]. destruct (rlt (Rabs (m_z p - m_zo p)) mnzl).
  - unfold strict. rewrite M. cbn [andb].
    repeat match goal with |- context [if ?b then _ else _] => lazymatch type of b with bool => destruct b end end;
    repeat (apply Forall_app; split); repeat apply Forall_cons; try apply Forall_nil; exact I.
  - apply Forall_fm. intros [[[[[r1 z1] r0] z0] a] b] _. cbn [simple_leg]. unfold simple.
    destruct (_ || _); repeat apply Forall_cons; try apply Forall_nil; exact I.
Qed.
Lemma zero_vb h ps x : sizes h -> fits3 (g_nr h) (g_nz h) x -> Forall (lands h) ps ->
  exists j, one_current vb_distribution h ps x = Ok j /\ fits3 (g_nr h) (g_nz h) j /\
  (forall u w, inw (g_nr h) (g_nz h) u w -> lv (c_phi j) u w = if interior h u w then amount Cphi u w (flat_map (azimuthal h) ps) else 0%R) /\
  (Forall long_r ps -> forall c u w, c <> Cphi -> inw (g_nr h) (g_nz h) u w -> lv (getc c j) u w = amount c u w (flat_map (rz_deps h) ps)).
Proof using.
  clear.
  intros S F L. unfold one_current. destruct (zero3_spec _ _ x F) as (a & Ea & Fa & Va). rewrite Ea. cbn [bind].
  destruct (vb_spec h ps a S Fa L) as (j & Ej & Fj & Vj). exists j. split; [exact Ej|]. split; [exact Fj|]. split.
  - intros u w W. change (c_phi j) with (getc Cphi j). rewrite (Vj Cphi u w W), (Va Cphi u w W).
    rewrite (after_other (fun c => c <> Cphi)); [|apply Forall_fm; intros p _; apply rz_deps_of|tauto].
    destruct (interior h u w); [|reflexivity]. rewrite after_inc; [lra|]. apply Forall_fm. intros p _. apply azimuthal_inc.
  - intros Lo c u w N W. rewrite (Vj c u w W), (Va c u w W).
    rewrite (after_other (fun c => c = Cphi) c u w (flat_map (azimuthal h) ps)); [|apply Forall_fm; intros p _; apply azimuthal_of|exact N].
    rewrite after_inc; [destruct (interior h u w); lra|]. apply Forall_fm. intros p Hp. rewrite Forall_forall in L, Lo.
    apply rz_deps_inc; [exact S|apply (L p Hp)|apply (Lo p Hp)].
Qed.
Lemma lands_glob i k p : 0 <= i < R -> 0 <= k < C -> lands (dom i k) p -> lands g p.
Proof using HR HC Hs Gr Gz.
  intros Hi Hk (B & L1 & L2). split; [exact B|]. unfold dom, dom_geo in *. cbn [fst snd g_nr g_nz g_d0 g_d1 g_dr g_dz] in *.
  assert (0 <= i * s /\ i * s + s <= R * s) by nia. assert (0 <= k * s /\ k * s + s <= C * s) by nia.
  rewrite Gr, Gz. lia.
Qed.

(** The radial and the longitudinal component do not depend on the division; of the azimuthal one a domain gets the deposits
    of its own particles only. *)
Theorem C121_vb_partial : forall ps all j J, sizes g -> all_fit R C s j -> fits3 (R * s) (C * s) J -> Permutation all (everyone R C ps) ->
  (forall i k, 0 <= i < R -> 0 <= k < C -> Forall (lands (dom_geo g R C s (i, k))) (ps (i, k))) -> Forall long_r all ->
  (R = 1 \/ C = 1 \/ forall i k, 0 <= i < R -> 0 <= k < C -> no_corner s (flat_map (rz_deps (dom_geo g R C s (i, k))) (ps (i, k)))) ->
  exists j' J', smb_current vb_distribution g R C s ps j = Ok j' /\ one_current vb_distribution g all J = Ok J' /\
    all_fit R C s j' /\ fits3 (R * s) (C * s) J' /\
    (forall i k c x y, c <> Cphi -> 0 <= i < R -> 0 <= k < C -> 0 <= x < s -> 0 <= y < s ->
       lv (getc c (j' (i, k))) x y = lv (getc c J') (i * s + x) (k * s + y)) /\
    (forall i k x y, 0 <= i < R -> 0 <= k < C -> 0 <= x < s -> 0 <= y < s ->
       lv (c_phi (j' (i, k))) x y = amount Cphi (i * s + x) (k * s + y) (flat_map (azimuthal g) (ps (i, k)))) /\
    (forall X Y, 0 <= X < R * s -> 0 <= Y < C * s -> lv (c_phi J') X Y = amount Cphi X Y (flat_map (azimuthal g) all)).
Proof using HR HC Hs HsL Gr Gz.
  intros ps all j J Sz Fj FJ P L Lo D.
  assert (Lg : Forall (lands g) all).
  { apply Forall_forall. intros p Hp. apply (Permutation_in _ P), In_everyone in Hp as (i & k & Hi & Hk & Hp).
    apply (lands_glob i k); auto. specialize (L i k Hi Hk). rewrite Forall_forall in L. now apply L. }
  assert (Ll : forall i k, 0 <= i < R -> 0 <= k < C -> Forall long_r (ps (i, k))).
  { intros i k Hi Hk. apply Forall_forall. intros p Hp. rewrite Forall_forall in Lo. apply Lo. apply (Permutation_in _ (Permutation_sym P)). apply In_everyone. eauto. }
  destruct (zero_vb g all J) as (J' & EJ & FJ' & VP & VJ); [exact Sz|now rewrite Gr, Gz|exact Lg|]. specialize (VJ Lo).
  rewrite Gr, Gz in FJ', VP, VJ.
  unfold smb_current.
  destruct (each_dom_spec R C (fun p x => do a <- zero3 x; vb_distribution (dom_geo g R C s p) (ps p) a) j
     (fun p x => fits3 s s x /\ (forall u w, inw s s u w -> lv (c_phi x) u w = if interior (dom_geo g R C s p) u w then amount Cphi u w (flat_map (azimuthal (dom_geo g R C s p)) (ps p)) else 0%R) /\
        forall c u w, c <> Cphi -> inw s s u w -> lv (getc c x) u w = amount c u w (flat_map (rz_deps (dom_geo g R C s p)) (ps p)))) as (j1 & E1 & P1); [lia|lia| |].
  { intros i k Hi Hk. destruct (zero_vb (dom i k) (ps (i, k)) (j (i, k)) Sz (Fj i k Hi Hk) (L i k Hi Hk)) as (x & Ex & Fx & Vp & Vx).
    exists x. split; [exact Ex|]. split; [exact Fx|]. split; [exact Vp|]. apply Vx. now apply Ll. }
  rewrite E1. cbn [bind].
  assert (Fj1 : all_fit R C s j1) by (intros i k Hi Hk; apply (P1 i k Hi Hk)).
  destruct (stitch_sum R C s HR HC Hs HsL j1 Fj1) as (j' & E' & F' & SS).
  exists j', J'. split; [exact E'|]. split; [exact EJ|]. split; [exact F'|]. split; [exact FJ'|]. split; [|split].
  - intros i k c x y N Hi Hk Hx Hy.
    rewrite (stitched_amount rz_deps ps j1 c) with (m' := j'); auto.
    + rewrite VJ; [|exact N|unfold inw; nia]. apply amount_perm. apply Permutation_flat_map. now symmetry.
    + intros; apply rz_deps_shift.
    + intros a b Ha Hb. apply Forall_fm. intros p Hp. apply (rz_deps_win (dom a b)); [exact Sz|]. specialize (L a b Ha Hb). rewrite Forall_forall in L. now apply L.
    + intros a b u w Ha Hb W. apply (P1 a b Ha Hb); auto.
  - intros i k x y Hi Hk Hx Hy. change (c_phi (j' (i, k))) with (getc Cphi (j' (i, k))).
    assert (In' : forall a b X Y, interior (dom a b) (X - a * s) (Y - b * s) = (a * s <=? X) && (X <? a * s + s) && (b * s <=? Y) && (Y <? b * s + s)).
    { intros. unfold interior, dom, dom_geo. cbn [g_nr g_nz]. lia. }
    assert (Am : forall a b X Y, amount Cphi X Y (flat_map (azimuthal g) (ps (a, b))) = amount Cphi (X - a * s) (Y - b * s) (flat_map (azimuthal (dom a b)) (ps (a, b)))).
    { intros a b X Y. rewrite (flat_map_shift (azimuthal g) (azimuthal (dom a b)) (a * s) (b * s)) by (intros; apply azimuthal_shift). rewrite amount_shift. f_equal; lia. }
    rewrite (SS Cphi (fun p X Y => if interior (dom (fst p) (snd p)) (X - fst p * s) (Y - snd p * s) then amount Cphi X Y (flat_map (azimuthal g) (ps p)) else 0%R)); auto.
    + rewrite (sum2_single R C _ i k); auto.
      * cbn [fst snd]. replace (anti s (i * s + x - i * s) (k * s + y - k * s)) with false by (unfold anti; lia).
        rewrite In'. now replace (_ && _ && _ && _) with true by lia.
      * intros a b Ha Hb N. cbn [fst snd]. destruct (anti _ _ _); [reflexivity|]. rewrite In'.
        destruct (_ && _ && _ && _) eqn:B; [|reflexivity]. exfalso.
        assert (Bs : a * s <= i * s + x /\ i * s + x < a * s + s /\ b * s <= k * s + y /\ k * s + y < b * s + s) by lia. clear B.
        assert (a = i) by (clear - Bs Hx Hs; nia). assert (b = k) by (clear - Bs Hy Hs; nia). lia.
    + intros a b u w Ha Hb W. cbn [fst snd]. replace (a * s + u - a * s) with u by lia. replace (b * s + w - b * s) with w by lia.
      destruct (P1 a b Ha Hb) as (_ & Vp & _). cbn [getc]. rewrite (Vp u w W). fold (dom a b). destruct (interior (dom a b) u w); [|reflexivity].
      rewrite Am. f_equal; lia.
    + intros a b u w Ha Hb W. cbn [fst snd]. rewrite In'. destruct (_ && _ && _ && _) eqn:B; [|reflexivity]. exfalso. apply W. unfold inw. lia.
  - intros X Y HX HY. rewrite VP by (unfold inw; lia). unfold interior. rewrite Gr, Gz. now replace (_ && _ && _ && _) with true by lia.
Qed.
End Divide.

(** a particle that crosses the border between two rows of domains in the last column of its domain: half of the current
    it makes before the border is lost *)
Definition crossing : mover := mkMover (9 / 2) (7 / 2) (7 / 2) (7 / 2) 4 3 0 1.
Definition at_dom {A} (q : Z * Z) (l : list A) : doms (list A) := fun p => if peq p q then l else [].
Ltac cells4 := cells; repeat match goal with |- context [cell_number ?x ?d] => let H := fresh in
  first [assert (H : cell_number x d = 4) by (apply cell_number_is; cbn; lra)|assert (H : cell_number x d = 5) by (apply cell_number_is; cbn; lra)]; rewrite H; clear H end.
Lemma relay1 : relay_point 3 4 (7 / 2) (9 / 2) 1 = 4%R.
Proof. unfold relay_point. rewrite (Rmin_left (3 * 1) (4 * 1)), (Rmax_right (3 * 1) (4 * 1)), Rmax_left, Rmin_left; lra. Qed.
Lemma relay2 : relay_point 3 3 (7 / 2) (7 / 2) 1 = (7 / 2)%R.
Proof. unfold relay_point. rewrite (Rmin_left (3 * 1) (3 * 1)), (Rmax_right (3 * 1) (3 * 1)), Rmax_right, Rmin_right; lra. Qed.
Theorem C121_corner_refuted : exists g R C s ps j j' J J', 4 <= s /\ g_nr g = R * s /\ g_nz g = C * s /\ all_fit R C s j /\ fits3 (R * s) (C * s) J /\
  (forall i k, 0 <= i < R -> 0 <= k < C -> Forall (lands_from_near (dom_geo g R C s (i, k))) (ps (i, k))) /\
  smb_current zigzag_distribution g R C s ps j = Ok j' /\ one_current zigzag_distribution g (everyone R C ps) J = Ok J' /\
  ~ inner_agrees R C s j' J'.
Proof.
  assert (L : forall i k, 0 <= i < 2 -> 0 <= k < 2 -> Forall (lands_from_near (dom_geo geo8 2 2 4 (i, k))) (at_dom (1, 0) [crossing] (i, k))).
  { intros i k Hi Hk. unfold at_dom. destruct (peq (i, k) (1, 0)) eqn:E; [|constructor]. constructor; [|constructor].
    apply peq_true in E. injection E as -> ->. unfold lands_from_near, dom_geo. cbn [fst snd g_d0 g_d1 g_nr g_nz g_dr g_dz geo8 m_r m_z m_ro m_zo crossing]. cells4. lia. }
  assert (F4 : all_fit 2 2 4 (fun _ => sz3 4 0)) by (intros i j _ _ []; apply sz_fits; lia).
  assert (F8 : fits3 8 8 (sz3 8 0)) by (intros []; apply sz_fits; lia).
  destruct (C121_zigzag_exact geo8 2 2 4 ltac:(lia) ltac:(lia) ltac:(lia) ltac:(lia) eq_refl eq_refl _ _ F4 L) as (j' & E' & _ & V).
  assert (Ev : everyone 2 2 (at_dom (1, 0) [crossing]) = [crossing]) by reflexivity.
  destruct (zero_zigzag geo8 [crossing] (sz3 8 0) F8) as (J' & EJ & _ & VJ).
  { constructor; [|constructor]. unfold lands_from_near. cbn [g_d0 g_d1 g_nr g_nz g_dr g_dz geo8 m_r m_z m_ro m_zo crossing]. cells4. lia. }
  exists geo8, 2, 2, 4, (at_dom (1, 0) [crossing]), (fun _ => sz3 4 0), j', (sz3 8 0), J'.
  split; [lia|]. split; [reflexivity|]. split; [reflexivity|]. split; [exact F4|]. split; [exact F8|]. split; [exact L|]. split; [exact E'|].
  split; [rewrite Ev; exact EJ|]. intros A. specialize (A 0 1 Cr 3 0 ltac:(lia) ltac:(lia) ltac:(lia) ltac:(lia)).
  rewrite V in A by lia. change (lv (getc Cr J') (0 * 4 + 3) (1 * 4 + 0)) with (lv (getc Cr J') 3 4) in A. rewrite VJ in A by (unfold inw; cbn; lia).
  rewrite sum2_zero in A.
  - revert A. cbn [flat_map]. rewrite app_nil_r. unfold zigzag. cbn [g_dr g_dz g_dt g_d0 g_d1 geo8 m_r m_z m_ro m_zo m_q m_vphi crossing]. cells4. rewrite relay1, relay2.
    cbn [amount ceqb]. bools. unfold cell_volume. assert (P := PI_RGT_0). assert (X : (0 < / PI)%R) by (apply Rinv_0_lt_compat; lra). intros C.
    match type of C with _ = ?v => assert (V' : v = (/ PI * (1 / 36))%R) by (field; lra) end. rewrite V' in C. lra.
  - intros a b Ha Hb. destruct (anti _ _ _) eqn:An; [reflexivity|]. unfold at_dom. destruct (peq (a, b) (1, 0)) eqn:E; [|reflexivity].
    apply peq_true in E. injection E as -> ->. discriminate An.
Qed.

(** Villasenor-Buneman: the azimuthal current that a particle makes in the first column of the next domain is lost *)
Definition geo48 : geo := mkGeo 4 8 0 0 1 1 true true true true 1.
Definition spinning : mover := mkMover (7 / 4) (7 / 2) (5 / 4) (7 / 2) 1 3 1 1.
Theorem C121_azimuthal_refuted : exists g R C s ps j j' J J', 4 <= s /\ g_nr g = R * s /\ g_nz g = C * s /\ sizes g /\ all_fit R C s j /\ fits3 (R * s) (C * s) J /\
  (forall i k, 0 <= i < R -> 0 <= k < C -> Forall (lands (dom_geo g R C s (i, k))) (ps (i, k))) /\ Forall long_r (everyone R C ps) /\
  smb_current vb_distribution g R C s ps j = Ok j' /\ one_current vb_distribution g (everyone R C ps) J = Ok J' /\
  ~ inner_agrees R C s j' J'.
Proof.
  assert (L : forall i k, 0 <= i < 1 -> 0 <= k < 2 -> Forall (lands (dom_geo geo48 1 2 4 (i, k))) (at_dom (0, 0) [spinning] (i, k))).
  { intros i k Hi Hk. unfold at_dom. destruct (peq (i, k) (0, 0)) eqn:E; [|constructor]. constructor; [|constructor].
    apply peq_true in E. injection E as -> ->. unfold lands, bound, dom_geo. cbn [fst snd g_d0 g_d1 g_nr g_nz g_dr g_dz geo48 m_r m_z m_ro m_zo m_cr m_cz spinning].
    cells4. repeat split; try lra; lia. }
  assert (F4 : all_fit 1 2 4 (fun _ => sz3 4 0)) by (intros i j _ _ []; apply sz_fits; lia).
  set (J0 := mkGrid3 (new_grid 4 8 2 (fun _ _ => 0%R)) (new_grid 4 8 2 (fun _ _ => 0%R)) (new_grid 4 8 2 (fun _ _ => 0%R))).
  assert (F8 : fits3 4 8 J0) by (intros []; repeat split; cbn; lia).
  assert (Ev : everyone 1 2 (at_dom (0, 0) [spinning]) = [spinning]) by reflexivity.
  assert (Lo : Forall long_r [spinning]).
  { constructor; [|constructor]. unfold long_r, mnzl. cbn [m_r m_ro spinning]. rewrite Rabs_right by lra. 
    assert (1 <= 10 ^ 14)%R by (apply pow_R1_Rle; lra). replace (10 ^ 15)%R with (10 * 10 ^ 14)%R by (cbn; ring).
    rewrite Rinv_mult. assert (/ 10 ^ 14 <= / 1)%R by (apply Rinv_le_contravar; lra). lra. }
  assert (Sz : sizes geo48) by (unfold sizes, geo48; cbn; lra).
  destruct (C121_vb_partial geo48 1 2 4 ltac:(lia) ltac:(lia) ltac:(lia) ltac:(lia) eq_refl eq_refl (at_dom (0, 0) [spinning]) [spinning] (fun _ => sz3 4 0) J0 Sz F4 F8)
    as (j' & J' & E' & EJ & _ & _ & _ & Vd & VJ); [rewrite Ev; reflexivity|exact L|exact Lo|now left|].
  exists geo48, 1, 2, 4, (at_dom (0, 0) [spinning]), (fun _ => sz3 4 0), j', J0, J'.
  split; [lia|]. split; [reflexivity|]. split; [reflexivity|]. split; [exact Sz|]. split; [exact F4|]. split; [exact F8|]. split; [exact L|].
  split; [rewrite Ev; exact Lo|]. split; [exact E'|]. split; [rewrite Ev; exact EJ|].
  intros A. specialize (A 0 1 Cphi 1 0 ltac:(lia) ltac:(lia) ltac:(lia) ltac:(lia)). cbn [getc] in A. rewrite Vd in A by lia.
  change (0 * 4 + 1) with 1 in A. change (1 * 4 + 0) with 4 in A. rewrite VJ in A by lia.
  revert A. unfold at_dom. change (peq (0, 1) (0, 0)) with false. cbn [flat_map amount app]. unfold azimuthal.
  cbn [g_dr g_dz g_dt g_d0 g_d1 geo48 m_r m_z m_ro m_zo m_q m_vphi m_cr m_cz spinning app].
  cbn [amount ceqb]. bools. unfold cell_volume, cyl_rng_vol. assert (P := PI_RGT_0). assert (X : (0 < / PI)%R) by (apply Rinv_0_lt_compat; lra). intros A.
  match type of A with _ = ?v => assert (V' : v = (/ PI * (5 / 72))%R) by (field; lra) end. rewrite V' in A. lra.
Qed.

(** Villasenor-Buneman: a particle whose azimuthal deposits all fall into its own domain *)
Definition own_phi (h : geo) (p : mover) : Prop :=
  m_vphi p = 0%R \/ (m_cr p < g_d0 h + g_nr h - 1 /\ m_cz p < g_d1 h + g_nz h - 1).
Lemma amount_still g c x y p : m_vphi p = 0%R -> amount c x y (azimuthal g p) = 0%R.
Proof.
  intros Z. unfold azimuthal. rewrite Z. cbn [amount]. 
  repeat match goal with |- context [if ?b then _ else _] => destruct b end; lra.
Qed.
Lemma amount_fm_zero {A} c x y (f : A -> list dep) l : (forall p, In p l -> amount c x y (f p) = 0%R) -> amount c x y (flat_map f l) = 0%R.
Proof.
  induction l as [|p l IH]; intros H; [reflexivity|]. cbn [flat_map]. rewrite amount_app, (H p) by (now left). rewrite IH; [lra|]. intros q Hq. apply H. now right.
Qed.
Theorem C121_vb_own_partial : forall g R C s, 1 <= R -> 1 <= C -> 4 <= s -> s + 4 < 2 ^ 32 -> g_nr g = R * s -> g_nz g = C * s ->
  forall ps all j J, sizes g -> all_fit R C s j -> fits3 (R * s) (C * s) J -> Permutation all (everyone R C ps) ->
  (forall i k, 0 <= i < R -> 0 <= k < C -> Forall (lands (dom_geo g R C s (i, k))) (ps (i, k))) -> Forall long_r all ->
  (R = 1 \/ C = 1 \/ forall i k, 0 <= i < R -> 0 <= k < C -> no_corner s (flat_map (rz_deps (dom_geo g R C s (i, k))) (ps (i, k)))) ->
  (forall i k, 0 <= i < R -> 0 <= k < C -> Forall (own_phi (dom_geo g R C s (i, k))) (ps (i, k))) ->
  exists j' J', smb_current vb_distribution g R C s ps j = Ok j' /\ one_current vb_distribution g all J = Ok J' /\ same_current R C s j' J'.
Proof.
  intros g R C s HR HC Hs HsL Gr Gz ps all j J Sz Fj FJ P L Lo D O.
  destruct (C121_vb_partial g R C s HR HC Hs HsL Gr Gz ps all j J Sz Fj FJ P L Lo D) as (j' & J' & E' & EJ & F' & FJ' & Vrz & Vd & VJ).
  exists j', J'. split; [exact E'|]. split; [exact EJ|]. split; [exact FJ'|]. split; [exact F'|].
  intros i k c x y Hi Hk Hx Hy. destruct (ceqb c Cphi) eqn:Ec; [|apply Vrz; auto; intros ->; discriminate].
  destruct c; try discriminate. cbn [getc]. rewrite Vd by auto. rewrite VJ by nia.
  rewrite (amount_perm _ _ _ _ _ (Permutation_flat_map _ P)). 
  rewrite amount_everyone by lia. rewrite (sum2_single R C _ i k); auto.
  intros a b Ha Hb N. apply amount_fm_zero. intros p Hp.
  specialize (L a b Ha Hb). specialize (O a b Ha Hb). rewrite Forall_forall in L, O. specialize (L p Hp). specialize (O p Hp).
  destruct O as [O|(O1 & O2)]; [now apply amount_still|]. destruct L as (_ & L1 & L2).
  unfold dom_geo in *. cbn [fst snd g_nr g_nz g_d0 g_d1] in *.
  apply (amount_none (fun u w => a * s <= u < a * s + s /\ b * s <= w < b * s + s)).
  - unfold azimuthal. repeat apply Forall_cons; try apply Forall_nil; lia.
  - intros (I1 & I2). destruct N as [N|N]; apply N; nia.
Qed.

(** * C122: the fields of a run, currents included *)
(** PiCoPiC.cpp:326-336 without the particles: [solve_maxvell] with the current of the round before, then [solve_current] *)
Fixpoint smb_em (dist : geo -> list mover -> grid3 R -> outcome (grid3 R)) (mu : R) (g : geo) (R C s : Z) (eps sg : doms (grid Rdefinitions.R))
    (pss : list (doms (list mover))) (m : doms yee) (j : doms (grid3 Rdefinitions.R)) : outcome (doms yee * doms (grid3 Rdefinitions.R)) :=
  match pss with
  | [] => Ok (m, j)
  | ps :: pss' => do m' <- smb_step mu g R C s eps sg j m; do j' <- smb_current dist g R C s ps j; smb_em dist mu g R C s eps sg pss' m' j'
  end.
(** the same for one domain *)
Fixpoint one_em (dist : geo -> list mover -> grid3 R -> outcome (grid3 R)) (mu : R) (g : geo) (eps sg : grid R)
    (pss : list (list mover)) (y : yee) (j : grid3 R) : outcome (yee * grid3 R) :=
  match pss with
  | [] => Ok (y, j)
  | ps :: pss' => do y' <- yee_step mu g eps sg j y; do j' <- one_current dist g ps j; one_em dist mu g eps sg pss' y' j'
  end.
(** the particles of one round: those of the domains are those of the whole area, each in the domain it is in now, at most
    one cell away before *)
Definition zigzag_round (g : geo) (R C s : Z) (ps : doms (list mover)) (all : list mover) : Prop :=
  Permutation all (everyone R C ps) /\
  (forall i k, 0 <= i < R -> 0 <= k < C -> Forall (lands_from_near (dom_geo g R C s (i, k))) (ps (i, k))) /\
  (R = 1 \/ C = 1 \/ forall i k, 0 <= i < R -> 0 <= k < C -> Forall (off_corner (dom_geo g R C s (i, k))) (ps (i, k))).
Definition vb_round (g : geo) (R C s : Z) (ps : doms (list mover)) (all : list mover) : Prop :=
  Permutation all (everyone R C ps) /\
  (forall i k, 0 <= i < R -> 0 <= k < C -> Forall (lands (dom_geo g R C s (i, k))) (ps (i, k))) /\ Forall long_r all /\
  (R = 1 \/ C = 1 \/ forall i k, 0 <= i < R -> 0 <= k < C -> no_corner s (flat_map (rz_deps (dom_geo g R C s (i, k))) (ps (i, k)))) /\
  (forall i k, 0 <= i < R -> 0 <= k < C -> Forall (own_phi (dom_geo g R C s (i, k))) (ps (i, k))).
Section C122.
Variable mu : R.
Variable g : geo.
Variables R C s : Z.
Hypothesis HR : 1 <= R.
Hypothesis HC : 1 <= C.
Hypothesis Hs : 4 <= s.
Hypothesis HsL : s + 4 < 2 ^ 32.
Hypothesis Gr : g_nr g = R * s.
Hypothesis Gz : g_nz g = C * s.
Hypothesis GrL : g_nr g < 2 ^ 32.
Hypothesis GzL : g_nz g < 2 ^ 32.
Variables eps sg : doms (grid Rdefinitions.R).
Variables Eps Sg : grid Rdefinitions.R.
Hypothesis Heps : inner2 R C s eps Eps.
Hypothesis Hsg : inner2 R C s sg Sg.

Lemma em_run dist (round : doms (list mover) -> list mover -> Prop) :
  (forall ps all j J, all_fit R C s j -> fits3 (R * s) (C * s) J -> round ps all ->
     exists j' J', smb_current dist g R C s ps j = Ok j' /\ one_current dist g all J = Ok J' /\ same_current R C s j' J') ->
  forall pss alls m y j J, Forall2 round pss alls -> same_fields g R C s m y -> same_current R C s j J ->
  exists m' y' j' J', smb_em dist mu g R C s eps sg pss m j = Ok (m', j') /\ one_em dist mu g Eps Sg alls y J = Ok (y', J') /\
    same_fields g R C s m' y' /\ same_current R C s j' J'.
Proof using HR HC Hs HsL Gr Gz GrL GzL Heps Hsg.
  intros St pss alls m y j J F. revert m y j J. induction F as [|ps all pss alls Hp F IH]; intros m y j J SF SJ; cbn [smb_em one_em].
  - exists m, y, j, J. auto.
  - destruct (C65_step mu g R C s HR HC Hs HsL Gr Gz GrL GzL eps sg Eps Sg Heps Hsg j J m y SF SJ) as (m1 & y1 & E1 & E2 & S1).
    destruct (St ps all j J) as (j1 & J1 & E3 & E4 & S2); [apply SJ|apply SJ|exact Hp|].
    rewrite E1, E2, E3, E4. cbn [bind]. now apply IH.
Qed.
Theorem C122_zigzag_partial : forall pss alls m y j J, Forall2 (zigzag_round g R C s) pss alls -> same_fields g R C s m y -> same_current R C s j J ->
  exists m' y' j' J', smb_em zigzag_distribution mu g R C s eps sg pss m j = Ok (m', j') /\ one_em zigzag_distribution mu g Eps Sg alls y J = Ok (y', J') /\
    same_fields g R C s m' y' /\ same_current R C s j' J'.
Proof using HR HC Hs HsL Gr Gz GrL GzL Heps Hsg.
  apply em_run. intros ps all j J Fj FJ (P & L & D).
  destruct (C121_zigzag_partial g R C s HR HC Hs HsL Gr Gz ps all j J Fj FJ P L D) as (j' & J' & E1 & E2 & S & _). eauto.
Qed.
Theorem C122_vb_partial : sizes g -> forall pss alls m y j J, Forall2 (vb_round g R C s) pss alls -> same_fields g R C s m y -> same_current R C s j J ->
  exists m' y' j' J', smb_em vb_distribution mu g R C s eps sg pss m j = Ok (m', j') /\ one_em vb_distribution mu g Eps Sg alls y J = Ok (y', J') /\
    same_fields g R C s m' y' /\ same_current R C s j' J'.
Proof using HR HC Hs HsL Gr Gz GrL GzL Heps Hsg.
  intros Sz. apply em_run. intros ps all j J Fj FJ (P & L & Lo & D & O).
  now apply C121_vb_own_partial.
Qed.
End C122.

(** a particle that crosses the border between two columns of domains *)
Definition passing : mover := mkMover (7 / 4) (17 / 4) (5 / 4) (15 / 4) 1 4 1 1.
Lemma relay3 : relay_point 3 4 (15 / 4) (17 / 4) 1 = 4%R.
Proof. unfold relay_point. rewrite (Rmin_left (3 * 1) (4 * 1)), (Rmax_right (3 * 1) (4 * 1)), Rmax_left, Rmin_left; lra. Qed.
Lemma relay4 : relay_point 1 1 (5 / 4) (7 / 4) 1 = (3 / 2)%R.
Proof. unfold relay_point. rewrite (Rmin_left (1 * 1) (1 * 1)), (Rmax_right (1 * 1) (1 * 1)), Rmax_right, Rmin_right; lra. Qed.
Example C122_zigzag_ex : zigzag_round geo8 2 2 4 (at_dom (0, 1) [passing]) [passing] /\
  inner2 2 2 4 (fun _ => sz 4 1) (sz 8 1) /\ inner2 2 2 4 (fun _ => sz 4 0) (sz 8 0) /\
  same_fields geo8 2 2 4 (fun _ => mkYee (sz3 4 0) (sz3 4 0) (sz3 4 0)) (mkYee (sz3 8 0) (sz3 8 0) (sz3 8 0)) /\
  same_current 2 2 4 (fun _ => sz3 4 1) (sz3 8 1) /\
  exists j', smb_current zigzag_distribution geo8 2 2 4 (at_dom (0, 1) [passing]) (fun _ => sz3 4 1) = Ok j' /\
    lv (c_z (j' (0, 0))) 1 3 = (5 / 96 * / PI)%R /\ lv (c_z (j' (0, 1))) 1 0 = (1 / 32 * / PI)%R.
Proof.
  assert (Ev : everyone 2 2 (at_dom (0, 1) [passing]) = [passing]) by reflexivity.
  assert (Zr : zigzag_round geo8 2 2 4 (at_dom (0, 1) [passing]) [passing]).
  { split; [rewrite Ev; reflexivity|]. split; [|right; right]; intros i k Hi Hk; unfold at_dom; (destruct (peq (i, k) (0, 1)) eqn:E; [|apply Forall_nil]); (apply Forall_cons; [|apply Forall_nil]);
    apply peq_true in E; injection E as -> ->; unfold lands_from_near, off_corner, from_r, from_z, dom_geo; cbn [fst snd g_d0 g_d1 g_nr g_nz g_dr g_dz geo8 m_r m_z m_ro m_zo passing]; cells4; lia. }
  split; [exact Zr|]. split; [apply C65_example|]. split; [apply C65_example|]. split; [apply C65_example|].
  assert (SJ : same_current 2 2 4 (fun _ => sz3 4 1) (sz3 8 1)) by apply C65_example. split; [exact SJ|].
  destruct Zr as (P & L & D).
  destruct (C121_zigzag_partial geo8 2 2 4 ltac:(lia) ltac:(lia) ltac:(lia) ltac:(lia) eq_refl eq_refl _ _ _ _ (proj1 (proj2 SJ)) (proj1 SJ) P L D)
    as (j' & J' & E1 & E2 & (_ & _ & A) & V). exists j'. split; [exact E1|].
  assert (Pi := PI_RGT_0).
  split; [change (c_z (j' (0, 0))) with (getc Cz (j' (0, 0)))|change (c_z (j' (0, 1))) with (getc Cz (j' (0, 1)))];
    rewrite A, V by lia; cbn [flat_map]; rewrite app_nil_r; unfold zigzag; cbn [g_dr g_dz g_dt g_d0 g_d1 geo8 m_r m_z m_ro m_zo m_q m_vphi passing];
    cells4; rewrite relay3, relay4; cbn [amount ceqb]; bools; unfold cell_volume; field; lra.
Qed.
Example C122_vb_ex : vb_round geo48 1 2 4 (at_dom (0, 1) [passing]) [passing] /\ sizes geo48 /\
  amount Cphi 1 4 (azimuthal geo48 passing) <> 0%R.
Proof.
  assert (Ev : everyone 1 2 (at_dom (0, 1) [passing]) = [passing]) by reflexivity.
  split; [|split].
  - split; [rewrite Ev; reflexivity|]. split; [|split; [|split]].
    + intros i k Hi Hk; unfold at_dom; (destruct (peq (i, k) (0, 1)) eqn:E; [|apply Forall_nil]); (apply Forall_cons; [|apply Forall_nil]);
      apply peq_true in E; injection E as -> ->; unfold lands, bound, dom_geo; cbn [fst snd g_d0 g_d1 g_nr g_nz g_dr g_dz geo48 m_r m_z m_ro m_zo m_cr m_cz passing]; cells4; repeat split; try lra; lia.
    + constructor; [|constructor]. unfold long_r, mnzl. cbn [m_r m_ro passing]. rewrite Rabs_right by lra. 
      assert (1 <= 10 ^ 14)%R by (apply pow_R1_Rle; lra). replace (10 ^ 15)%R with (10 * 10 ^ 14)%R by (cbn; ring).
      rewrite Rinv_mult. assert (/ 10 ^ 14 <= / 1)%R by (apply Rinv_le_contravar; lra). lra.
    + now left.
    + intros i k Hi Hk; unfold at_dom; destruct (peq (i, k) (0, 1)) eqn:E; [|apply Forall_nil]. apply Forall_cons; [|apply Forall_nil]. right.
      apply peq_true in E; injection E as -> ->. unfold dom_geo; cbn [fst snd g_d0 g_d1 g_nr g_nz geo48 m_cr m_cz passing]. lia.
  - unfold sizes, geo48; cbn; lra.
  - unfold azimuthal. cbn [g_dr g_dz g_dt g_d0 g_d1 geo48 m_r m_z m_ro m_zo m_q m_vphi m_cr m_cz passing amount ceqb]. bools.
    unfold cell_volume, cyl_rng_vol. assert (P := PI_RGT_0). assert (X : (0 < / PI)%R) by (apply Rinv_0_lt_compat; lra). intros A.
    match type of A with ?v = _ => assert (V' : v = (/ PI * (5 / 36))%R) by (field; lra) end. rewrite V' in A. lra.
Qed.
Print Assumptions C121_zigzag_exact.
Print Assumptions C121_zigzag_partial.
Print Assumptions C121_vb_partial.
Print Assumptions C121_vb_own_partial.
Print Assumptions C121_corner_refuted.
Print Assumptions C121_azimuthal_refuted.
Print Assumptions C122_zigzag_partial.
Print Assumptions C122_vb_partial.
