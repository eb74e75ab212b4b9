(** C176: a run takes place: no round stops on the way, and every particle stays in the area. *)
From Coq Require Import ZifyBool Reals Lra Psatz Permutation.
From Verif Require Import Base RndUtil DecompModel DecompProofs CollectorModel CollectorProofs ListUtil PushModel ThmPush ParticleModel ParticleProofs StepModel
  ThmParticle ThmInit ThmDecomp ThmStep ThmFlight GridModel GridProofs OverlayModel YeeModel YeeProofs ThmYee ExtModel ThmExt ThmInterp CurrentModel CurrentProofs ThmCurrent ThmCurrent2
  SumUtil YeeSmb ThmYeeSmb SmbCorner SmbCurrent ThmDivide RoundModel RoundProofs ThmRound BeamModel FullModel ThmFull CollRoundModel ThmCollRound ThmSpeed.
From Verif Require FieldMpi.
Open Scope Z_scope.

(** ** specification *)
(** a particle in the half plane, between the mirrors of the walls *)
Definition between (g : YeeModel.geo) (p : part) : Prop :=
  (pos_phi p = 0 /\ g_dr g / 2 <= pos_r p <= IZR (g_nr g) * g_dr g - g_dr g / 2 /\ g_dz g / 2 <= pos_z p <= IZR (g_nz g) * g_dz g - g_dz g / 2)%R.
(** a particle that is not exactly on a line between two domains *)
Definition off_lines (g : YeeModel.geo) (R C s : Z) (p : part) : Prop :=
  (forall n, 0 < n < R -> pos_r p <> (IZR (n * s) * g_dr g)%R) /\ (forall n, 0 < n < C -> pos_z p <> (IZR (n * s) * g_dz g)%R).
Definition everybody (R C : Z) (P : Z -> Z -> pt -> Prop) (st : smb pt) : Prop :=
  forall i k t q, 0 <= i < R -> 0 <= k < C -> In t (st i k) -> In q (snd t) -> P i k q.
(** the fields of all domains have the sizes of the domains *)
Definition sized (R C s : Z) (m : doms yee) : Prop :=
  all_fit R C s (fun p => y_e (m p)) /\ all_fit R C s (fun p => y_h (m p)) /\ all_fit R C s (fun p => y_t (m p)).
(** a particle of domain (i, k) before a round: between the mirrors, slower than light, in the cells of the domain *)
Definition lively (c : Rdefinitions.R) (g : YeeModel.geo) (s i k : Z) (q : pt) : Prop :=
  between g (now q) /\ slower c q /\
  i * s <= cell_number (pos_r (now q)) (g_dr g) < i * s + s /\ k * s <= cell_number (pos_z (now q)) (g_dz g) < k * s + s.
(** collisions that do something with the particles of every such domain *)
Definition total (c : Rdefinitions.R) (g : YeeModel.geo) (R C s : Z) (impulse : Z -> Z -> domain pt -> domain pt -> Prop) : Prop :=
  forall i k d, 0 <= i < R -> 0 <= k < C -> everywhere (lively c g s i k) d -> exists d', impulse i k d d'.
(** a state from which a round takes place *)
Definition living (c : Rdefinitions.R) (g : YeeModel.geo) (R C s : Z) (ids : list Z) (w : world) : Prop :=
  sized R C s (w_f w) /\ all_fit R C s (w_j w) /\ ids_ok {| nr := R * s; nz := C * s; rd_ := R; zd_ := C |} ids (w_p w) /\
  everybody R C (lively c g s) (w_p w).
(** no particle sits exactly on a line between two domains *)
Definition clear (g : YeeModel.geo) (R C s : Z) (w : world) : Prop := everybody R C (fun _ _ q => off_lines g R C s (now q)) (w_p w).

(** ** the reflection of a particle that moved less than half a cell *)
Definition step1 (w0 w1 : bool) (d S x x' : R) : Prop :=
  (x' = x \/ (w0 = true /\ x < d / 2 /\ x' = d - x) \/ (w1 = true /\ S - d / 2 < x /\ x' = 2 * S - d - x))%R.
Lemma reflect_near G p : (0 < ParticleModel.g_dr G /\ 2 * ParticleModel.g_dr G <= g_size_r G)%R -> (0 < ParticleModel.g_dz G /\ 2 * ParticleModel.g_dz G <= g_size_z G)%R ->
  (w_r0 G = true -> 0 < local_r G p)%R -> (w_rr G = true -> local_r G p < g_size_r G)%R ->
  (w_z0 G = true -> 0 < local_z G p)%R -> (w_zz G = true -> local_z G p < g_size_z G)%R ->
  exists p', (forall fuel, (1 <= fuel)%nat -> reflect G fuel p = Some p') /\ pos_phi p' = pos_phi p /\
    step1 (w_r0 G) (w_rr G) (ParticleModel.g_dr G) (g_size_r G) (local_r G p) (local_r G p') /\
    step1 (w_z0 G) (w_zz G) (ParticleModel.g_dz G) (g_size_z G) (local_z G p) (local_z G p') /\
    (local_r G p <> 0%R -> local_z G p <> 0%R -> ThmParticle.inside G p') /\
    (local_r G p = 0%R \/ local_z G p = 0%R -> local_r G p' = local_r G p /\ local_z G p' = local_z G p).
Proof.
  intros [D1 D2] [D3 D4] A1 A2 A3 A4.
  set (x := local_r G p) in *. set (y := local_z G p) in *.
  destruct (isnormal x && isnormal y && beyond G x y) eqn:B.
  - (* one pass *)
    set (x1 := if (Rltb (radius_wall G) x && w_rr G)%bool then (radius_wall G * 2 - x)%R else if (Rltb x (half_dr G) && w_r0 G)%bool then (ParticleModel.g_dr G - x)%R else x).
    set (y1 := if (Rltb (longitude_wall G) y && w_zz G)%bool then (longitude_wall G * 2 - y)%R else if (Rltb y (half_dz G) && w_z0 G)%bool then (ParticleModel.g_dz G - y)%R else y).
    assert (X1 : step1 (w_r0 G) (w_rr G) (ParticleModel.g_dr G) (g_size_r G) x x1 /\ (w_rr G = true -> x1 <= g_size_r G - ParticleModel.g_dr G / 2)%R /\ (w_r0 G = true -> ParticleModel.g_dr G / 2 <= x1)%R).
    { unfold x1, radius_wall, half_dr, step1. unfold Rltb.
      destruct (w_rr G), (w_r0 G); repeat match goal with |- context [Rlt_dec ?u ?v] => destruct (Rlt_dec u v) end; cbn [andb];
        repeat match goal with H : true = true -> _ |- _ => specialize (H eq_refl) end; repeat split; intros; try discriminate; try lra;
        first [left; reflexivity|right; left; repeat split; lra|right; right; repeat split; lra]. }
    assert (Y1 : step1 (w_z0 G) (w_zz G) (ParticleModel.g_dz G) (g_size_z G) y y1 /\ (w_zz G = true -> y1 <= g_size_z G - ParticleModel.g_dz G / 2)%R /\ (w_z0 G = true -> ParticleModel.g_dz G / 2 <= y1)%R).
    { unfold y1, longitude_wall, half_dz, step1. unfold Rltb.
      destruct (w_zz G), (w_z0 G); repeat match goal with |- context [Rlt_dec ?u ?v] => destruct (Rlt_dec u v) end; cbn [andb];
        repeat match goal with H : true = true -> _ |- _ => specialize (H eq_refl) end; repeat split; intros; try discriminate; try lra;
        first [left; reflexivity|right; left; repeat split; lra|right; right; repeat split; lra]. }
    assert (Pass : exists u v, refl_pass G (x, y, vel_r p, vel_z p) = (x1, y1, u, v)).
    { destruct X1 as (_ & X1 & X2). destruct Y1 as (_ & Y1 & Y2). unfold x1, y1, refl_pass, refl_rr, refl_zz, refl_r0, refl_z0, radius_wall, longitude_wall, half_dr, half_dz, Rltb in *.
      destruct (w_rr G), (w_r0 G), (w_zz G), (w_z0 G);
        repeat match goal with H : true = true -> _ |- _ => specialize (H eq_refl) end;
        repeat (match goal with |- context [Rlt_dec ?u ?v] => destruct (Rlt_dec u v) end; cbn [andb]; try (exfalso; lra));
        do 2 eexists; reflexivity. }
    destruct Pass as (u & v & Pass).
    assert (Nb : beyond G x1 y1 = false).
    { destruct X1 as (_ & X1 & X2). destruct Y1 as (_ & Y1 & Y2). clearbody x1 y1. unfold beyond, radius_wall, longitude_wall, half_dr, half_dz, Rltb.
      destruct (w_rr G), (w_r0 G), (w_zz G), (w_z0 G);
        repeat match goal with H : true = true -> _ |- _ => specialize (H eq_refl) end;
        repeat (match goal with |- context [Rlt_dec ?u ?v] => destruct (Rlt_dec u v) end; cbn [andb orb]; try (exfalso; lra)); reflexivity. }
    exists {| pos_r := x1 + IZR (g_bot G) * ParticleModel.g_dr G; pos_phi := pos_phi p; pos_z := y1 + IZR (g_left G) * ParticleModel.g_dz G;
              vel_r := u; vel_phi := vel_phi p; vel_z := v; p_sin := p_sin p; weight := weight p |}%R.
    assert (L1 : forall a b, (a + b - b = a)%R) by (intros; ring).
    unfold ThmParticle.inside, local_r, local_z. cbn [pos_r pos_phi pos_z]. rewrite !L1. fold (local_r G p) (local_z G p). fold x y.
    split; [|split; [reflexivity|split; [apply X1|split; [apply Y1|split]]]].
    + intros [|f] Hf; [lia|]. unfold reflect. change (pos_r p - IZR (g_bot G) * ParticleModel.g_dr G)%R with x. change (pos_z p - IZR (g_left G) * ParticleModel.g_dz G)%R with y.
      cbn [refl_loop]. rewrite B, Pass. destruct f; cbn [refl_loop]; rewrite Nb, andb_false_r; reflexivity.
    + intros _ _. destruct X1 as (_ & X1 & X2). destruct Y1 as (_ & Y1 & Y2). auto.
    + apply andb_prop in B as [B _]. apply andb_prop in B as [B1 B2]. unfold isnormal in B1, B2. destruct (Req_EM_T x 0); [discriminate|]. destruct (Req_EM_T y 0); [discriminate|]. tauto.
  - exists {| pos_r := x + IZR (g_bot G) * ParticleModel.g_dr G; pos_phi := pos_phi p; pos_z := y + IZR (g_left G) * ParticleModel.g_dz G;
              vel_r := vel_r p; vel_phi := vel_phi p; vel_z := vel_z p; p_sin := p_sin p; weight := weight p |}%R.
    assert (L1 : forall a b, (a + b - b = a)%R) by (intros; ring).
    unfold ThmParticle.inside, local_r, local_z. cbn [pos_r pos_phi pos_z]. rewrite !L1. fold (local_r G p) (local_z G p). fold x y.
    split; [|split; [reflexivity|split; [now left|split; [now left|split; [|auto]]]]].
    + intros f _. unfold reflect. change (pos_r p - IZR (g_bot G) * ParticleModel.g_dr G)%R with x. change (pos_z p - IZR (g_left G) * ParticleModel.g_dz G)%R with y.
      destruct f; cbn [refl_loop]; rewrite B; reflexivity.
    + intros N1 N2. unfold isnormal in B. destruct (Req_EM_T x 0); [tauto|]. destruct (Req_EM_T y 0); [tauto|]. cbn [andb] in B.
      unfold beyond, radius_wall, longitude_wall, half_dr, half_dz, Rltb in B.
      destruct (w_rr G), (w_r0 G), (w_zz G), (w_z0 G);
        repeat (match type of B with context [Rlt_dec ?u ?v] => destruct (Rlt_dec u v) end; cbn [andb orb] in B; try discriminate); repeat split; intros; try discriminate; lra.
Qed.
Lemma one_dim (w0 w1 : bool) d S X T r x x' : (0 < d)%R -> (2 * d <= S)%R -> (if w0 then X = 0 else 4 * d <= X)%R -> (if w1 then X + S = T else X + S + 4 * d <= T)%R ->
  (X <= r <= X + S)%R -> (d / 2 <= r <= T - d / 2)%R -> (Rabs (x - r) < d / 2)%R -> step1 w0 w1 d S (x - X) (x' - X) ->
  (0 < x' < T)%R /\ (Rabs (x' - r) < d)%R /\ ((w1 = true -> x' - X <= S - d / 2)%R -> (w0 = true -> d / 2 <= x' - X)%R -> (d / 2 <= x' <= T - d / 2)%R).
Proof.
  intros D1 D2 H0 H1 Hr B A St. apply Rabs_def2 in A. split; [|split]; [| |intros I1 I2].
  all: unfold step1 in St; destruct w0, w1; repeat match goal with H : true = true -> _ |- _ => specialize (H eq_refl) end; try apply Rabs_def1;
    destruct St as [St|[(E & St1 & St2)|(E & St1 & St2)]]; try discriminate; lra.
Qed.

(** ** the fields *)
Lemma fields_step mu g R C s eps sg j m : 1 <= R -> 1 <= C -> 4 <= s -> s + 4 < 2 ^ 32 ->
  (forall i k, 0 <= i < R -> 0 <= k < C -> fits2 s s (eps (i, k))) -> (forall i k, 0 <= i < R -> 0 <= k < C -> fits2 s s (sg (i, k))) ->
  all_fit R C s j -> sized R C s m -> exists m', smb_step mu g R C s eps sg j m = Ok m' /\ sized R C s m'.
Proof.
  intros HR HC Hs HsL Fe Fs Fj (Me & Mh & Mt). unfold smb_step.
  destruct (each_dom_spec R C (fun p y =>
     do e <- calc_field_e (dom_geo g R C s p) (y_t y) (j p) (eps p) (sg p) (y_e y); Ok (mkYee e (y_h y) (y_t y))) m
     (fun p z => fits3 s s (y_e z) /\ fits3 s s (y_h z) /\ fits3 s s (y_t z))) as (m1 & E1 & P1); [lia|lia| |].
  { intros i k Hi Hk. destruct (calc_field_e_spec (dom_geo g R C s (i, k)) (y_t (m (i, k))) (j (i, k)) (eps (i, k)) (sg (i, k))
      (Mt i k Hi Hk) (Fj i k Hi Hk) (Fe i k Hi Hk) (Fs i k Hi Hk) (y_e (m (i, k))) (Me i k Hi Hk)) as (e' & Ee & Fe' & _);
      [cbn [dom_geo g_nr]; lia|cbn [dom_geo g_nz]; lia|].
    rewrite Ee. cbn [bind]. eexists. split; [reflexivity|]. cbn [y_e y_h y_t]. split; [exact Fe'|]. split; [exact (Mh i k Hi Hk)|exact (Mt i k Hi Hk)]. }
  rewrite E1. cbn [bind].
  destruct (stitch_sum R C s HR HC Hs HsL (fun p => y_e (m1 p))) as (e2 & E2 & F2 & _); [intros i k Hi Hk; apply (P1 i k Hi Hk)|]. rewrite E2. cbn [bind].
  destruct (each_dom_spec R C (fun p y =>
     do (h, t) <- calc_field_h mu (dom_geo g R C s p) (y_e y) (y_h y) (y_t y); Ok (mkYee (y_e y) h t)) (fun p => mkYee (e2 p) (y_h (m1 p)) (y_t (m1 p)))
     (fun p z => fits3 s s (y_e z) /\ fits3 s s (y_h z) /\ fits3 s s (y_t z))) as (m3 & E3 & P3); [lia|lia| |].
  { intros i k Hi Hk. cbn [y_e y_h y_t]. destruct (P1 i k Hi Hk) as (_ & P1h & P1t).
    destruct (calc_field_h_spec mu (dom_geo g R C s (i, k)) (e2 (i, k)) (F2 i k Hi Hk) (y_h (m1 (i, k))) (y_t (m1 (i, k))) P1h P1t) as (h' & t' & Eh & Fh' & Ft' & _); [cbn [dom_geo g_nr]; lia|].
    rewrite Eh. cbn [bind]. eexists. split; [reflexivity|]. cbn [y_e y_h y_t]. split; [exact (F2 i k Hi Hk)|]. split; [exact Fh'|exact Ft']. }
  rewrite E3. cbn [bind].
  destruct (stitch_sum R C s HR HC Hs HsL (fun p => y_h (m3 p))) as (h4 & E4 & F4 & _); [intros i k Hi Hk; apply (P3 i k Hi Hk)|]. rewrite E4. cbn [bind].
  destruct (stitch_sum R C s HR HC Hs HsL (fun p => y_t (m3 p))) as (t4 & E5 & F5 & _); [intros i k Hi Hk; apply (P3 i k Hi Hk)|]. rewrite E5. cbn [bind].
  eexists. split; [reflexivity|]. split; [|split]; intros i k Hi Hk; cbn [y_e y_h y_t]; [apply (P3 i k Hi Hk)|exact (F4 i k Hi Hk)|exact (F5 i k Hi Hk)].
Qed.

(** ** the lists of a domain *)
Lemma same_length {A B} (Q : A -> B -> Prop) l l' : Forall2 Q l l' -> length l = length l'.
Proof. induction 1; [reflexivity|]. cbn [length]. now f_equal. Qed.
Lemma each_build (P : Z -> pt -> pt -> Prop) d : (forall t q, In t d -> In q (snd t) -> exists q', P (fst t) q q') -> exists d', each P d d'.
Proof.
  induction d as [|[sid l] d IH]; intros H; [exists []; constructor|].
  destruct IH as (d' & Hd'); [intros t q Ht; apply H; now right|].
  assert (X : exists l', Forall2 (P sid) l l').
  { assert (Hl : forall q, In q l -> exists q', P sid q q') by (intros q Hq; exact (H (sid, l) q (or_introl eq_refl) Hq)). clear - Hl.
    induction l as [|q l IH]; [exists []; constructor|]. destruct IH as (l' & Hl'); [intros x Hx; apply Hl; now right|].
    destruct (Hl q (or_introl eq_refl)) as (q' & Hq'). exists (q' :: l'). now constructor. }
  destruct X as (l' & Hl'). exists ((sid, l') :: d'). constructor; [split; [reflexivity|exact Hl']|exact Hd'].
Qed.
Lemma each_in (P : Z -> pt -> pt -> Prop) d d' t' q' : each P d d' -> In t' d' -> In q' (snd t') -> exists t q, In t d /\ In q (snd t) /\ fst t = fst t' /\ P (fst t) q q'.
Proof.
  intros E Ht Hq. destruct (forall2_in _ _ _ t' E Ht) as (t & It & Ef & F). destruct (forall2_in _ _ _ q' F Hq) as (q & Iq & Pq). exists t, q. auto.
Qed.

Lemma forall2_fwd {A B} (Q : A -> B -> Prop) l l' x : Forall2 Q l l' -> In x l -> exists y, In y l' /\ Q x y.
Proof. induction 1 as [|u v l l' H _ IH]; intros I; [destruct I|]. destruct I as [->|I]; [exists v; split; [now left|auto]|]. destruct (IH I) as (y & Y & Z). exists y. split; [now right|auto]. Qed.
Lemma each_fwd (P : Z -> pt -> pt -> Prop) d d' t q : each P d d' -> In t d -> In q (snd t) -> exists t' q', In t' d' /\ In q' (snd t') /\ fst t = fst t' /\ P (fst t) q q'.
Proof.
  intros E Ht Hq. destruct (forall2_fwd _ _ _ t E Ht) as (t' & It & Ef & F). destruct (forall2_fwd _ _ _ q F Hq) as (q' & Iq & Pq). exists t', q'. auto.
Qed.
Definition defined_scheme (dist : YeeModel.geo -> list CurrentModel.mover -> grid3 R -> outcome (grid3 R)) : Prop :=
  forall h ps x, sizes h -> fits3 (g_nr h) (g_nz h) x -> Forall (lands h) ps -> Forall (lands_from_near h) ps ->
  exists j, one_current dist h ps x = Ok j /\ fits3 (g_nr h) (g_nz h) j.
Lemma zigzag_defined : defined_scheme zigzag_distribution.
Proof. intros h ps x _ F _ L. destruct (zero_zigzag h ps x F L) as (j & E & Fj & _). eauto. Qed.
Lemma vb_defined : defined_scheme vb_distribution.
Proof. intros h ps x S F L _. destruct (zero_vb h ps x S F L) as (j & E & Fj & _). eauto. Qed.

Section Takes.
Variables (c mu : R).
Hypothesis Hc : (0 < c)%R.
Variable pusher : Z -> v3 -> v3 -> v3 -> outcome v3.
Hypothesis Pu : relativistic c mu pusher.
Variable extern : option (doms yee).
Variable impulse : Z -> Z -> domain pt -> domain pt -> Prop.
Hypothesis Im : velocities_only impulse.
Hypothesis Is : keeps_slow c impulse.
Variable draw : nat -> Z -> Z -> Z -> nat -> R * R.
Variable charge : Z -> R.
Variable dist : YeeModel.geo -> list CurrentModel.mover -> grid3 R -> outcome (grid3 R).
Hypothesis Di : defined_scheme dist.
Variable mu0 : R.
Variable g : YeeModel.geo.
Variables R C s : Z.
Hypothesis HR : 1 <= R.
Hypothesis HC : 1 <= C.
Hypothesis Hs : 4 <= s.
Hypothesis Gr : g_nr g = R * s.
Hypothesis Gz : g_nz g = C * s.
Hypothesis GrL : g_nr g < 2 ^ 31.
Hypothesis GzL : g_nz g < 2 ^ 31.
Hypothesis D0 : g_d0 g = 0.
Hypothesis D1 : g_d1 g = 0.
Hypothesis Sz : sizes g.
Hypothesis Courant : (c * g_dt g <= g_dr g / 2 /\ c * g_dt g <= g_dz g / 2)%R.
Variables eps sg : doms (grid Rdefinitions.R).
Hypothesis Feps : forall i k, 0 <= i < R -> 0 <= k < C -> fits2 s s (eps (i, k)).
Hypothesis Fsg : forall i k, 0 <= i < R -> 0 <= k < C -> fits2 s s (sg (i, k)).
Hypothesis Fex : forall x, extern = Some x -> sized R C s x.
Let a := {| nr := R * s; nz := C * s; rd_ := R; zd_ := C |}.
Let dr := g_dr g.
Let dz := g_dz g.
Let dt := g_dt g.
Let none : Z -> option (beam * Rdefinitions.R) := fun _ => None.
Let fine := lively c g s.
(** a particle after its flight *)
Let arrived (q q' : pt) : Prop :=
  (pos_phi (now q') = 0 /\ 0 < pos_r (now q') < IZR (g_nr g) * g_dr g /\ 0 < pos_z (now q') < IZR (g_nz g) * g_dz g /\
   Rabs (pos_r (now q') - pos_r (now q)) < g_dr g /\ Rabs (pos_z (now q') - pos_z (now q)) < g_dz g)%R /\ slower c q' /\
  old_r q' = pos_r (now q) /\ old_z q' = pos_z (now q) /\ (0 < pos_r (now q))%R /\ (off_lines g R C s (now q') -> between g (now q')).

Lemma cells_place n i x d : (0 < d)%R -> 0 <= i < n -> i * s <= cell_number x d < i * s + s ->
  (IZR (i * s) * d <= x <= IZR (i * s) * d + IZR s * d)%R /\ (if i =? 0 then IZR (i * s) * d = 0 else 4 * d <= IZR (i * s) * d)%R /\
  (if i =? n - 1 then IZR (i * s) * d + IZR s * d = IZR (n * s) * d else IZR (i * s) * d + IZR s * d + 4 * d <= IZR (n * s) * d)%R /\ (2 * d <= IZR s * d)%R.
Proof using Hs.
  intros Hd Hi Hx. pose proof (cell_number_bounds x d Hd) as [B1 B2].
  assert (M : forall u v, u <= v -> (IZR u * d <= IZR v * d)%R) by (intros u v Huv; apply Rmult_le_compat_r; [lra|now apply IZR_le]).
  assert (A1 := M (i * s) (cell_number x d) ltac:(lia)). assert (A2 := M (cell_number x d + 1) (i * s + s) ltac:(lia)). rewrite !plus_IZR in A2.
  assert (A3 := M 4 s ltac:(lia)).
  split; [lra|]. split; [|split; [|lra]].
  - destruct (Z.eqb_spec i 0) as [->|N]; [cbn; lra|]. assert (A4 := M 4 (i * s) ltac:(nia)). lra.
  - destruct (Z.eqb_spec i (n - 1)) as [->|N].
    + rewrite <- Rmult_plus_distr_r, <- plus_IZR. do 2 f_equal. lia.
    + assert (A4 := M (i * s + s + 4) (n * s) ltac:(nia)). rewrite !plus_IZR in A4. lra.
Qed.
Lemma geo_is i k : 0 <= i < R -> 0 <= k < C -> let G := domain_geo a dr dz i k in
  g_size_r G = (IZR s * dr)%R /\ g_size_z G = (IZR s * dz)%R /\ g_bot G = i * s /\ g_left G = k * s.
Proof using HR HC Hs Gr Gz GrL GzL.
  intros Hi Hk. cbn [domain_geo g_size_r g_size_z g_bot g_left nr nz rd_ zd_ a].
  rewrite !(bound_dom s Hs) by lia. rewrite !mult_IZR.
  assert (IZR R <> 0)%R by (apply not_0_IZR; lia). assert (IZR C <> 0)%R by (apply not_0_IZR; lia).
  repeat split; field; auto.
Qed.
Lemma short_flight q : between g (now q) -> slower c q -> let p0 := back_position (ParticleModel.mover dt (now q)) in
  (Rabs (pos_r p0 - pos_r (now q)) < dr / 2 /\ Rabs (pos_z p0 - pos_z (now q)) < dz / 2)%R /\ misses_axis dt q.
Proof using Hc Sz Courant.
  intros (P0 & Br & Bz) Sl. destruct Sz as (Hdr & Hdz & Hdt). destruct Courant as [K1 K2]. fold dr in Hdr, K1, Br. fold dz in Hdz, K2, Bz. fold dt in Hdt, K1, K2. unfold slower in Sl.
  set (p := now q) in *. cbn zeta.
  assert (Len : (sqrt ((vel_r p * dt) ^ 2 + (vel_phi p * dt) ^ 2) < c * dt)%R).
  { apply Rsqr_incrst_0; [|apply sqrt_pos|nra]. rewrite Rsqr_sqrt by nra. unfold Rsqr. 
    assert (0 < dt * dt)%R by nra. assert (0 <= vel_z p * vel_z p)%R by nra.
    replace ((vel_r p * dt) ^ 2 + (vel_phi p * dt) ^ 2)%R with ((vel_r p * vel_r p + vel_phi p * vel_phi p) * (dt * dt))%R by ring.
    replace (c * dt * (c * dt))%R with (c * c * (dt * dt))%R by ring. apply Rmult_lt_compat_r; lra. }
  assert (Lz : (Rabs (vel_z p * dt) < c * dt)%R).
  { rewrite Rabs_mult, (Rabs_right dt) by lra. apply Rmult_lt_compat_r; [lra|].
    assert (X : (Rsqr (vel_z p) < Rsqr c)%R) by (unfold Rsqr; nra). apply Rsqr_lt_abs_0 in X. rewrite (Rabs_right c) in X by lra. exact X. }
  split; [split|].
  - unfold back_position, ParticleModel.mover. cbn [pos_r pos_phi]. rewrite P0. apply radius_change2; lra.
  - unfold back_position, ParticleModel.mover. cbn [pos_z]. replace (pos_z p + vel_z p * dt - pos_z p)%R with (vel_z p * dt)%R by ring. lra.
  - unfold misses_axis, off_axis. fold p. cbn [ParticleModel.mover pos_r pos_phi]. left.
    assert (Rabs (vel_r p * dt) < c * dt)%R.
    { rewrite Rabs_mult, (Rabs_right dt) by lra. apply Rmult_lt_compat_r; [lra|].
      assert (X : (Rsqr (vel_r p) < Rsqr c)%R) by (unfold Rsqr; nra). apply Rsqr_lt_abs_0 in X. rewrite (Rabs_right c) in X by lra. exact X. }
    apply Rabs_def2 in H. lra.
Qed.
Lemma fly i k sid q : 0 <= i < R -> 0 <= k < C -> fine i k q ->
  exists q', flown none (dom_geo g R C s (i, k)) (domain_geo a dr dz i k) sid q q'.
Proof using Hc HR HC Hs Gr Gz GrL GzL Sz Courant.
  intros Hi Hk (Be & Sl & Hr & Hz). destruct Sz as (Hdr & Hdz & Hdt). destruct (short_flight q Be Sl) as ((Nr & Nz) & _).
  destruct (cells_place R i _ _ Hdr Hi Hr) as (P1 & P2 & P3 & P4). destruct (cells_place C k _ _ Hdz Hk Hz) as (Q1 & Q2 & Q3 & Q4).
  destruct (geo_is i k Hi Hk) as (G1 & G2 & G3 & G4). set (G := domain_geo a dr dz i k) in *. set (p0 := back_position (ParticleModel.mover dt (now q))) in *.
  destruct Be as (_ & Br & Bz). apply Rabs_def2 in Nr, Nz. fold dr in Hdr, Br, Hr, P1, P2, P3, P4. fold dz in Hdz, Bz, Hz, Q1, Q2, Q3, Q4. rewrite Gr in Br. rewrite Gz in Bz.
  assert (W1 : w_r0 G = (i =? 0)) by reflexivity. assert (W2 : w_rr G = (i =? R - 1)) by reflexivity.
  assert (W3 : w_z0 G = (k =? 0)) by reflexivity. assert (W4 : w_zz G = (k =? C - 1)) by reflexivity.
  assert (L1 : local_r G p0 = (pos_r p0 - IZR (i * s) * dr)%R) by (unfold local_r; now rewrite G3).
  assert (L2 : local_z G p0 = (pos_z p0 - IZR (k * s) * dz)%R) by (unfold local_z; now rewrite G4).
  destruct (reflect_near G p0) as (p' & E & _).
  - rewrite G1. cbn [G domain_geo ParticleModel.g_dr]. split; [exact Hdr|exact P4].
  - rewrite G2. cbn [G domain_geo ParticleModel.g_dz]. split; [exact Hdz|exact Q4].
  - rewrite W1, L1. intros T. rewrite T in P2. lra.
  - rewrite W2, L1, G1. intros T. rewrite T in P3. lra.
  - rewrite W3, L2. intros T. rewrite T in Q2. lra.
  - rewrite W4, L2, G2. intros T. rewrite T in Q3. lra.
  - exists (mkPt (back_velocity p') (pos_r (now q)) (pos_z (now q))). unfold flown. cbn [none now old_r old_z]. split; [|auto].
    exists 1%nat. intros fuel Hf. unfold advance. change (YeeModel.g_dt (dom_geo g R C s (i, k))) with dt. fold p0. now rewrite (E fuel Hf).
Qed.
Lemma flew i k sid q q' : 0 <= i < R -> 0 <= k < C -> fine i k q ->
  flown none (dom_geo g R C s (i, k)) (domain_geo a dr dz i k) sid q q' -> arrived q q'.
Proof using Hc HR HC Hs Gr Gz GrL GzL Sz Courant.
  intros Hi Hk (Be & Sl & Hr & Hz) Fl. destruct Sz as (Hdr & Hdz & Hdt). destruct (short_flight q Be Sl) as ((Nr & Nz) & Ms).
  destruct (flown_speed none (dom_geo g R C s (i, k)) _ _ _ _ Ms Fl) as [Sp _].
  destruct Fl as ((n & Fl) & O1 & O2). specialize (Fl (S n) ltac:(lia)). unfold advance in Fl. change (YeeModel.g_dt (dom_geo g R C s (i, k))) with dt in Fl.
  destruct (cells_place R i _ _ Hdr Hi Hr) as (P1 & P2 & P3 & P4). destruct (cells_place C k _ _ Hdz Hk Hz) as (Q1 & Q2 & Q3 & Q4).
  destruct (geo_is i k Hi Hk) as (G1 & G2 & G3 & G4). set (G := domain_geo a dr dz i k) in *. set (p0 := back_position (ParticleModel.mover dt (now q))) in *.
  pose proof Be as (_ & Br & Bz). pose proof (Rabs_def2 _ _ Nr) as Nr'. pose proof (Rabs_def2 _ _ Nz) as Nz'. fold dr in Hdr, Br, Hr, P1, P2, P3, P4. fold dz in Hdz, Bz, Hz, Q1, Q2, Q3, Q4. rewrite Gr in Br. rewrite Gz in Bz.
  assert (W1 : w_r0 G = (i =? 0)) by reflexivity. assert (W2 : w_rr G = (i =? R - 1)) by reflexivity.
  assert (W3 : w_z0 G = (k =? 0)) by reflexivity. assert (W4 : w_zz G = (k =? C - 1)) by reflexivity.
  assert (L1 : forall p, local_r G p = (pos_r p - IZR (i * s) * dr)%R) by (intros; unfold local_r; now rewrite G3).
  assert (L2 : forall p, local_z G p = (pos_z p - IZR (k * s) * dz)%R) by (intros; unfold local_z; now rewrite G4).
  destruct (reflect_near G p0) as (p' & E & Ph & St1 & St2 & Ins & Zer).
  - rewrite G1. cbn [G domain_geo ParticleModel.g_dr]. split; [exact Hdr|exact P4].
  - rewrite G2. cbn [G domain_geo ParticleModel.g_dz]. split; [exact Hdz|exact Q4].
  - rewrite W1, L1. intros T. rewrite T in P2. lra.
  - rewrite W2, L1, G1. intros T. rewrite T in P3. lra.
  - rewrite W3, L2. intros T. rewrite T in Q2. lra.
  - rewrite W4, L2, G2. intros T. rewrite T in Q3. lra.
  - rewrite (E (S n) ltac:(lia)) in Fl. assert (Fl' : now q' = back_velocity p') by congruence. clear Fl.
    rewrite W1, W2, G1, !L1 in St1. rewrite W3, W4, G2, !L2 in St2. cbn [G domain_geo ParticleModel.g_dr ParticleModel.g_dz] in St1, St2.
    destruct (one_dim _ _ dr _ _ _ _ _ _ Hdr P4 P2 P3 P1 Br Nr St1) as (X1 & X2 & X3).
    destruct (one_dim _ _ dz _ _ _ _ _ _ Hdz Q4 Q2 Q3 Q1 Bz Nz St2) as (Y1 & Y2 & Y3).
    assert (F1 : pos_r (now q') = pos_r p') by now rewrite Fl'. assert (F2 : pos_z (now q') = pos_z p') by now rewrite Fl'.
    assert (F3 : pos_phi (now q') = 0%R) by (rewrite Fl'; cbn [back_velocity pos_phi]; rewrite Ph; reflexivity).
    unfold arrived, between, off_lines. rewrite F1, F2, F3, Gr, Gz. fold dr dz. split; [auto|]. split.
    { apply (proj2 (slower_vel _ _)). apply (proj1 (slower_vel _ _)) in Sl. unfold subluminal in *. change (len2 (vel q')) with (len q'). now rewrite Sp. }
    split; [exact O1|]. split; [exact O2|]. split; [lra|]. intros [U1 U2]. split; [reflexivity|].
    destruct (Req_EM_T (local_r G p0) 0) as [Z1|Z1].
    { exfalso. destruct (Zer (or_introl Z1)) as [Z2 _]. rewrite Z1, L1 in Z2. rewrite L1 in Z1. destruct (Z.eqb_spec i 0) as [->|Ni]; [lra|]. apply (U1 i ltac:(lia)). lra. }
    destruct (Req_EM_T (local_z G p0) 0) as [Z2|Z2].
    { exfalso. destruct (Zer (or_intror Z2)) as [_ Z3]. rewrite Z2, L2 in Z3. rewrite L2 in Z2. destruct (Z.eqb_spec k 0) as [->|Nk]; [lra|]. apply (U2 k ltac:(lia)). lra. }
    destruct (Ins Z1 Z2) as (I1 & I2 & I3 & I4). rewrite W2, G1, L1 in I1. rewrite W1, L1 in I2. rewrite W4, G2, L2 in I3. rewrite W3, L2 in I4.
    split; [exact (X3 I1 I2)|exact (Y3 I3 I4)].
Qed.
Lemma seen i k q y : 0 <= i < R -> 0 <= k < C -> fine i k q -> fits3 s s (y_e y) -> fits3 s s (y_h y) ->
  exists e b, get_field_e (dom_geo g R C s (i, k)) (y_e y) (pos_r (now q)) (pos_z (now q)) = Ok e /\ get_field_h (dom_geo g R C s (i, k)) (y_h y) (pos_r (now q)) (pos_z (now q)) = Ok b.
Proof using HR HC Hs D0 D1 Sz.
  intros Hi Hk (Be & _ & Hr & Hz) Fe Fh. destruct Sz as (Hdr & Hdz & _).
  assert (In0 : ThmExt.inside (dom_geo g R C s (i, k)) (pos_r (now q)) (pos_z (now q))).
  { unfold ThmExt.inside, dom_geo. cbn [fst snd g_d0 g_d1 g_nr g_nz YeeModel.g_dr YeeModel.g_dz]. rewrite D0, D1, !Z.add_0_r.
    pose proof (cell_number_bounds (pos_r (now q)) _ Hdr) as [A1 A2]. pose proof (cell_number_bounds (pos_z (now q)) _ Hdz) as [A3 A4].
    assert (M : forall u v d, (0 < d)%R -> u <= v -> (IZR u * d <= IZR v * d)%R) by (intros u v d Hd Huv; apply Rmult_le_compat_r; [lra|now apply IZR_le]).
    pose proof (M (i * s) (cell_number (pos_r (now q)) (g_dr g)) _ Hdr ltac:(lia)) as M1. pose proof (M (cell_number (pos_r (now q)) (g_dr g) + 1) (i * s + s) _ Hdr ltac:(lia)) as M2.
    pose proof (M (k * s) (cell_number (pos_z (now q)) (g_dz g)) _ Hdz ltac:(lia)) as M3. pose proof (M (cell_number (pos_z (now q)) (g_dz g) + 1) (k * s + s) _ Hdz ltac:(lia)) as M4.
    rewrite plus_IZR in M2 at 1. rewrite plus_IZR in M4 at 1. destruct Be as (_ & Br & _). split; [|nia]. split; [exact Hdr|]. split; [exact Hdz|]. repeat split; lra. }
  destruct (C41_defined (dom_geo g R C s (i, k)) (y_e y) _ _ Fe In0) as (e & _ & Ee & _). destruct (C41_defined (dom_geo g R C s (i, k)) (y_h y) _ _ Fh In0) as (_ & b & _ & Eb). eauto.
Qed.
Let ext_of (i k : Z) : option yee := match extern with None => None | Some x => Some (x (i, k)) end.
Lemma kick m i k sid q : 0 <= i < R -> 0 <= k < C -> sized R C s m -> fine i k q ->
  exists q', kicked pusher (dom_geo g R C s (i, k)) (m (i, k)) (ext_of i k) sid q q'.
Proof using Hc Pu HR HC Hs D0 D1 Sz Fex.
  intros Hi Hk (Me & Mh & _) Fi. destruct (seen i k q (m (i, k)) Hi Hk Fi (Me i k Hi Hk) (Mh i k Hi Hk)) as (e1 & b1 & E1 & B1).
  assert (X : exists e b, fields_at (dom_geo g R C s (i, k)) (m (i, k)) (ext_of i k) (pos_r (now q)) (pos_z (now q)) e b).
  { unfold fields_at, ext_of. destruct extern as [x|] eqn:Ex.
    - destruct (Fex x eq_refl) as (Xe & Xh & _). destruct (seen i k q (x (i, k)) Hi Hk Fi (Xe i k Hi Hk) (Xh i k Hi Hk)) as (e2 & b2 & E2 & B2).
      do 2 eexists. exists e1, b1. split; [exact E1|]. split; [exact B1|]. exists e2, b2. split; [exact E2|]. split; [exact B2|]. split; reflexivity.
    - exists (vec e1), (vec b1), e1, b1. auto. }
  destruct X as (e & b & F). destruct Fi as (_ & Sl & _). apply (proj1 (slower_vel _ _)) in Sl.
  destruct (pushers_slow c mu pusher Hc Pu sid e b _ Sl) as (v & Ev & _). exists (mkPt (set_vel (now q) v) (old_r q) (old_z q)), e, b, v. auto.
Qed.
Lemma kick_fine h y x i k sid q q' : fine i k q -> kicked pusher h y x sid q q' -> fine i k q'.
Proof using Hc Pu.
  intros (Be & Sl & Ho) (e & b & v & _ & E & ->). split; [exact Be|]. split; [|exact Ho]. apply (proj1 (slower_vel _ _)) in Sl.
  destruct (pushers_slow c mu pusher Hc Pu sid e b _ Sl) as (v' & Ev & Sv). unfold vel in Ev. rewrite E in Ev. injection Ev as <-. apply (proj2 (slower_vel _ _)). destruct v. exact Sv.
Qed.
Lemma every_in (P : pt -> Prop) d : everywhere P d <-> forall t q, In t d -> In q (snd t) -> P q.
Proof using.
  unfold everywhere. rewrite Forall_forall. split; [intros H t q Ht Hq|intros H t Ht; apply Forall_forall; intros q Hq; now apply (H t)].
  specialize (H t Ht). rewrite Forall_forall in H. auto.
Qed.
Lemma hit_fine i k d d' : impulse i k d d' -> everywhere (fine i k) d -> everywhere (fine i k) d'.
Proof using Im Is.
  intros Co Fi. assert (S0 : everywhere (slower c) d) by (revert Fi; apply every_impl; intros q H; apply H).
  assert (S1 := Is _ _ _ _ Co S0). apply Im in Co. apply every_in. intros t' q' Ht Hq.
  destruct (each_in (fun _ => struck) d d' t' q' Co Ht Hq) as (t & q & It & Iq & _ & (v & Ev)).
  destruct (proj1 (every_in _ _) Fi t q It Iq) as (Be & _ & Ho). assert (Sl := proj1 (every_in _ _) S1 t' q' Ht Hq).
  subst q'. split; [exact Be|]. split; [exact Sl|exact Ho].
Qed.
(** one domain *)
Lemma domain_moves (Tot : total c g R C s impulse) m i k d : 0 <= i < R -> 0 <= k < C -> sized R C s m -> everywhere (fine i k) d ->
  exists d', advance_domain pusher none impulse (dom_geo g R C s (i, k)) (domain_geo a dr dz i k) (m (i, k)) (ext_of i k) i k d d'.
Proof using Hc Pu Im Is HR HC Hs Gr Gz GrL GzL D0 D1 Sz Courant Fex.
  intros Hi Hk Sm Fi.
  destruct (each_build (kicked pusher (dom_geo g R C s (i, k)) (m (i, k)) (ext_of i k)) d) as (d1 & K).
  { intros t q Ht Hq. apply kick; auto. now apply (proj1 (every_in _ _) Fi t). }
  assert (F1 : everywhere (fine i k) d1) by (revert K Fi; apply every_each; intros sid q q' Q F; now apply (kick_fine _ _ _ _ _ _ _ _ F Q)).
  destruct (Tot i k d1 Hi Hk F1) as (d2 & Co). assert (F2 := hit_fine _ _ _ _ Co F1).
  destruct (each_build (flown none (dom_geo g R C s (i, k)) (domain_geo a dr dz i k)) d2) as (d' & Fl).
  { intros t q Ht Hq. apply fly; auto. now apply (proj1 (every_in _ _) F2 t). }
  exists d', d1, d2. auto.
Qed.
Let landed (q' : pt) : Prop := exists q i k, 0 <= i < R /\ 0 <= k < C /\ fine i k q /\ arrived q q'.
Lemma domain_moved m i k d d' : 0 <= i < R -> 0 <= k < C -> everywhere (fine i k) d ->
  advance_domain pusher none impulse (dom_geo g R C s (i, k)) (domain_geo a dr dz i k) (m (i, k)) (ext_of i k) i k d d' -> everywhere landed d'.
Proof using Hc Pu Im Is HR HC Hs Gr Gz GrL GzL Sz Courant.
  intros Hi Hk Fi (d1 & d2 & K & Co & Fl).
  assert (F1 : everywhere (fine i k) d1) by (revert K Fi; apply every_each; intros sid q q' Q F; now apply (kick_fine _ _ _ _ _ _ _ _ F Q)).
  assert (F2 := hit_fine _ _ _ _ Co F1). apply every_in. intros t' q' Ht Hq.
  destruct (each_in _ _ _ t' q' Fl Ht Hq) as (t & q & It & Iq & _ & Q). assert (Fq := proj1 (every_in _ _) F2 t q It Iq).
  exists q, i, k. split; [exact Hi|]. split; [exact Hk|]. split; [exact Fq|]. exact (flew i k _ q q' Hi Hk Fq Q).
Qed.
Lemma no_beams t cnt st i k : inject_beams none draw a dr dz dt t cnt st i k = st i k.
Proof using.
  unfold inject_beams. induction (st i k) as [|[sid l] d IH]; [reflexivity|]. cbn [map fst snd]. unfold newcomers at 1. cbn [none]. now rewrite app_nil_r, IH.
Qed.
(** all particles of a round *)
Let after (i k : Z) (q : pt) : Prop := landed q /\
  i * s <= cell_number (pos_r (now q)) (g_dr g) < i * s + s /\ k * s <= cell_number (pos_z (now q)) (g_dz g) < k * s + s.
Lemma landed_cells q : landed q -> 0 <= cell_number (pos_r (now q)) (g_dr g) < g_nr g /\ 0 <= cell_number (pos_z (now q)) (g_dz g) < g_nz g.
Proof using Sz.
  intros (q0 & i & k & _ & _ & _ & (_ & Br & Bz & _) & _). destruct Sz as (Hdr & Hdz & _).
  split; apply cell_number_range; auto; cbn [IZR]; lra.
Qed.
Lemma collected ids st1 st' : ids_ok a ids st1 -> everybody R C (fun _ _ => landed) st1 -> collect pt (pt_cr dr) (pt_cz dz) a (code_order a) st1 = Ok st' ->
  ids_ok a ids st' /\ everybody R C after st' /\ forall sid, Permutation (particles_of a sid st') (particles_of a sid st1).
Proof using HR HC Hs Gr Gz GrL GzL Sz.
  intros I1 L1 E.
  destruct (C08_collector_conserves pt pt_eq_dec (pt_cr dr) (pt_cz dz) a ids st1 (area_good g R C s HR HC Hs Gr Gz GrL GzL) (pt_int g) I1) as (st2 & Ec & I' & P' & H').
  rewrite E in Ec. injection Ec as <-. split; [exact I'|]. split.
  2:{ intros sid. rewrite P'. assert (X : forall l, (forall q, In q l -> alive (pt_cr dr) (pt_cz dz) a q = true) -> filter (alive (pt_cr dr) (pt_cz dz) a) l = l).
    { induction l as [|q l IH]; intros H; [reflexivity|]. cbn [filter]. rewrite (H q (or_introl eq_refl)), IH; auto. intros q' Hq'. apply H. now right. }
    rewrite X; [reflexivity|]. intros q Hq. apply In_particles in Hq as (i0 & k0 & t0 & Hi0 & Hk0 & Ht0 & _ & Hq0).
    destruct (landed_cells q (L1 i0 k0 t0 q Hi0 Hk0 Ht0 Hq0)) as [CR CZ]. fold dr in CR. fold dz in CZ.
    unfold alive, pt_cr, pt_cz, part_cr, part_cz. cbn [nr nz a].
    change (ParticleModel.cell_number (pos_r (now q)) dr) with (cell_number (pos_r (now q)) dr). change (ParticleModel.cell_number (pos_z (now q)) dz) with (cell_number (pos_z (now q)) dz).
    rewrite !s32_small by lia. lia. }
  intros i k [sid l] q Hi Hk Ht Hq.
  assert (X : In q (particles_of a sid st')) by (apply In_particles; exists i, k, (sid, l); cbn [rd_ zd_ a]; auto).
  apply (Permutation_in _ (P' sid)) in X. apply filter_In in X as [X _]. apply In_particles in X as (i0 & k0 & t0 & Hi0 & Hk0 & Ht0 & _ & Hq0).
  assert (Lq := L1 i0 k0 t0 q Hi0 Hk0 Ht0 Hq0). split; [exact Lq|]. destruct (landed_cells q Lq) as [CR CZ].
  apply (home_cells g R C s HR HC Hs Gr Gz GrL GzL i k q Hi Hk); [lia|lia|]. exact (H' i k sid l q Hi Hk Ht Hq).
Qed.
Let go := full_particles pusher none extern impulse draw a dr dz dt (dom_geo g R C s).
Lemma each_ids_advance h G y x i k d d' : advance_domain pusher none impulse h G y x i k d d' -> map fst d' = map fst d.
Proof using Im. intros A. exact (each_ids _ _ _ (advance_remembers _ _ _ Im _ _ _ _ _ _ _ _ A)). Qed.
Lemma particles_move (Tot : total c g R C s impulse) ids m t cnt st : sized R C s m -> ids_ok a ids st -> everybody R C fine st -> exists st', go m t cnt st st'.
Proof using Hc Pu Im Is HR HC Hs Gr Gz GrL GzL D0 D1 Sz Courant Fex.
  intros Sm Io Ev.
  assert (Dm : forall i, 0 <= i < R -> exists f : Z -> domain pt, forall k, 0 <= k < C ->
     advance_domain pusher none impulse (dom_geo g R C s (i, k)) (domain_geo a dr dz i k) (m (i, k)) (ext_of i k) i k (st i k) (f k)).
  { intros i Hi. apply (FieldMpi.choose_fun C (fun k d' => advance_domain pusher none impulse (dom_geo g R C s (i, k)) (domain_geo a dr dz i k) (m (i, k)) (ext_of i k) i k (st i k) d') HC).
    intros k Hk. apply domain_moves; auto. apply every_in. intros u q Hu Hq. exact (Ev i k u q Hi Hk Hu Hq). }
  destruct (FieldMpi.choose_fun R (fun i f => forall k, 0 <= k < C ->
     advance_domain pusher none impulse (dom_geo g R C s (i, k)) (domain_geo a dr dz i k) (m (i, k)) (ext_of i k) i k (st i k) (f k)) HR Dm) as (F & HF).
  set (p1 := fun i k => if (0 <=? i) && (i <? R) && (0 <=? k) && (k <? C) then F i k else st i k).
  assert (A : forall i k, 0 <= i < R -> 0 <= k < C -> p1 i k = F i k).
  { intros i k Hi Hk. unfold p1. replace (_ && _ && _ && _) with true by lia. reflexivity. }
  assert (I1 : ids_ok a ids p1).
  { destruct Io as [N I]. split; [exact N|]. intros i k Hi Hk. rewrite A by assumption. rewrite (each_ids_advance _ _ _ _ _ _ _ _ (HF i Hi k Hk)). now apply I. }
  destruct (C08_collector_conserves pt pt_eq_dec (pt_cr dr) (pt_cz dz) a ids p1 (area_good g R C s HR HC Hs Gr Gz GrL GzL) (pt_int g) I1) as (st' & Ec & _).
  exists st', p1. split; [|exact Ec]. split.
  - intros i k Hi Hk. cbn [rd_ zd_ a] in Hi, Hk. rewrite no_beams, A by assumption. exact (HF i Hi k Hk).
  - intros i k N. rewrite no_beams. unfold p1. cbn [rd_ zd_ a] in N. replace (_ && _ && _ && _) with false by lia. reflexivity.
Qed.
Lemma particles_moved ids m t cnt st st' : ids_ok a ids st -> everybody R C fine st -> go m t cnt st st' -> ids_ok a ids st' /\ everybody R C after st' /\
  forall sid, length (particles_of a sid st') = length (particles_of a sid st).
Proof using Hc Pu Im Is HR HC Hs Gr Gz GrL GzL Sz Courant.
  intros Io Ev (p1 & [Ad _] & Ec).
  assert (Ln : forall sid, length (particles_of a sid st) = length (particles_of a sid p1)).
  { intros sid. apply (same_length remembers). apply (stepped_species a (fun _ _ _ => remembers) (fun _ => remembers) st p1 sid); [auto|].
    intros i k Hi Hk. specialize (Ad i k Hi Hk). rewrite no_beams in Ad. exact (advance_remembers _ _ _ Im _ _ _ _ _ _ _ _ Ad). }
  cut (ids_ok a ids st' /\ everybody R C after st' /\ forall sid, Permutation (particles_of a sid st') (particles_of a sid p1)).
  { intros (H1 & H2 & H3). split; [exact H1|]. split; [exact H2|]. intros sid. rewrite Ln. now apply Permutation_length. }
  apply (collected ids p1 st'); [| |exact Ec].
  - destruct Io as [N I]. split; [exact N|]. intros i k Hi Hk. rewrite (each_ids_advance _ _ _ _ _ _ _ _ (Ad i k Hi Hk)). rewrite no_beams. now apply I.
  - intros i k u q Hi Hk Hu Hq. specialize (Ad i k Hi Hk). rewrite no_beams in Ad.
    assert (X : everywhere (fine i k) (st i k)) by (apply every_in; intros u' q' Hu' Hq'; exact (Ev i k u' q' Hi Hk Hu' Hq')).
    exact (proj1 (every_in _ _) (domain_moved m i k _ _ Hi Hk X Ad) u q Hu Hq).
Qed.
(** the currents *)
Lemma currents st' j : everybody R C after st' -> all_fit R C s j ->
  exists j', smb_current dist g R C s (fun ik => movers charge dr dz (st' (fst ik) (snd ik))) j = Ok j' /\ all_fit R C s j'.
Proof using Di HR HC Hs Gr Gz GrL GzL D0 D1 Sz Courant extern ext_of.
  intros Ev Fj. assert (HsL : s + 4 < 2 ^ 32) by nia. unfold smb_current.
  destruct (each_dom_spec R C (fun p x => do a <- zero3 x; dist (dom_geo g R C s p) (movers charge dr dz (st' (fst p) (snd p))) a) j (fun p x => fits3 s s x)) as (j1 & E1 & Q1); [lia|lia| |].
  { intros i k Hi Hk. cbn [fst snd].
    assert (X : Forall (fun p => lands (dom_geo g R C s (i, k)) p /\ lands_from_near (dom_geo g R C s (i, k)) p) (movers charge dr dz (st' i k))).
    { apply Forall_forall. intros p Hp. unfold movers in Hp. apply in_flat_map in Hp as (t & Ht & Hp). apply in_map_iff in Hp as (q & <- & Hq).
      destruct (Ev i k t q Hi Hk Ht Hq) as (Lq & Hr & Hz). destruct (landed_cells q Lq) as [CR CZ].
      destruct Lq as (q0 & _ & _ & _ & _ & _ & (_ & Br & Bz & Nr & Nz) & _ & O1 & O2 & P0 & _). destruct Sz as (Hdr & Hdz & _).
      pose proof (near_cells _ _ _ Hdr Nr) as NR. pose proof (near_cells _ _ _ Hdz Nz) as NZ.
      unfold lands, lands_from_near, ThmCurrent.bound, dom_geo. cbn [fst snd g_d0 g_d1 g_nr g_nz YeeModel.g_dr YeeModel.g_dz mover_of m_r m_z m_ro m_zo m_cr m_cz]. rewrite O1, O2.
      unfold pt_cr, pt_cz, part_cr, part_cz. fold dr dz in CR, CZ, Hr, Hz, NR, NZ |- *.
      change (ParticleModel.cell_number (pos_r (now q)) dr) with (cell_number (pos_r (now q)) dr). change (ParticleModel.cell_number (pos_z (now q)) dz) with (cell_number (pos_z (now q)) dz).
      rewrite !s32_small by lia. rewrite D0, D1. repeat split; try lia; lra. }
    destruct (Di (dom_geo g R C s (i, k)) (movers charge dr dz (st' i k)) (j (i, k)) Sz (Fj i k Hi Hk)) as (x & Ex & Fx).
    - revert X. apply Forall_impl. tauto.
    - revert X. apply Forall_impl. tauto.
    - exists x. split; [exact Ex|exact Fx]. }
  rewrite E1. cbn [bind]. destruct (stitch_sum R C s HR HC Hs HsL j1) as (j' & E2 & F2 & _); [exact Q1|]. eauto.
Qed.

Let round := full_round pusher charge dist mu0 none extern impulse draw g R C s eps sg.
(** A round takes place. *)
Lemma takes_place (Tot : total c g R C s impulse) ids u : living c g R C s ids (u_w u) -> exists u', round u u'.
Proof using Hc Pu Im Is Di HR HC Hs Gr Gz GrL GzL D0 D1 Sz Courant Feps Fsg Fex.
  intros (Sm & Fj & Io & Ev). assert (HsL : s + 4 < 2 ^ 32) by nia.
  destruct (fields_step mu0 g R C s eps sg (w_j (u_w u)) (w_f (u_w u)) HR HC Hs HsL Feps Fsg Fj Sm) as (m' & Em & Sm').
  destruct (particles_move Tot ids m' (u_t u) (u_c u) (w_p (u_w u)) Sm' Io Ev) as (st' & Ep).
  destruct (particles_moved ids m' (u_t u) (u_c u) _ st' Io Ev Ep) as (_ & Ev' & _). destruct (currents st' (w_j (u_w u)) Ev' Fj) as (j' & Ej & _).
  exists (mkFull (mkWorld m' j' st') (S (u_t u)) (next_bunch none a dr dt (u_t u) (u_c u))). unfold round, full_round. cbn [u_w u_t u_c w_f w_j w_p]. auto.
Qed.
(** What holds after it. *)
Lemma took_place ids u u' : living c g R C s ids (u_w u) -> round u u' -> clear g R C s (u_w u') -> living c g R C s ids (u_w u').
Proof using Hc Pu Im Is Di HR HC Hs Gr Gz GrL GzL D0 D1 Sz Courant Feps Fsg.
  intros (Sm & Fj & Io & Ev) (Em & Ep & Ej & _) Cl. assert (HsL : s + 4 < 2 ^ 32) by nia.
  destruct (fields_step mu0 g R C s eps sg (w_j (u_w u)) (w_f (u_w u)) HR HC Hs HsL Feps Fsg Fj Sm) as (m' & Em' & Sm'). rewrite Em in Em'. injection Em' as <-.
  destruct (particles_moved ids _ (u_t u) (u_c u) _ _ Io Ev Ep) as (Io' & Ev' & _). destruct (currents _ (w_j (u_w u)) Ev' Fj) as (j' & Ej' & Fj'). fold dr dz in Ej.
  rewrite Ej in Ej'. injection Ej' as <-. split; [exact Sm'|]. split; [exact Fj'|]. split; [exact Io'|].
  intros i k t q Hi Hk Ht Hq. destruct (Ev' i k t q Hi Hk Ht Hq) as ((q0 & i0 & k0 & _ & _ & _ & Ar) & Hr & Hz). destruct Ar as (_ & Sl & _ & _ & _ & Be).
  split; [exact (Be (Cl i k t q Hi Hk Ht Hq))|]. split; [exact Sl|]. split; [exact Hr|exact Hz].
Qed.
Lemma none_lost ids u u' : living c g R C s ids (u_w u) -> round u u' -> forall sid, length (particles_of a sid (w_p (u_w u'))) = length (particles_of a sid (w_p (u_w u))).
Proof using Hc Pu Im Is HR HC Hs Gr Gz GrL GzL Sz Courant.
  intros (_ & _ & Io & Ev) (_ & Ep & _) sid. destruct (particles_moved ids _ (u_t u) (u_c u) _ _ Io Ev Ep) as (_ & _ & Ln). apply Ln.
Qed.
End Takes.

(** ** C176 *)
(** what is asked of the parts of a round: relativistic pushers, collisions that change velocities only and keep them below c, one of the two current schemes; and of the area *)
Definition parts_fit (c mu : R) pusher (impulse : Z -> Z -> domain pt -> domain pt -> Prop) (dist : YeeModel.geo -> list CurrentModel.mover -> grid3 R -> outcome (grid3 R)) : Prop :=
  (0 < c)%R /\ relativistic c mu pusher /\ velocities_only impulse /\ keeps_slow c impulse /\ (dist = zigzag_distribution \/ dist = vb_distribution).
Definition area_fits (c : Rdefinitions.R) (g : YeeModel.geo) (R C s : Z) (eps sg : doms (grid Rdefinitions.R)) (extern : option (doms yee)) : Prop :=
  (1 <= R /\ 1 <= C /\ 4 <= s) /\ (g_nr g = R * s /\ g_nz g = C * s /\ g_nr g < 2 ^ 31 /\ g_nz g < 2 ^ 31 /\ g_d0 g = 0 /\ g_d1 g = 0) /\ sizes g /\
  (c * g_dt g <= g_dr g / 2 /\ c * g_dt g <= g_dz g / 2)%R /\
  (forall i k, 0 <= i < R -> 0 <= k < C -> fits2 s s (eps (i, k)) /\ fits2 s s (sg (i, k))) /\ (forall x, extern = Some x -> sized R C s x).
Lemma dist_defined dist : dist = zigzag_distribution \/ dist = vb_distribution -> defined_scheme dist.
Proof. intros [->| ->]; [exact zigzag_defined|exact vb_defined]. Qed.
(** Any fields, any number of particles: a round takes place, no particle is lost in it, and after it, unless a particle is exactly on a line between two domains,
    the state is again one from which a round takes place. *)
Theorem C176_round : forall c mu pusher impulse dist g R C s eps sg extern draw charge mu0 ids u, parts_fit c mu pusher impulse dist -> area_fits c g R C s eps sg extern ->
  total c g R C s impulse -> living c g R C s ids (u_w u) ->
  (exists u', full_round pusher charge dist mu0 (fun _ => None) extern impulse draw g R C s eps sg u u') /\
  forall u', full_round pusher charge dist mu0 (fun _ => None) extern impulse draw g R C s eps sg u u' ->
    (forall sid, length (particles_of {| nr := R * s; nz := C * s; rd_ := R; zd_ := C |} sid (w_p (u_w u'))) = length (particles_of {| nr := R * s; nz := C * s; rd_ := R; zd_ := C |} sid (w_p (u_w u)))) /\
    (clear g R C s (u_w u') -> living c g R C s ids (u_w u')).
Proof.
  intros c mu pusher impulse dist g R C s eps sg extern draw charge mu0 ids u (Hc & Pu & Im & Is & Di) ((HR & HC & Hs) & (Gr & Gz & GrL & GzL & D0 & D1) & Sz & Co & Fg & Fx) Tot L.
  split; [|intros u' H; split].
  - exact (takes_place c mu Hc pusher Pu extern impulse Im Is draw charge dist (dist_defined _ Di) mu0 g R C s HR HC Hs Gr Gz GrL GzL D0 D1 Sz Co eps sg
      (fun i k Hi Hk => proj1 (Fg i k Hi Hk)) (fun i k Hi Hk => proj2 (Fg i k Hi Hk)) Fx Tot ids u L).
  - exact (none_lost c mu Hc pusher Pu extern impulse Im Is draw charge dist mu0 g R C s HR HC Hs Gr Gz GrL GzL Sz Co eps sg ids u u' L H).
  - exact (took_place c mu Hc pusher Pu extern impulse Im Is draw charge dist (dist_defined _ Di) mu0 g R C s HR HC Hs Gr Gz GrL GzL D0 D1 Sz Co eps sg
      (fun i k Hi Hk => proj1 (Fg i k Hi Hk)) (fun i k Hi Hk => proj2 (Fg i k Hi Hk)) ids u u' L H).
Qed.
(** Any number of rounds after each of which no particle is exactly on such a line: another round takes place, and no particle was lost. *)
Theorem C176_run : forall c mu pusher impulse dist g R C s eps sg extern draw charge mu0 ids n u u', parts_fit c mu pusher impulse dist -> area_fits c g R C s eps sg extern ->
  total c g R C s impulse -> living c g R C s ids (u_w u) ->
  rounds (fun x y => full_round pusher charge dist mu0 (fun _ => None) extern impulse draw g R C s eps sg x y /\ clear g R C s (u_w y)) n u u' ->
  living c g R C s ids (u_w u') /\ (exists u2, full_round pusher charge dist mu0 (fun _ => None) extern impulse draw g R C s eps sg u' u2) /\
  forall sid, length (particles_of {| nr := R * s; nz := C * s; rd_ := R; zd_ := C |} sid (w_p (u_w u'))) = length (particles_of {| nr := R * s; nz := C * s; rd_ := R; zd_ := C |} sid (w_p (u_w u))).
Proof.
  intros c mu pusher impulse dist g R C s eps sg extern draw charge mu0 ids n u u' Pf Af Tot. revert u. induction n as [|n IH]; intros u L Run.
  - cbn in Run. subst u'. split; [exact L|]. split; [|reflexivity]. apply (C176_round c mu pusher impulse dist g R C s eps sg extern draw charge mu0 ids u Pf Af Tot L).
  - destruct Run as (v & (Q & Cl) & Run). destruct (C176_round c mu pusher impulse dist g R C s eps sg extern draw charge mu0 ids u Pf Af Tot L) as (_ & K).
    destruct (K v Q) as [Ln Lv]. destruct (IH v (Lv Cl) Run) as (A & B & E). split; [exact A|]. split; [exact B|]. intros sid. now rewrite E, Ln.
Qed.
(** One domain: there are runs of any length, and in none of them a particle is lost. *)
Theorem C176_undivided : forall c mu pusher impulse dist g s eps sg extern draw charge mu0 ids n u, parts_fit c mu pusher impulse dist -> area_fits c g 1 1 s eps sg extern ->
  total c g 1 1 s impulse -> living c g 1 1 s ids (u_w u) ->
  (exists u', rounds (full_round pusher charge dist mu0 (fun _ => None) extern impulse draw g 1 1 s eps sg) n u u') /\
  forall u', rounds (full_round pusher charge dist mu0 (fun _ => None) extern impulse draw g 1 1 s eps sg) n u u' -> living c g 1 1 s ids (u_w u') /\
    forall sid, length (particles_of {| nr := 1 * s; nz := 1 * s; rd_ := 1; zd_ := 1 |} sid (w_p (u_w u'))) = length (particles_of {| nr := 1 * s; nz := 1 * s; rd_ := 1; zd_ := 1 |} sid (w_p (u_w u))).
Proof.
  intros c mu pusher impulse dist g s eps sg extern draw charge mu0 ids n u Pf Af Tot.
  assert (Cl : forall w, clear g 1 1 s w) by (intros w i k t q _ _ _ _; split; intros; lia).
  revert u. induction n as [|n IH]; intros u L.
  - split; [now exists u|]. intros u' Run. cbn in Run. subst u'. auto.
  - destruct (C176_round c mu pusher impulse dist g 1 1 s eps sg extern draw charge mu0 ids u Pf Af Tot L) as ((v & Q) & K). destruct (K v Q) as [_ Lv].
    destruct (IH v (Lv (Cl _))) as ((u' & Run) & _). split; [exists u', v; auto|]. clear v Q Lv u' Run. intros u' (v & Q & Run). destruct (K v Q) as [Ln Lv].
    destruct (IH v (Lv (Cl _))) as (_ & K'). destruct (K' u' Run) as [A B]. split; [exact A|]. intros sid. now rewrite B, Ln.
Qed.
(** without collisions *)
Theorem C176_none : forall c g R C s, total c g R C s (fun _ _ d d' => d' = d) /\ keeps_slow c (fun _ _ d d' => d' = d) /\ velocities_only (fun _ _ d d' => d' = d).
Proof. intros c g R C s. split; [intros i k d _ _ _; now exists d|apply C162_none]. Qed.

(** ** an area of two domains; a neutral particle, an electron *)
Definition geoh : YeeModel.geo := mkGeo 4 8 0 0 1 1 true true true true (1 / 2).
Definition mixed (sid : Z) : v3 -> v3 -> v3 -> outcome v3 := boris_relativistic 1 (if sid =? 0 then 0 else -1) 1.
Definition pt_at (r z a b d : R) : pt := mkPt {| pos_r := r; pos_phi := 0; pos_z := z; vel_r := a; vel_phi := b; vel_z := d; p_sin := 0; weight := 1 |} 0 0.
Definition neutral : pt := pt_at (3 / 5) (17 / 4) (- (2 / 5)) 0 (- (1 / 2)).
Definition electron : pt := pt_at (7 / 2) (15 / 4) (1 / 2) (1 / 2) (1 / 2).
Definition quiet4 : yee := mkYee (sz3 4 1) (sz3 4 1) (sz3 4 1).
Definition full0 : full := mkFull (mkWorld (fun _ => quiet4) (fun _ => sz3 4 0) (fun i k => if k =? 0 then [(0, []); (5, [electron])] else [(0, [neutral]); (5, [])])) 0 (fun _ _ _ => 0%nat).
Definition no_collisions (i k : Z) (d d' : domain pt) : Prop := d' = d.
Lemma sz3_fits v : fits3 4 4 (sz3 4 v).
Proof. intros []; apply sz_fits; lia. Qed.
Lemma ex_fits dist : dist = zigzag_distribution \/ dist = vb_distribution -> parts_fit 1 1 mixed no_collisions dist /\
  area_fits 1 geoh 1 2 4 (fun _ => sz 4 1) (fun _ => sz 4 0) (Some (fun _ => quiet4)) /\ total 1 geoh 1 2 4 no_collisions /\ living 1 geoh 1 2 4 [0; 5] (u_w full0).
Proof.
  intros Di. split; [|split; [|split]].
  - split; [lra|]. split; [|split; [apply (proj2 (C162_none 1))|split; [apply (proj1 (C162_none 1))|exact Di]]].
    exists (fun sid => if sid =? 0 then 0%R else (-1)%R). intros sid. left. reflexivity.
  - split; [lia|]. split; [cbn; lia|]. split; [unfold sizes; cbn; lra|]. split; [cbn; lra|]. split.
    + intros i k _ _. split; apply sz_fits; lia.
    + intros x E. injection E as <-. split; [|split]; intros i k _ _; apply sz3_fits.
  - apply C176_none.
  - cbn [u_w full0]. split; [split; [|split]; intros i k _ _; apply sz3_fits|]. split; [intros i k _ _; apply sz3_fits|]. split.
    + split; [repeat constructor; cbn; lia|]. intros i k _ _. cbn [w_p]. destruct (k =? 0); reflexivity.
    + intros i k t q Hi Hk Ht Hq. cbn [w_p] in Ht. replace i with 0 by lia. destruct (Z.eqb_spec k 0) as [->|N].
      * destruct Ht as [<-|[<-|[]]]; [destruct Hq|]. destruct Hq as [<-|[]]. unfold lively, between, slower. cbn [now electron pt_at pos_r pos_z pos_phi vel_r vel_phi vel_z geoh YeeModel.g_dr YeeModel.g_dz g_nr g_nz].
        rewrite (cell_number_is (7 / 2) 1 3) by lra. rewrite (cell_number_is (15 / 4) 1 3) by lra. repeat split; try lra; lia.
      * replace k with 1 by lia. destruct Ht as [<-|[<-|[]]]; [|destruct Hq]. destruct Hq as [<-|[]]. unfold lively, between, slower. cbn [now neutral pt_at pos_r pos_z pos_phi vel_r vel_phi vel_z geoh YeeModel.g_dr YeeModel.g_dz g_nr g_nz].
        rewrite (cell_number_is (3 / 5) 1 0) by lra. rewrite (cell_number_is (17 / 4) 1 4) by lra. repeat split; try lra; lia.
Qed.
Lemma uncharged e b v : subluminal 1 v -> mixed 0 e b v = Ok v.
Proof.
  intros S. destruct (C72_electric 1 0 1 ThmPush.zero3 v ltac:(lra) S) as ((v' & E & S' & M) & _).
  assert (X : mixed 0 e b v = boris_relativistic 1 0 1 ThmPush.zero3 ThmPush.zero3 v).
  { assert (Z1 : forall k w, k = 0%R -> vscale k w = ThmPush.zero3) by (intros k [w1 w2 w3] ->; unfold vscale, ThmPush.zero3; cbn [vx vy vz]; f_equal; ring).
    unfold mixed, boris_relativistic. cbn [Z.eqb]. rewrite !(Z1 0%R), !(Z1 (0 * 1)%R) by ring. reflexivity. }
  rewrite X, E. f_equal. apply (mom_inj 1 ltac:(lra)); try assumption. rewrite M. unfold vadd, vscale, ThmPush.zero3. destruct (mom 1 v). cbn. f_equal; ring.
Qed.
(** A particle that ends its flight exactly on a line between two domains is not reflected by the walls: the round takes place,
    and after it the particle is between the axis and the mirror in front of it, where C41 does not know what field it feels. *)
Theorem C176_line_refuted : exists u', full_round mixed (fun _ => 1%R) zigzag_distribution 1 (fun _ => None) (Some (fun _ => quiet4)) no_collisions (fun _ _ _ _ _ => (0, 0)%R) geoh 1 2 4 (fun _ => sz 4 1) (fun _ => sz 4 0) full0 u' /\
  ~ living 1 geoh 1 2 4 [0; 5] (u_w u') /\
  exists q, In q (particles_of {| nr := 1 * 4; nz := 2 * 4; rd_ := 1; zd_ := 2 |} 0 (w_p (u_w u'))) /\ (pos_z (now q) = 4 /\ 0 < pos_r (now q) < g_dr geoh / 2)%R.
Proof.
  destruct (ex_fits zigzag_distribution (or_introl eq_refl)) as (Pf & Af & Tot & L).
  destruct (C176_round _ _ _ _ _ _ _ _ _ _ _ _ (fun _ _ _ _ _ => (0, 0)%R) (fun _ => 1%R) 1%R _ _ Pf Af Tot L) as ((u' & Q) & _). exists u'. split; [exact Q|].
  set (a := {| nr := 1 * 4; nz := 2 * 4; rd_ := 1; zd_ := 2 |}).
  cut (exists q, In q (particles_of a 0 (w_p (u_w u'))) /\ (pos_z (now q) = 4 /\ 0 < pos_r (now q) < g_dr geoh / 2)%R).
  { intros (q & Iq & Pz & Pr). split; [|exists q; auto]. intros (_ & _ & _ & Ev). apply In_particles in Iq as (i & k & t & Hi & Hk & Ht & _ & Hq).
    destruct (Ev i k t q Hi Hk Ht Hq) as ((_ & Br & _) & _). lra. }
  destruct Q as (_ & (p1 & [Ad _] & Ec) & _).
  assert (A1 := Ad 0 1 ltac:(cbn; lia) ltac:(cbn; lia)). destruct A1 as (d1 & d2 & K & Co & Fl). unfold no_collisions in Co. subst d2.
  change (inject_beams (fun _ => None) (fun _ _ _ _ _ => (0, 0)%R) {| nr := 1 * 4; nz := 2 * 4; rd_ := 1; zd_ := 2 |} (g_dr geoh) (g_dz geoh) (g_dt geoh) (u_t full0) (u_c full0) (w_p (u_w full0)) 0 1) with [(0, [neutral]); (5, [])] in K.
  destruct (each_fwd _ _ _ (0, [neutral]) neutral K (or_introl eq_refl) (or_introl eq_refl)) as (t1 & q1 & It1 & Iq1 & E1 & Kq). cbn [fst] in E1, Kq.
  destruct (each_fwd _ _ _ t1 q1 Fl It1 Iq1) as (s' & q' & Is' & Iq' & E3 & Fq). rewrite <- E1 in E3, Fq.
  destruct Kq as (e & b & v & _ & Ev & ->). cbn [neutral pt_at now vel_r vel_phi vel_z] in Ev.
  rewrite uncharged in Ev by (unfold subluminal, len2; cbn [vx vy vz]; lra). injection Ev as <-.
  assert (Pq : pos_r (now q') = (2 / 5)%R /\ pos_z (now q') = 4%R).
  { destruct Fq as ((n & Hn) & _). specialize (Hn n (le_n n)). unfold advance in Hn.
    set (p0 := back_position _) in Hn. assert (B : pos_r p0 = (2 / 5)%R /\ pos_z p0 = 4%R).
    { unfold p0, back_position, ParticleModel.mover. cbn [now set_vel pos_r pos_phi pos_z vel_r vel_phi vel_z vx vy vz neutral pt_at dom_geo YeeModel.g_dt geoh]. split; [|lra].
      replace ((3 / 5 + - (2 / 5) * (1 / 2)) * (3 / 5 + - (2 / 5) * (1 / 2)) + (0 + 0 * (1 / 2)) * (0 + 0 * (1 / 2)))%R with ((2 / 5) * (2 / 5))%R by field. apply sqrt_square. lra. }
    destruct B as [B1 B2]. unfold reflect in Hn.
    assert (Lf : g_left (domain_geo {| nr := 1 * 4; nz := 2 * 4; rd_ := 1; zd_ := 2 |} (g_dr geoh) (g_dz geoh) 0 1) = 4) by reflexivity.
    assert (Bt : g_bot (domain_geo {| nr := 1 * 4; nz := 2 * 4; rd_ := 1; zd_ := 2 |} (g_dr geoh) (g_dz geoh) 0 1) = 0) by reflexivity.
    cbn zeta in Hn. rewrite Lf, Bt, B1, B2 in Hn. cbn [domain_geo ParticleModel.g_dr ParticleModel.g_dz geoh YeeModel.g_dr YeeModel.g_dz] in Hn.
    assert (Z0 : isnormal (4 - 4 * 1) = false) by (unfold isnormal; destruct (Req_EM_T (4 - 4 * 1) 0); [reflexivity|exfalso; lra]).
    destruct n; cbn [refl_loop] in Hn; rewrite Z0, andb_false_r in Hn; cbn [andb] in Hn; injection Hn as <-; cbn [back_velocity pos_r pos_z]; split; lra. }
  exists q'. split; [|cbn [geoh YeeModel.g_dr]; lra].
  assert (Io : ids_ok a [0; 5] p1).
  { split; [repeat constructor; cbn; lia|]. intros i k Hi Hk. assert (Im : velocities_only no_collisions) by apply (proj2 (C162_none 1)).
    rewrite (each_ids _ _ _ (advance_remembers _ _ _ Im _ _ _ _ _ _ _ _ (Ad i k Hi Hk))). unfold inject_beams. rewrite map_map. cbn [fst full0 u_w w_p]. destruct (k =? 0); reflexivity. }
  assert (Ga : good_area a).
  { unfold good_area, sane, a. cbn [nr nz rd_ zd_]. repeat split; try lia; [exists 4|exists 4]; lia. }
  destruct (C08_collector_conserves pt pt_eq_dec (pt_cr (g_dr geoh)) (pt_cz (g_dz geoh)) a [0; 5] p1 Ga (fun q => int_cells_part _ _ (now q)) Io) as (st' & Ec' & _ & P' & _).
  fold a in Ec. rewrite Ec in Ec'. injection Ec' as <-. apply (Permutation_in _ (Permutation_sym (P' 0))). apply filter_In. split.
  - apply In_particles. exists 0, 1, s'. split; [cbn; lia|]. split; [cbn; lia|]. auto.
  - unfold alive, pt_cr, pt_cz, part_cr, part_cz. destruct Pq as [-> ->]. cbn [geoh YeeModel.g_dr YeeModel.g_dz nr nz a].
    change ParticleModel.cell_number with cell_number. rewrite (cell_number_is (2 / 5) 1 0) by lra. rewrite (cell_number_is 4 1 4) by lra. reflexivity.
Qed.
(** an undivided area with a fast electron *)
Definition geo44 : YeeModel.geo := mkGeo 4 4 0 0 1 1 true true true true (1 / 2).
Definition full44 : full := mkFull (mkWorld (fun _ => quiet4) (fun _ => sz3 4 0) (fun _ _ => [(5, [pt_at (7 / 2) (1 / 2) (1 / 2) (1 / 2) (- (1 / 2))])])) 0 (fun _ _ _ => 0%nat).
Example C176_ex : (parts_fit 1 1 mixed no_collisions zigzag_distribution /\ parts_fit 1 1 mixed no_collisions vb_distribution) /\
  (area_fits 1 geoh 1 2 4 (fun _ => sz 4 1) (fun _ => sz 4 0) (Some (fun _ => quiet4)) /\ total 1 geoh 1 2 4 no_collisions /\ living 1 geoh 1 2 4 [0; 5] (u_w full0)) /\
  (area_fits 1 geo44 1 1 4 (fun _ => sz 4 1) (fun _ => sz 4 0) None /\ total 1 geo44 1 1 4 no_collisions /\ living 1 geo44 1 1 4 [5] (u_w full44)) /\
  clear geoh 1 2 4 (u_w full0) /\ (vel_r (now electron) * g_dt geoh <> 0)%R.
Proof.
  destruct (ex_fits zigzag_distribution (or_introl eq_refl)) as (Pf & Af & Tot & L). destruct (ex_fits vb_distribution (or_intror eq_refl)) as (Pf' & _).
  split; [auto|]. split; [auto|]. split; [|split].
  - split; [|split; [apply C176_none|]].
    + split; [lia|]. split; [cbn; lia|]. split; [unfold sizes; cbn; lra|]. split; [cbn; lra|]. split; [|discriminate]. intros i k _ _. split; apply sz_fits; lia.
    + cbn [u_w full44]. split; [split; [|split]; intros i k _ _; apply sz3_fits|]. split; [intros i k _ _; apply sz3_fits|]. split.
      * split; [repeat constructor; cbn; lia|]. intros i k _ _. reflexivity.
      * intros i k t q Hi Hk Ht Hq. cbn [w_p] in Ht. replace i with 0 by lia. replace k with 0 by lia. destruct Ht as [<-|[]]. destruct Hq as [<-|[]].
        unfold lively, between, slower. cbn [now pt_at pos_r pos_z pos_phi vel_r vel_phi vel_z geo44 YeeModel.g_dr YeeModel.g_dz g_nr g_nz].
        rewrite (cell_number_is (7 / 2) 1 3) by lra. rewrite (cell_number_is (1 / 2) 1 0) by lra. repeat split; try lra; lia.
  - intros i k t q Hi Hk Ht Hq. split; intros n Hn; [lia|]. replace n with 1 by lia. cbn [w_p u_w full0] in Ht. destruct (k =? 0).
    + destruct Ht as [<-|[<-|[]]]; [destruct Hq|]. destruct Hq as [<-|[]]. cbn. lra.
    + destruct Ht as [<-|[<-|[]]]; [|destruct Hq]. destruct Hq as [<-|[]]. cbn. lra.
  - cbn. lra.
Qed.
Print Assumptions C176_round.
Print Assumptions C176_run.
Print Assumptions C176_undivided.
Print Assumptions C176_none.
Print Assumptions C176_line_refuted.
