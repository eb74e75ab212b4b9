(** C171, C172: what a run does when all its charges are multiplied by one number.
    C172: if the masses are multiplied by the square of the number, the same particles fly the same ways, and all fields and
    currents are multiplied by the number.  C171: the number -1, so the masses stay: a run with opposite charges (and the opposite
    external fields) has the opposite fields, and the same particles; the relativistic collisions do not spoil this. *)
From Coq Require Import Reals Lra FunctionalExtensionality String.
From Verif Require Import Base RndUtil DecompModel CollectorModel PushModel ParticleModel StepModel GridModel OverlayModel YeeModel ExtModel CurrentModel YeeSmb SmbCurrent
  BeamModel RoundModel ThmRound FullModel CollModel CollOpModel CollPhaseModel CollRoundModel ScaleProofs.
Open Scope Z_scope.

(** ** specification *)
(** the domain has the same fields, multiplied: [sc] of ScaleProofs compares the sizes and all the cells of two grids *)
Record scaled (L : R) (u v : full) : Prop := mkScaled
  { same_particles : w_p (u_w v) = w_p (u_w u); same_time : u_t v = u_t u; same_bunches : u_c v = u_c u;
    times_fields : forall ik, sy L L (w_f (u_w u) ik) (w_f (u_w v) ik); times_currents : forall ik, sc3 L L (w_j (u_w u) ik) (w_j (u_w v) ik) }.
Record scaled1 (L : R) (u v : full1) : Prop := mkScaled1
  { same_particles1 : o_p (v_w v) = o_p (v_w u); same_time1 : v_t v = v_t u; same_bunches1 : v_c v = v_c u;
    times_fields1 : sy L L (o_f (v_w u)) (o_f (v_w v)); times_currents1 : sc3 L L (o_j (v_w u)) (o_j (v_w v)) }.
Definition extern_scaled (L : R) (x x' : option (doms yee)) : Prop :=
  match x, x' with None, None => True | Some m, Some m' => forall ik, sy L L (m ik) (m' ik) | _, _ => False end.

(** ** back *)
Lemma sc_back L f f' : L <> 0%R -> sc L f f' -> sc (/ L) f' f.
Proof. intros H []. split; auto. intros i j. rewrite sc_cell. now field. Qed.
Lemma sc3_back L f f' : L <> 0%R -> sc3 L L f f' -> sc3 (/ L) (/ L) f' f.
Proof. intros H []. split; now apply sc_back. Qed.
Lemma sy_back L f f' : L <> 0%R -> sy L L f f' -> sy (/ L) (/ L) f' f.
Proof. intros H []. split; now apply sc3_back. Qed.
Lemma scaled_back L u v : L <> 0%R -> scaled L u v -> scaled (/ L) v u.
Proof. intros H []. split; auto; intros; [now apply sy_back|now apply sc3_back]. Qed.
Lemma scaled1_back L u v : L <> 0%R -> scaled1 L u v -> scaled1 (/ L) v u.
Proof. intros H []. split; auto; [now apply sy_back|now apply sc3_back]. Qed.
Lemma extern_back L x x' : L <> 0%R -> extern_scaled L x x' -> extern_scaled (/ L) x' x.
Proof. intros H. destruct x, x'; cbn; auto. intros; now apply sy_back. Qed.

(** ** one round *)
Lemma vec_sc L x y : s3 L L x y -> vec y = vscale L (vec x).
Proof. destruct x as [[a b] c]. cbn. intros ->. unfold vscale. cbn. f_equal; ring. Qed.
Lemma vadd_sc L a b : vadd (vscale L a) (vscale L b) = vscale L (vadd a b).
Proof. unfold vadd, vscale. cbn. f_equal; ring. Qed.
Section Round.
Variable L : R.
Variables pusher pusher' : Z -> v3 -> v3 -> v3 -> outcome v3.
Hypothesis Pu : forall sid e b v, pusher' sid (vscale L e) (vscale L b) v = pusher sid e b v.
Variables charge charge' : Z -> R.
Hypothesis Ch : forall sid, charge' sid = (L * charge sid)%R.
Variable dist : YeeModel.geo -> list CurrentModel.mover -> grid3 R -> outcome (grid3 R).
Hypothesis Di : scheme_sc L L 1 dist.
Variable mu : R.
Variable beams : Z -> option (beam * R).
Variables extern extern' : option (doms yee).
Hypothesis Ex : extern_scaled L extern extern'.
Variables impulse impulse' : Z -> Z -> domain pt -> domain pt -> Prop.
Hypothesis Im : forall i k d d', impulse i k d d' -> impulse' i k d d'.
Variable draw : nat -> Z -> Z -> Z -> nat -> R * R.
Definition ext_sc (x x' : option yee) : Prop := match x, x' with None, None => True | Some y, Some y' => sy L L y y' | _, _ => False end.
Lemma fields_at_sc h y y' x x' r z e b : sy L L y y' -> ext_sc x x' -> fields_at h y x r z e b -> fields_at h y' x' r z (vscale L e) (vscale L b).
Proof using.
  intros [E H _] X (e1 & b1 & E1 & B1 & Q).
  destruct (orel_ok _ _ _ _ (get_field_e_sc L h _ _ r z E) E1) as (e1' & E1' & Se). destruct (orel_ok _ _ _ _ (get_field_h_sc L L h _ _ r z H) B1) as (b1' & B1' & Sb).
  exists e1', b1'. split; [exact E1'|]. split; [exact B1'|]. rewrite (vec_sc _ _ _ Se), (vec_sc _ _ _ Sb). destruct x as [x|], x' as [x'|]; try contradiction.
  - destruct X as [XE XH _]. destruct Q as (e2 & b2 & E2 & B2 & -> & ->).
    destruct (orel_ok _ _ _ _ (get_field_e_sc L h _ _ r z XE) E2) as (e2' & E2' & Te). destruct (orel_ok _ _ _ _ (get_field_h_sc L L h _ _ r z XH) B2) as (b2' & B2' & Tb).
    exists e2', b2'. split; [exact E2'|]. split; [exact B2'|]. rewrite (vec_sc _ _ _ Te), (vec_sc _ _ _ Tb), !vadd_sc. now split.
  - destruct Q as [-> ->]. now split.
Qed.
Lemma kicked_sc h y y' x x' sid q q' : sy L L y y' -> ext_sc x x' -> kicked pusher h y x sid q q' -> kicked pusher' h y' x' sid q q'.
Proof using Pu. intros S X (e & b & v & F & P & E). exists (vscale L e), (vscale L b), v. split; [now apply fields_at_sc with y x|]. split; [now rewrite Pu|exact E]. Qed.
Lemma each_impl (P Q : Z -> pt -> pt -> Prop) d d' : (forall sid q q', P sid q q' -> Q sid q q') -> each P d d' -> each Q d d'.
Proof using.
  intros H. unfold each. induction 1 as [|s s' d d' [E F] _ IH]; constructor; [|exact IH]. split; [exact E|]. clear E. induction F; constructor; auto.
Qed.
Lemma particles_sc a dr dz dt hs m m' t c st st' : sd (sy L L) m m' ->
  full_particles pusher beams extern impulse draw a dr dz dt hs m t c st st' -> full_particles pusher' beams extern' impulse' draw a dr dz dt hs m' t c st st'.
Proof using Pu Ex Im.
  intros M (p1 & [Ad Out] & Co). exists p1. split; [|exact Co]. split; [|exact Out]. intros i k Hi Hk. destruct (Ad i k Hi Hk) as (d1 & d2 & K & I & F).
  exists d1, d2. split; [|split; [now apply Im|exact F]]. revert K. apply each_impl. intros sid q q'. apply kicked_sc; [apply M|].
  unfold extern_scaled in Ex. destruct extern as [x|], extern' as [x'|]; try contradiction; cbn; [apply Ex|constructor].
Qed.
Lemma movers_sc dr dz d : Forall2 (smover L 1) (movers charge dr dz d) (movers charge' dr dz d).
Proof using Ch.
  unfold movers. induction d as [|[sid l] d IH]; cbn [flat_map fst snd]; [constructor|]. apply Forall2_app; [|exact IH]. clear IH.
  induction l as [|q l IH]; cbn [map]; constructor; [|exact IH]. unfold smover, mover_of. cbn [m_r m_z m_ro m_zo m_cr m_cz m_vphi m_q]. f_equal; [|rewrite Ch]; ring.
Qed.
Section Divided.
Variable g : YeeModel.geo.
Variables R C s : Z.
Variables eps sg : doms (grid Rdefinitions.R).
Let run := full_round pusher charge dist mu beams extern impulse draw g R C s eps sg.
Let run' := full_round pusher' charge' dist mu beams extern' impulse' draw g R C s eps sg.
Lemma round_sc u v u' : scaled L u v -> run u u' -> exists v', run' v v' /\ scaled L u' v'.
Proof using Pu Ch Di Ex Im.
  intros [SP ST SB SF SJ] (Y & P & J & T & B). cbv zeta in *.
  destruct (orel_ok _ _ _ _ (smb_step_sc L L mu g R C s eps sg _ _ _ _ SJ SF) Y) as (f' & Y' & F').
  destruct (orel_ok _ _ _ _ (smb_current_sc L L 1 dist g R C s _ (fun ik => movers charge' (YeeModel.g_dr g) (YeeModel.g_dz g) (w_p (u_w u') (fst ik) (snd ik))) _ _ Di (fun q _ _ => movers_sc _ _ _) SJ) J) as (j' & J' & JS).
  exists (mkFull (mkWorld f' j' (w_p (u_w u'))) (u_t u') (u_c u')). split; [|split; auto]. split; [exact Y'|]. cbn [u_w w_f w_j w_p u_t u_c]. split; [|split; [exact J'|]].
  - rewrite ST, SB, SP. revert P. now apply particles_sc.
  - split; [rewrite ST; exact T|]. rewrite ST, SB. exact B.
Qed.
Lemma rounds_sc n : forall u v u', scaled L u v -> rounds run n u u' -> exists v', rounds run' n v v' /\ scaled L u' v'.
Proof using Pu Ch Di Ex Im.
  induction n as [|n IH]; intros u v u' S H; cbn [rounds] in *; [subst u'; exists v; auto|]. destruct H as (w & H1 & H2).
  destruct (round_sc _ _ _ S H1) as (w' & H1' & S'). destruct (IH _ _ _ S' H2) as (v' & H2' & S2). exists v'. split; [exists w'; auto|exact S2].
Qed.
End Divided.
Section One.
Variable g : YeeModel.geo.
Variables Eps Sg : grid R.
Let run := full1_round pusher charge dist mu beams extern impulse draw g Eps Sg.
Let run' := full1_round pusher' charge' dist mu beams extern' impulse' draw g Eps Sg.
Lemma round1_sc u v u' : scaled1 L u v -> run u u' -> exists v', run' v v' /\ scaled1 L u' v'.
Proof using Pu Ch Di Ex Im.
  intros [SP ST SB SF SJ] (Y & P & J & T & B). cbv zeta in *.
  destruct (orel_ok _ _ _ _ (yee_step_sc L L mu g Eps Sg _ _ _ _ SJ SF) Y) as (f' & Y' & F').
  destruct (orel_ok _ _ _ _ (one_current_sc L L 1 dist g _ (movers charge' (YeeModel.g_dr g) (YeeModel.g_dz g) (o_p (v_w u') 0 0)) _ _ Di (movers_sc _ _ _) SJ) J) as (j' & J' & JS).
  exists (mkFull1 (mkWorld1 f' j' (o_p (v_w u'))) (v_t u') (v_c u')). split; [|split; auto]. split; [exact Y'|]. cbn [v_w o_f o_j o_p v_t v_c]. split; [|split; [exact J'|]].
  - rewrite ST, SB, SP. revert P. apply particles_sc. intros _. exact F'.
  - split; [rewrite ST; exact T|]. rewrite ST, SB. exact B.
Qed.
Lemma rounds1_sc n : forall u v u', scaled1 L u v -> rounds run n u u' -> exists v', rounds run' n v v' /\ scaled1 L u' v'.
Proof using Pu Ch Di Ex Im.
  induction n as [|n IH]; intros u v u' S H; cbn [rounds] in *; [subst u'; exists v; auto|]. destruct H as (w & H1 & H2).
  destruct (round1_sc _ _ _ S H1) as (w' & H1' & S'). destruct (IH _ _ _ S' H2) as (v' & H2' & S2). exists v'. split; [exists w'; auto|exact S2].
Qed.
End One.
End Round.

(** ** the pushers *)
(** the pusher of a build, with the number of pusherBoris.cpp:68 (pusherVay.cpp, pusherHC.cpp: the same) *)
Inductive pusher_kind : Type := Classic | Relativistic | Adaptive | Vay | HC.
Definition push (p : pusher_kind) (c lim k mu : R) (e b v : v3) : outcome v3 :=
  match p with
  | Classic => Ok (boris_classic k mu e b v)
  | Relativistic => boris_relativistic c k mu e b v
  | Adaptive => boris_adaptive c lim k mu e b v
  | Vay => vay c k mu e b v
  | HC => hc c k mu e b v
  end.
Definition pusher_of (p : pusher_kind) (c lim mu dt : R) (charge mass : Z -> R) (sid : Z) : v3 -> v3 -> v3 -> outcome v3 :=
  push p c lim (charge sid * dt / (2 * mass sid)) mu.
Lemma vscale_twice a b v : vscale a (vscale b v) = vscale (b * a) v.
Proof. unfold vscale. cbn. f_equal; ring. Qed.
Lemma push_sc p c lim L k k' mu e b v : (L * k' = k)%R -> push p c lim k' mu (vscale L e) (vscale L b) v = push p c lim k mu e b v.
Proof.
  intros <-. destruct p; unfold push, boris_classic, boris_relativistic, boris_adaptive, vay, vay_prime, hc; rewrite ?vscale_twice;
    replace (L * (k' * mu))%R with (L * k' * mu)%R by ring; replace (L * (2 * k'))%R with (2 * (L * k'))%R by ring; try reflexivity.
  all: unfold boris_relativistic, boris_classic; rewrite ?vscale_twice; replace (L * (k' * mu))%R with (L * k' * mu)%R by ring; reflexivity.
Qed.

(** ** the theorems *)
(** the deposition schemes of the code *)
Definition scheme (dist : YeeModel.geo -> list CurrentModel.mover -> grid3 R -> outcome (grid3 R)) : Prop := dist = zigzag_distribution \/ dist = vb_distribution.
Lemma scheme_all L dist : scheme dist -> scheme_sc L L 1 dist.
Proof. intros [->| ->]; [apply zigzag_distribution_sc|apply vb_distribution_sc]; ring. Qed.
Section Laws.
Variables (p : pusher_kind) (c lim mup : R).
Variables (L : R) (charge mass : Z -> R).
Hypothesis HL : L <> 0%R.
Hypothesis Hm : forall sid, mass sid <> 0%R.
Variable dist : YeeModel.geo -> list CurrentModel.mover -> grid3 R -> outcome (grid3 R).
Hypothesis Di : scheme dist.
Variable mu : R.
Variable beams : Z -> option (beam * R).
Variables extern extern' : option (doms yee).
Hypothesis Ex : extern_scaled L extern extern'.
Variables impulse impulse' : Z -> Z -> domain pt -> domain pt -> Prop.
Hypothesis Im : forall i k d d', impulse i k d d' <-> impulse' i k d d'.
Variable draw : nat -> Z -> Z -> Z -> nat -> R * R.
Variable g : YeeModel.geo.
Let dt := YeeModel.g_dt g.
Let charge' sid := (L * charge sid)%R.
Let mass' sid := (L * L * mass sid)%R.
Let pu := pusher_of p c lim mup dt charge mass.
Let pu' := pusher_of p c lim mup dt charge' mass'.
Lemma pu_there sid e b v : pu' sid (vscale L e) (vscale L b) v = pu sid e b v.
Proof using HL Hm. unfold pu, pu', pusher_of. apply push_sc. unfold charge', mass'. field. auto. Qed.
Lemma pu_back sid e b v : pu sid (vscale (/ L) e) (vscale (/ L) b) v = pu' sid e b v.
Proof using HL Hm. unfold pu, pu', pusher_of. apply push_sc. unfold charge', mass'. field. auto. Qed.
Lemma charge_back sid : charge sid = (/ L * charge' sid)%R.
Proof using HL. unfold charge'. now field. Qed.
(** Charges times L, masses times L^2: the particles are the same after any number of rounds, the fields and currents L times; and
    none of the two runs stops unless the other does. *)
Theorem C172_scaling : forall R C s eps sg n u v, scaled L u v ->
  (forall u', rounds (full_round pu charge dist mu beams extern impulse draw g R C s eps sg) n u u' ->
     exists v', rounds (full_round pu' charge' dist mu beams extern' impulse' draw g R C s eps sg) n v v' /\ scaled L u' v') /\
  (forall v', rounds (full_round pu' charge' dist mu beams extern' impulse' draw g R C s eps sg) n v v' ->
     exists u', rounds (full_round pu charge dist mu beams extern impulse draw g R C s eps sg) n u u' /\ scaled L u' v').
Proof using HL Hm Di Ex Im.
  intros R C s eps sg n u v S. split.
  - intros u'. apply rounds_sc; [exact pu_there|reflexivity|now apply scheme_all|exact Ex|apply Im|exact S].
  - intros v' H. assert (B : scaled (/ L) v u) by now apply scaled_back.
    destruct (rounds_sc (/ L) pu' pu pu_back charge' charge charge_back dist (scheme_all _ _ Di) mu beams extern' extern (extern_back _ _ _ HL Ex) impulse' impulse
      (fun i k d d' => proj2 (Im i k d d')) draw g R C s eps sg n _ _ _ B H) as (u' & H' & S').
    exists u'. split; [exact H'|]. apply scaled_back in S'; [|now apply Rinv_neq_0_compat]. now rewrite Rinv_inv in S'.
Qed.
Theorem C172_one_domain : forall Eps Sg n u v, scaled1 L u v ->
  (forall u', rounds (full1_round pu charge dist mu beams extern impulse draw g Eps Sg) n u u' ->
     exists v', rounds (full1_round pu' charge' dist mu beams extern' impulse' draw g Eps Sg) n v v' /\ scaled1 L u' v') /\
  (forall v', rounds (full1_round pu' charge' dist mu beams extern' impulse' draw g Eps Sg) n v v' ->
     exists u', rounds (full1_round pu charge dist mu beams extern impulse draw g Eps Sg) n u u' /\ scaled1 L u' v').
Proof using HL Hm Di Ex Im.
  intros Eps Sg n u v S. split.
  - intros u'. apply rounds1_sc; [exact pu_there|reflexivity|now apply scheme_all|exact Ex|apply Im|exact S].
  - intros v' H. assert (B : scaled1 (/ L) v u) by now apply scaled1_back.
    destruct (rounds1_sc (/ L) pu' pu pu_back charge' charge charge_back dist (scheme_all _ _ Di) mu beams extern' extern (extern_back _ _ _ HL Ex) impulse' impulse
      (fun i k d d' => proj2 (Im i k d d')) draw g Eps Sg n _ _ _ B H) as (u' & H' & S').
    exists u'. split; [exact H'|]. apply scaled1_back in S'; [|now apply Rinv_neq_0_compat]. now rewrite Rinv_inv in S'.
Qed.
End Laws.

(** ** opposite charges *)
Definition opposite (info : Z -> string * R * R) (sid : Z) : string * R * R := let '(name, m, e) := info sid in (name, m, - e)%R.
Definition reverse (s : specie) : specie := Specie (sp_name s) (sp_mass s) (- sp_charge s)%R (sp_ptrs s).
Lemma pointers_reverse info d : forall n, pointers (opposite info) n d = map reverse (pointers info n d).
Proof.
  induction d as [|[sid l] d IH]; intros n; cbn [pointers map fst snd]; [reflexivity|]. unfold opposite at 1. destruct (info sid) as [[nm m] e]. cbn [map]. now rewrite IH.
Qed.
Lemma sort_reverse nr nz d0 d1 h l : forall m, sort_to_cells nr nz d0 d1 h (map reverse l) m = sort_to_cells nr nz d0 d1 h l m.
Proof. induction l as [|s l IH]; intros m; cbn [map sort_to_cells]; [reflexivity|]. destruct s. cbn. destruct (sort_ptrs _ _ _ _ _ _ _ _); cbn; auto. Qed.
Lemma find_reverse f l : (forall s, f (reverse s) = f s) -> find_last f (map reverse l) = match find_last f l with Some s => Some (reverse s) | None => None end.
Proof.
  intros H. unfold find_last.
  assert (G : forall a, fold_left (fun acc s => if f s then Some s else acc) (map reverse l) (option_map reverse a) =
    option_map reverse (fold_left (fun acc s => if f s then Some s else acc) l a)).
  { induction l as [|s r IH]; intros a; cbn [map fold_left]; [reflexivity|]. rewrite H. destruct (f s); [apply (IH (Some s))|apply IH]. }
  specialize (G None). cbn [option_map] in G. rewrite G. now destruct (fold_left _ l None).
Qed.
(** an operator that depends on the square of the charges *)
Definition even {D} (single : (kind -> R) -> (kind -> R) -> kind -> kind -> CollOpModel.part -> CollOpModel.part -> R -> R -> R -> D -> coll) : Prop :=
  forall mass charge, single mass (fun k => - charge k)%R = single mass charge.
Lemma phase_reverse nr nz d0 d1 dr dz ev corrected {D} single (draw : Z -> Z -> nat -> D) shuffle sp m h : even single ->
  phase nr nz d0 d1 dr dz ev corrected single draw shuffle (map reverse sp) m h = phase nr nz d0 d1 dr dz ev corrected single draw shuffle sp m h.
Proof.
  intros E. unfold phase. rewrite sort_reverse. destruct (sort_to_cells _ _ _ _ _ _ _) as [m1| |]; cbn [bind]; try reflexivity.
  rewrite !find_reverse by (intros []; reflexivity). destruct (find_last is_el sp) as [e|]; [|reflexivity]. destruct (find_last is_ion sp) as [i|]; [|reflexivity].
  unfold reverse. cbn [sp_mass sp_charge]. replace (per_kind (- sp_charge e)%R (- sp_charge i)%R) with (fun k => - per_kind (sp_charge e) (sp_charge i) k)%R; [now rewrite E|].
  apply functional_extensionality. intros []; reflexivity.
Qed.
(** The collisions of a domain do not see the sign of the charges *)
Theorem C171_collisions : forall info stored nr nz d0 d1 dr dz ev corrected D single draw shuffle i k d d', even single ->
  collided (opposite info) stored nr nz d0 d1 dr dz ev corrected D single draw shuffle i k d d' <-> collided info stored nr nz d0 d1 dr dz ev corrected D single draw shuffle i k d d'.
Proof.
  intros. unfold collided. split; intros (rest & m0 & m & h' & E & ->); exists rest, m0, m, h'; (split; [|reflexivity]);
    revert E; rewrite pointers_reverse, phase_reverse by assumption; auto.
Qed.
Ltac ext10 := repeat (apply functional_extensionality; intro).
Theorem C171_even : even ta77 /\ (forall c eps0 hbar mnzl step, even (sk98 c eps0 hbar mnzl step)) /\ (forall c eps0 hbar mnzl lim step, even (p12 c eps0 hbar mnzl lim step)) /\
  (forall eps0 hbar step ma mb qa qb pa pb na nb debye normal phi dzeta,
     ta77_draw eps0 hbar step ma mb (- qa) (- qb) pa pb na nb debye normal phi dzeta = ta77_draw eps0 hbar step ma mb qa qb pa pb na nb debye normal phi dzeta).
Proof.
  split; [intros m q; reflexivity|]. split; [|split].
  - intros c eps0 hbar mnzl step m q. ext10. unfold sk98, sk98_single, sk98_sorted, collision_frequency.
    replace (- q x0 * - q x)%R with (q x0 * q x)%R by ring. replace (- q x * - q x0)%R with (q x * q x0)%R by ring. reflexivity.
  - intros c eps0 hbar mnzl lim step m q. ext10. unfold p12, p12_single, p12_core, p12_s.
    replace (- q x0 * - q x)%R with (q x0 * q x)%R by ring. replace (- q x * - q x0)%R with (q x * q x0)%R by ring. reflexivity.
  - intros. unfold ta77_draw, ta77_variance. replace ((- qa) ^ 2)%R with (qa ^ 2)%R by ring. replace ((- qb) ^ 2)%R with (qb ^ 2)%R by ring. reflexivity.
Qed.
Section Reversal.
Variables (p : pusher_kind) (c lim mup : R).
Variables (charge mass : Z -> R).
Hypothesis Hm : forall sid, mass sid <> 0%R.
Variable dist : YeeModel.geo -> list CurrentModel.mover -> grid3 R -> outcome (grid3 R).
Hypothesis Di : scheme dist.
Variable mu : R.
Variable beams : Z -> option (beam * R).
Variables extern extern' : option (doms yee).
Hypothesis Ex : extern_scaled (-1) extern extern'.
Variables impulse impulse' : Z -> Z -> domain pt -> domain pt -> Prop.
Hypothesis Im : forall i k d d', impulse i k d d' <-> impulse' i k d d'.
Variable draw : nat -> Z -> Z -> Z -> nat -> R * R.
Variable g : YeeModel.geo.
Let dt := YeeModel.g_dt g.
Let charge' sid := (- charge sid)%R.
Lemma charge_neg : charge' = fun sid => (-1 * charge sid)%R.
Proof using. apply functional_extensionality. intros sid. unfold charge'. ring. Qed.
Lemma mass_neg : mass = fun sid => (-1 * -1 * mass sid)%R.
Proof using. apply functional_extensionality. intros sid. ring. Qed.
(** Opposite charges, and the same particles as before: they stay the same, the fields and currents are the opposite ones. *)
Theorem C171_reversal : forall R C s eps sg n u v, scaled (-1) u v ->
  (forall u', rounds (full_round (pusher_of p c lim mup dt charge mass) charge dist mu beams extern impulse draw g R C s eps sg) n u u' ->
     exists v', rounds (full_round (pusher_of p c lim mup dt charge' mass) charge' dist mu beams extern' impulse' draw g R C s eps sg) n v v' /\ scaled (-1) u' v') /\
  (forall v', rounds (full_round (pusher_of p c lim mup dt charge' mass) charge' dist mu beams extern' impulse' draw g R C s eps sg) n v v' ->
     exists u', rounds (full_round (pusher_of p c lim mup dt charge mass) charge dist mu beams extern impulse draw g R C s eps sg) n u u' /\ scaled (-1) u' v').
Proof using Hm Di Ex Im.
  intros R C s eps sg n u v S. rewrite charge_neg. assert (N : (-1 <> 0)%R) by lra.
  pose proof (C172_scaling p c lim mup (-1) charge mass N Hm dist Di mu beams extern extern' Ex impulse impulse' Im draw g R C s eps sg n u v S) as H.
  rewrite <- mass_neg in H. exact H.
Qed.
Theorem C171_one_domain : forall Eps Sg n u v, scaled1 (-1) u v ->
  (forall u', rounds (full1_round (pusher_of p c lim mup dt charge mass) charge dist mu beams extern impulse draw g Eps Sg) n u u' ->
     exists v', rounds (full1_round (pusher_of p c lim mup dt charge' mass) charge' dist mu beams extern' impulse' draw g Eps Sg) n v v' /\ scaled1 (-1) u' v') /\
  (forall v', rounds (full1_round (pusher_of p c lim mup dt charge' mass) charge' dist mu beams extern' impulse' draw g Eps Sg) n v v' ->
     exists u', rounds (full1_round (pusher_of p c lim mup dt charge mass) charge dist mu beams extern impulse draw g Eps Sg) n u u' /\ scaled1 (-1) u' v').
Proof using Hm Di Ex Im.
  intros Eps Sg n u v S. rewrite charge_neg. assert (N : (-1 <> 0)%R) by lra.
  pose proof (C172_one_domain p c lim mup (-1) charge mass N Hm dist Di mu beams extern extern' Ex impulse impulse' Im draw g Eps Sg n u v S) as H.
  rewrite <- mass_neg in H. exact H.
Qed.
End Reversal.

(** ** without charges *)
Definition nothing (u : full) : Prop := (forall ik, sy 0 0 (w_f (u_w u) ik) (w_f (u_w u) ik)) /\ (forall ik, sc3 0 0 (w_j (u_w u) ik) (w_j (u_w u) ik)).
(** Uncharged particles and no fields at the start: no fields ever.  (A grid that is zero times itself is zero.) *)
Theorem C172_nothing : forall pusher dist mu beams extern impulse draw g R C s eps sg n u u', scheme dist ->
  rounds (full_round pusher (fun _ => 0%R) dist mu beams extern impulse draw g R C s eps sg) n u u' -> nothing u -> nothing u'.
Proof.
  intros pusher dist mu beams extern impulse draw g R C s eps sg n u u' D. revert u. induction n as [|n IH]; intros u; cbn [rounds]; [now intros ->|].
  intros (w & (Y & _ & J & _) & H) [F K]. apply (IH w H). clear IH H. cbv zeta in J.
  assert (F' := smb_step_sc 0 0 mu g R C s eps sg _ _ _ _ K F). rewrite Y in F'.
  assert (J' := smb_current_sc 0 0 1 dist g R C s _ _ _ _ (scheme_all 0 dist D)
    (fun q _ _ => movers_sc 0 (fun _ => 0%R) (fun _ => 0%R) (fun _ => eq_sym (Rmult_0_l 0)) (YeeModel.g_dr g) (YeeModel.g_dz g) (w_p (u_w w) (fst q) (snd q))) K). rewrite J in J'.
  split; [exact F'|exact J'].
Qed.

(** ** examples *)
From Coq Require Import Permutation.
From Verif Require Import DecompProofs CollectorProofs ListUtil ThmDecomp ThmPush YeeProofs ThmYee ThmExt ThmCurrent CurrentProofs ThmCurrent2 ThmStep RoundProofs ThmDivide ThmYeeSmb ThmGauss ThmRoundGauss ThmGaussRef ThmFull ThmBeamGauss.
Definition times_grid (L : R) (f : grid R) : grid R := mkGrid (xr f) (yr f) (xs f) (ys f) (os f) (fun i j => L * GridModel.cell f i j)%R.
Definition times3 (L : R) (f : grid3 R) : grid3 R := mkGrid3 (times_grid L (c_r f)) (times_grid L (c_phi f)) (times_grid L (c_z f)).
Definition times_yee (L : R) (y : yee) : yee := mkYee (times3 L (y_e y)) (times3 L (y_h y)) (times3 L (y_t y)).
Definition times_full (L : R) (u : full) : full :=
  mkFull (mkWorld (fun ik => times_yee L (w_f (u_w u) ik)) (fun ik => times3 L (w_j (u_w u) ik)) (w_p (u_w u))) (u_t u) (u_c u).
Lemma times_scaled L u : scaled L u (times_full L u).
Proof. split; try reflexivity; intros; repeat split. Qed.

Definition elec : Z -> R := fun _ => (-1)%R.
Definition unit_mass : Z -> R := fun _ => 1%R.
Lemma still v : subluminal 1 v -> pusher_of Relativistic 1 1 1 1 elec unit_mass 9 ThmPush.zero3 ThmPush.zero3 v = Ok v.
Proof.
  intros S. unfold pusher_of, push. destruct (C72_electric 1 (elec 9 * 1 / (2 * unit_mass 9)) 1 ThmPush.zero3 v ltac:(lra) S) as ((v' & E & S' & M) & _). rewrite E. f_equal.
  apply (mom_inj 1 ltac:(lra)); try assumption. rewrite M. unfold vadd, vscale, ThmPush.zero3. destruct (mom 1 v). cbn. f_equal; ring.
Qed.
Definition flew : pt := mkPt (beam_flight geo8 (hurled came (V3 0 0 (/ 2)))) (5 / 4) (3 / 4).
Lemma flew_at : pos_r (now flew) = (5 / 4)%R /\ pos_z (now flew) = (5 / 4)%R.
Proof.
  unfold flew, beam_flight, hurled, came. cbn [now pos_r pos_phi pos_z vel_r vel_phi vel_z p_sin ParticleModel.weight vx vy vz g_dt g_dr geo8].
  assert (S : sqrt ((5 / 4 + 0 * 1) * (5 / 4 + 0 * 1) + 0 * 1 * (0 * 1)) = (5 / 4)%R).
  { replace ((5 / 4 + 0 * 1) * (5 / 4 + 0 * 1) + 0 * 1 * (0 * 1))%R with ((5 / 4) * (5 / 4))%R by field. apply sqrt_square. lra. }
  rewrite ?S. destruct (Rlt_dec (5 / 4) (1 / 2)); [lra|]. split; lra.
Qed.
Lemma sc3_zero n : sc3 0 0 (sz3 n 0) (sz3 n 0).
Proof. split; split; try reflexivity; intros; cbn; ring. Qed.
Lemma sy_zero : sy 0 0 quiet quiet.
Proof. split; apply sc3_zero. Qed.
Lemma zero_vec x : s3 0 0 x x -> vec x = ThmPush.zero3.
Proof. intros H. rewrite (vec_sc _ _ _ H). unfold vscale, ThmPush.zero3. cbn. f_equal; ring. Qed.
(** a round with a beam of electrons, with the relativistic pusher of Boris *)
Definition shot : domain pt := [(9, [mkPt (hurled came (V3 0 0 (/ 2))) 0 0])].
Lemma beam_round_any (impulse : Z -> Z -> domain pt -> domain pt -> Prop) : impulse 0 0 shot shot ->
  exists u', full1_round (pusher_of Relativistic 1 1 1 1 elec unit_mass) elec vb_distribution 1 bms outside impulse dice geo8 (sz 8 1) (sz 8 0) empty9 u' /\ o_p (v_w u') 0 0 = [(9, [flew])].
Proof.
  intros Hi0. assert (F3 : forall v, fits3 8 8 (sz3 8 v)) by (intros v c; destruct c; apply sz_fits; lia).
  destruct (yee_step_ok 1 geo8 (sz 8 1) (sz 8 0) (sz3 8 0) quiet ltac:(split; cbn; lia) ltac:(apply sz_fits; lia) ltac:(apply sz_fits; lia) (F3 0%R) ltac:(split; [apply F3|split; apply F3])) as (y' & Ey & (Fe & Fh & Ft)).
  assert (Z := yee_step_sc 0 0 1 geo8 (sz 8 1) (sz 8 0) _ _ _ _ (sc3_zero 8) sy_zero). rewrite Ey in Z. cbn [orel] in Z. destruct Z as [Ze Zh _].
  set (a1 := whole geo8).
  assert (Ga1 : good_area a1) by (apply one_good; cbn; lia).
  assert (Ins : inside geo8 (5 / 4) (3 / 4)) by (unfold inside; cbn; repeat split; (lia || lra)).
  destruct (C41_defined geo8 (y_e y') _ _ Fe Ins) as (e & _ & Ee & _). destruct (C41_defined geo8 (y_h y') _ _ Fh Ins) as (_ & b & _ & Eb).
  destruct (C41_defined geo8 (sz3 8 0) _ _ (F3 0%R) Ins) as (e2 & b2 & Ee2 & Eb2).
  assert (Q1 := get_field_e_sc 0 geo8 _ _ (5 / 4) (3 / 4) Ze). rewrite Ee in Q1. assert (Q2 := get_field_h_sc 0 0 geo8 _ _ (5 / 4) (3 / 4) Zh). rewrite Eb in Q2.
  assert (Q3 := get_field_e_sc 0 geo8 _ _ (5 / 4) (3 / 4) (sc3_zero 8)). rewrite Ee2 in Q3. assert (Q4 := get_field_h_sc 0 0 geo8 _ _ (5 / 4) (3 / 4) (sc3_zero 8)). rewrite Eb2 in Q4.
  assert (Ve : vadd (vec e) (vec e2) = ThmPush.zero3) by (rewrite (zero_vec _ Q1), (zero_vec _ Q3); unfold vadd, ThmPush.zero3; cbn; f_equal; ring).
  assert (Vb : vadd (vec b) (vec b2) = ThmPush.zero3) by (rewrite (zero_vec _ Q2), (zero_vec _ Q4); unfold vadd, ThmPush.zero3; cbn; f_equal; ring).
  set (p0 := inject_beams bms dice a1 1 1 1 0 (fun _ _ _ => 0%nat) (fun _ _ => [(9, [])])).
  set (p1 := upd_dom pt p0 0 0 [(9, [flew])]).
  assert (Ad : advance_all (pusher_of Relativistic 1 1 1 1 elec unit_mass) bms outside impulse a1 (fun _ => geo8) (domain_geo a1 1 1) (fun _ => y') p0 p1).
  { split.
    - intros i k Hi Hk. cbn [rd_ zd_ a1 whole] in Hi, Hk. replace i with 0 by lia. replace k with 0 by lia. unfold p1. rewrite upd_dom_eq.
      unfold p0, inject_beams. cbn [map fst snd app]. unfold a1. rewrite one_came. cbn [outside].
      exists shot, shot. split; [|split; [exact Hi0|]].
      + constructor; [|constructor]. split; [reflexivity|]. constructor; [|constructor].
        exists (vadd (vec e) (vec e2)), (vadd (vec b) (vec b2)), (V3 0 0 (/ 2)). split; [|split; [|reflexivity]].
        * exists e, b. cbn [came now pos_r pos_z]. split; [exact Ee|]. split; [exact Eb|]. exists e2, b2. auto.
        * cbn [fst came now vel_r vel_phi vel_z]. rewrite Ve, Vb. apply still. unfold subluminal, len2. cbn [vx vy vz]. lra.
      + constructor; [|constructor]. split; [reflexivity|]. constructor; [|constructor]. split; [|split; reflexivity].
        cbn [fst bms]. change (9 =? 9) with true. cbv iota. cbn [flew now].
        symmetry. apply (beam_flies geo8 (domain_geo (whole geo8) 1 1 0 0) came (V3 0 0 (/ 2))); reflexivity.
    - intros i k N. unfold p1. apply upd_dom_ne. intros [= -> ->]. apply N. cbn. lia. }
  assert (Ip : ids_ok a1 [9] p1).
  { split; [repeat constructor; intros []|]. intros i k Hi Hk. cbn [a1 whole rd_ zd_] in Hi, Hk. replace i with 0 by lia. replace k with 0 by lia. reflexivity. }
  destruct (C08_collector_conserves pt pt_eq_dec (pt_cr 1) (pt_cz 1) a1 [9] p1 Ga1 (pt_int geo8) Ip) as (st' & Ec & Is' & P' & _).
  assert (Pq : particles_of a1 9 p1 = [flew]) by reflexivity. destruct flew_at as (L1 & L2).
  assert (C1 : cell_number (5 / 4) 1 = 1) by (apply cell_is; lra). assert (C0 : cell_number (3 / 4) 1 = 0) by (apply cell_is; lra).
  assert (Pc : pt_cr 1 flew = 1 /\ pt_cz 1 flew = 1).
  { unfold pt_cr, pt_cz, part_cr, part_cz. rewrite L1, L2. change (ParticleModel.cell_number (5 / 4) 1) with (cell_number (5 / 4) 1). rewrite C1. split; reflexivity. }
  destruct Pc as [Pc1 Pc2].
  assert (P9 : Permutation (particles_of a1 9 st') [flew]) by (rewrite P', Pq; cbn [filter]; unfold alive; rewrite Pc1, Pc2; reflexivity).
  assert (Only : st' 0 0 = [(9, [flew])]).
  { destruct Is' as [_ I]. specialize (I 0 0 ltac:(cbn; lia) ltac:(cbn; lia)). destruct (st' 0 0) as [|[sid d] [|? ?]] eqn:E; try discriminate I. injection I as ->.
    unfold particles_of in P9. change (pairs (rd_ a1) (zd_ a1)) with [(0, 0)] in P9. cbn [flat_map fst snd] in P9. rewrite E in P9. cbn [flat_map fst snd] in P9.
    rewrite Z.eqb_refl, !app_nil_r in P9. apply Permutation_sym, Permutation_length_1_inv in P9. now rewrite P9. }
  assert (LN : Forall (lands geo8) (movers elec 1 1 (st' 0 0))).
  { rewrite Only. cbn [movers flat_map map fst snd app]. constructor; [|constructor]. unfold lands, ThmCurrent.bound.
    cbn [mover_of m_r m_z m_ro m_zo m_cr m_cz g_dr g_dz g_d0 g_d1 g_nr g_nz geo8]. rewrite Pc1, Pc2, L1, L2, C1. cbn [flew RoundModel.old_r RoundModel.old_z]. repeat split; try lra; lia. }
  assert (Sz : sizes geo8) by (unfold sizes; cbn; lra).
  destruct (zero_vb geo8 _ (sz3 8 0) Sz (F3 0%R) LN) as (j' & Ej & _).
  exists (mkFull1 (mkWorld1 y' j' st') 1 (next_bunch bms a1 1 1 0 (fun _ _ _ => 0%nat))). split; [|exact Only].
  split; [exact Ey|]. split; [exists p1; split; [exact Ad|exact Ec]|]. split; [exact Ej|]. split; reflexivity.
Qed.
Lemma beam_round : exists u', full1_round (pusher_of Relativistic 1 1 1 1 elec unit_mass) elec vb_distribution 1 bms outside none dice geo8 (sz 8 1) (sz 8 0) empty9 u' /\ o_p (v_w u') 0 0 = [(9, [flew])].
Proof. now apply beam_round_any. Qed.
Definition times_full1 (L : R) (u : full1) : full1 := mkFull1 (mkWorld1 (times_yee L (o_f (v_w u))) (times3 L (o_j (v_w u))) (o_p (v_w u))) (v_t u) (v_c u).
Lemma times_scaled1 L u : scaled1 L u (times_full1 L u).
Proof. split; try reflexivity; repeat split. Qed.
Lemma outside_scaled L : extern_scaled L outside outside.
Proof. intros ik. split; split; split; try reflexivity; intros; cbn; ring. Qed.
(** the same beam of positrons *)
Example C171_ex : exists u' v', full1_round (pusher_of Relativistic 1 1 1 1 elec unit_mass) elec vb_distribution 1 bms outside none dice geo8 (sz 8 1) (sz 8 0) empty9 u' /\
  full1_round (pusher_of Relativistic 1 1 1 1 (fun sid => - elec sid)%R unit_mass) (fun sid => - elec sid)%R vb_distribution 1 bms outside none dice geo8 (sz 8 1) (sz 8 0) (times_full1 (-1) empty9) v' /\
  scaled1 (-1) u' v' /\ o_p (v_w u') 0 0 = [(9, [flew])].
Proof.
  destruct beam_round as (u' & H & P).
  destruct (C171_one_domain Relativistic 1 1 1 elec unit_mass (fun _ => R1_neq_R0) vb_distribution (or_intror eq_refl) 1 bms outside outside (outside_scaled _) none none (fun _ _ _ _ => iff_refl _) dice geo8
    (sz 8 1) (sz 8 0) 1 empty9 _ (times_scaled1 _ _)) as [T _].
  destruct (T u' ltac:(cbn [rounds]; exists u'; auto)) as (v' & (w & Hw & ->) & S). exists u', w. auto.
Qed.
(** three times the charge, nine times the mass *)
Example C172_ex : exists u' v', full1_round (pusher_of Relativistic 1 1 1 1 elec unit_mass) elec vb_distribution 1 bms outside none dice geo8 (sz 8 1) (sz 8 0) empty9 u' /\
  full1_round (pusher_of Relativistic 1 1 1 1 (fun sid => 3 * elec sid)%R (fun sid => 3 * 3 * unit_mass sid)%R) (fun sid => 3 * elec sid)%R vb_distribution 1 bms outside none dice geo8 (sz 8 1) (sz 8 0)
    (times_full1 3 empty9) v' /\
  scaled1 3 u' v' /\ o_p (v_w u') 0 0 = [(9, [flew])].
Proof.
  destruct beam_round as (u' & H & P).
  destruct (C172_one_domain Relativistic 1 1 1 3 elec unit_mass ltac:(lra) (fun _ => R1_neq_R0) vb_distribution (or_intror eq_refl) 1 bms outside outside (outside_scaled _) none none (fun _ _ _ _ => iff_refl _) dice geo8
    (sz 8 1) (sz 8 0) 1 empty9 _ (times_scaled1 _ _)) as [T _].
  destruct (T u' ltac:(cbn [rounds]; exists u'; auto)) as (v' & (w & Hw & ->) & S). exists u', w. auto.
Qed.

Print Assumptions C171_reversal.
Print Assumptions C171_one_domain.
Print Assumptions C171_collisions.
Print Assumptions C171_even.
Print Assumptions C171_ex.
Print Assumptions C172_scaling.
Print Assumptions C172_one_domain.
Print Assumptions C172_nothing.
Print Assumptions C172_ex.
