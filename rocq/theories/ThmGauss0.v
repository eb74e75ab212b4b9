(** C149: whether the fields a run starts with obey Gauss's law.  The program starts with fields that are zero (maxwellSolver.hpp:51-69,
    maxwellSolverYee.cpp:27-29); SMB.cpp and specieP.cpp place the particles without solving for the field of their charges. *)
From Coq Require Import ZifyBool Reals Lra Psatz Permutation.
From Verif Require Import Base RndUtil DecompModel DecompProofs CollectorModel CollectorProofs ListUtil PushModel ThmPush ParticleModel ParticleProofs StepModel InitModel
  ThmParticle ThmInit ThmDecomp ThmStep ThmFlight GridModel GridProofs OverlayModel YeeModel YeeProofs ThmYee ExtModel ThmExt ThmInterp CurrentModel CurrentProofs ThmCurrent ThmCurrent2
  SumUtil YeeSmb ThmYeeSmb SmbCorner SmbCurrent ThmDivide RoundModel RoundProofs ThmRound ThmRest ThmGauss.
Open Scope Z_scope.

(** ** specification *)
(** the charges of one domain: charge, radius and z of every particle *)
Definition charges (charge : Z -> R) (d : domain pt) : list (R * R * R) :=
  flat_map (fun s => map (fun q => (charge (fst s) * weight (now q), pos_r (now q), pos_z (now q))%R) (snd s)) d.
(** Gauss's law at a node: the flux of the electric field out of the cell around the node is the charge in the cell *)
Definition gauss (g : YeeModel.geo) (ev : R) (e : grid3 R) (l : list (R * R * R)) (i k : Z) : Prop := (ev * flux g e i k = ThmGauss.charge g l i k)%R.
Definition empty_e (g : YeeModel.geo) (e : grid3 R) : Prop := forall c x y, inw (g_nr g) (g_nz g) x y -> lv (getc c e) x y = 0%R.

Lemma flux_empty g e i k : empty_e g e -> node g i k -> flux g e i k = 0%R.
Proof.
  intros Z ((A & B) & D & E). unfold flux. pose proof (Z Cr i k ltac:(unfold inw; lia)) as Z1. pose proof (Z Cz i k ltac:(unfold inw; lia)) as Z2.
  pose proof (Z Cz i (k - 1) ltac:(unfold inw; lia)) as Z3. cbn [getc] in Z1, Z2, Z3. rewrite Z1, Z2, Z3.
  destruct (i =? 0) eqn:I0; [ring|]. pose proof (Z Cr (i - 1) k ltac:(unfold inw; lia)) as Z4. cbn [getc] in Z4. rewrite Z4. ring.
Qed.

(** * C149 *)
(** with the fields of the start the law holds at a node if and only if the charges around the node cancel *)
Theorem C149_start_partial : forall g ev e l i k, empty_e g e -> node g i k -> (gauss g ev e l i k <-> ThmGauss.charge g l i k = 0%R).
Proof. intros g ev e l i k He Hn. unfold gauss. rewrite flux_empty by assumption. split; intros H; lra. Qed.
(** so it holds when every particle has a partner of the opposite charge at the same place *)
Theorem C149_neutral : forall g ev e l i k, empty_e g e -> node g i k -> gauss g ev e (l ++ map (fun c => match c with (q, r, z) => (- q, r, z)%R end) l) i k.
Proof.
  intros g ev e l i k He Hn. apply C149_start_partial; auto. unfold ThmGauss.charge.
  assert (X : forall (A : Type) (f : A -> R) l1 l2, sum_over f (l1 ++ l2) = (sum_over f l1 + sum_over f l2)%R).
  { intros A f l1 l2. induction l1 as [|a l1 IH]; cbn [sum_over app]; [ring|]. rewrite IH. ring. }
  rewrite X. clear. induction l as [|[[q r] z] l IH]; cbn [sum_over map]; [ring|]. lra.
Qed.

Lemma sum_over_perm {A} (f : A -> R) l l' : Permutation l l' -> sum_over f l = sum_over f l'.
Proof. induction 1; cbn [sum_over]; lra. Qed.
Lemma sum_over_app {A} (f : A -> R) l l' : sum_over f (l ++ l') = (sum_over f l + sum_over f l')%R.
Proof. induction l as [|a l IH]; cbn [sum_over app]; [ring|]. rewrite IH. ring. Qed.
Definition of_sid (sid : Z) (d : domain pt) : list pt := flat_map (fun s => if fst s =? sid then snd s else []) d.
Lemma of_sid_none sid (d : domain pt) : ~ In sid (map fst d) -> of_sid sid d = [].
Proof.
  induction d as [|[s l] d IH]; intros H; [reflexivity|]. cbn [of_sid flat_map fst snd map] in *. destruct (s =? sid) eqn:E; [exfalso; apply H; left; lia|].
  apply IH. intros I. apply H. now right.
Qed.
Lemma charges_same charge g i k : forall d d' : domain pt, NoDup (map fst d) -> map fst d' = map fst d ->
  (forall sid, Permutation (map place (of_sid sid d')) (map place (of_sid sid d))) ->
  ThmGauss.charge g (charges charge d') i k = ThmGauss.charge g (charges charge d) i k.
Proof.
  unfold ThmGauss.charge, charges. induction d as [|[s l] d IH]; intros [|[s' l'] d'] N E P; cbn [map] in E; try discriminate; [reflexivity|].
  injection E as Es Ed. cbn [fst] in Es. subst s'. cbn [map fst] in N. apply NoDup_cons_iff in N as [Ni N].
  cbn [flat_map fst snd]. rewrite !sum_over_app. f_equal.
  - specialize (P s). cbn [of_sid flat_map fst snd] in P. rewrite Z.eqb_refl in P. fold (of_sid s d') in P. fold (of_sid s d) in P.
    rewrite !of_sid_none, !app_nil_r in P; [|exact Ni|rewrite Ed; exact Ni].
    rewrite !ThmGauss.sum_over_map. assert (F : forall l, sum_over (fun q : pt => charge s * weight (now q) * (share_r g i (pos_r (now q)) * share_z g k (pos_z (now q))))%R l =
      sum_over (fun p => match p with (r, z, m) => charge s * m * (share_r g i r * share_z g k z) end)%R (map place l)) by (intros l0; now rewrite ThmGauss.sum_over_map).
    rewrite !F. now apply sum_over_perm.
  - apply IH; [exact N|exact Ed|]. intros sid. destruct (Z.eq_dec s sid) as [->|Ne].
    + rewrite !of_sid_none; [reflexivity|exact Ni|rewrite Ed; exact Ni].
    + specialize (P sid). cbn [of_sid flat_map fst snd] in P. replace (s =? sid) with false in P by lia. exact P.
Qed.
(** two species of opposite charges are neutral when their particles have the same places and weights, as after the regular, the centered and
    the flat placement of as many particles with the same density (these depend on nothing else, see InitModel) *)
Theorem C149_same_places : forall charge g ev e s1 s2 (l1 l2 : list pt) i k, empty_e g e -> node g i k -> charge s2 = (- charge s1)%R ->
  Permutation (map place l1) (map place l2) -> gauss g ev e (charges charge [(s1, l1); (s2, l2)]) i k.
Proof.
  intros charge g ev e s1 s2 l1 l2 i k He Hn Hc P. apply C149_start_partial; auto. unfold ThmGauss.charge, charges. cbn [flat_map fst snd].
  rewrite !sum_over_app, !ThmGauss.sum_over_map. cbn [sum_over]. rewrite Hc.
  assert (F : forall c l, sum_over (fun q : pt => c * weight (now q) * (share_r g i (pos_r (now q)) * share_z g k (pos_z (now q))))%R l =
      sum_over (fun p => match p with (r, z, m) => c * m * (share_r g i r * share_z g k z) end)%R (map place l)) by (intros c l; now rewrite ThmGauss.sum_over_map).
  rewrite !F, (sum_over_perm _ _ _ P). clear. induction (map place l2) as [|[[r z] m] l IH]; cbn [sum_over]; [ring|]. lra.
Qed.
(** when the plasma is at rest the error stays: the fields are zero for ever, and no force acts on the charges *)
Theorem C149_for_ever : forall pusher charge mu g eps sg Eps Sg ids n w w', (forall sid, pusher sid (V3 0 0 0)%R (V3 0 0 0)%R (V3 0 0 0)%R = Ok (V3 0 0 0)%R) ->
  4 <= g_nr g -> g_nz g = g_nr g -> g_nr g < 2 ^ 31 -> g_d0 g = 0 -> g_d1 g = 0 -> sizes g ->
  inner2 1 1 (g_nr g) eps Eps -> inner2 1 1 (g_nr g) sg Sg -> cold g 1 1 (g_nr g) ids w ->
  forall dist, dist = zigzag_distribution \/ dist = vb_distribution -> rounds (smb_round pusher charge dist mu g 1 1 (g_nr g) eps sg) n w w' ->
  forall ev i k, node g i k ->
  (gauss g ev (y_e (w_f w' (0, 0))) (charges charge (w_p w' 0 0)) i k <-> gauss g ev (y_e (w_f w (0, 0))) (charges charge (w_p w 0 0)) i k) /\
  (ev * flux g (y_e (w_f w' (0, 0)%Z)) i k - ThmGauss.charge g (charges charge (w_p w' 0%Z 0%Z)) i k = - ThmGauss.charge g (charges charge (w_p w 0%Z 0%Z)) i k)%R.
Proof.
  intros pusher charge mu g eps sg Eps Sg ids n w w' I Hn Hz HL D0 D1 Sz Ie Is Co dist Hd Rn ev i k Nd.
  destruct (C148_run pusher charge mu g 1 1 (g_nr g) eps sg Eps Sg ids n w I ltac:(lia) ltac:(lia) Hn ltac:(lia) ltac:(lia) HL ltac:(lia) D0 D1 Sz Ie Is Co dist Hd) as [_ A].
  destruct (A w' Rn) as [C' P].
  assert (E : forall v, cold g 1 1 (g_nr g) ids v -> empty_e g (y_e (w_f v (0, 0)))).
  { intros v (_ & Z & _) c x y W. rewrite Hz in W. apply (Z 0 0 c x y ltac:(lia) ltac:(lia) W). }
  assert (Q : ThmGauss.charge g (charges charge (w_p w' 0 0)) i k = ThmGauss.charge g (charges charge (w_p w 0 0)) i k).
  { destruct Co as (_ & _ & _ & (N & Ii) & _). destruct C' as (_ & _ & _ & (_ & Ii') & _). cbn [rd_ zd_] in Ii, Ii'.
    apply charges_same; [rewrite Ii by lia; exact N|rewrite Ii, Ii' by lia; reflexivity|]. intros sid. specialize (P sid). unfold particles_of in P. cbn [rd_ zd_] in P.
    change (pairs 1 1) with [(0, 0)] in P. cbn [flat_map fst snd] in P. rewrite !app_nil_r in P. exact P. }
  split.
  - rewrite !C149_start_partial by auto. now rewrite Q.
  - rewrite flux_empty, Q by auto. ring.
Qed.
(** one electron at rest in an area of 8 x 8 cells: Gauss's law fails at a node next to it, after any number of steps *)
Definition lonely : world := mkWorld (fun _ => mkYee (sz3 8 0) (sz3 8 0) (sz3 8 0)) (fun _ => sz3 8 0) (fun _ _ => [(7, [sitting (5 / 4) (9 / 4)])]).
Lemma border8 n : IZR (n * 8) <> (5 / 4)%R /\ IZR (n * 8) <> (9 / 4)%R.
Proof. pose proof (border (2 * n)) as (A & B & _). replace (2 * n * 4) with (n * 8) in * by lia. auto. Qed.
Lemma lonely_cold : cold geo8 1 1 8 [7] lonely.
Proof.
  assert (F : fits3 8 8 (sz3 8 0)) by (intros []; apply sz_fits; lia).
  assert (L : forall c x y, lv (getc c (sz3 8 0)) x y = 0%R) by (intros [] x y; reflexivity).
  split; [split; [|split; [|split]]; intros i k _ _; exact F|]. split; [intros; cbn [lonely w_f y_e y_h y_t]; rewrite !L; auto|]. split; [intros; cbn [lonely w_j]; apply L|].
  split; [split; [repeat constructor; cbn; intuition lia|reflexivity]|].
  intros i k t q Hi Hk [<-|[]] [<-|[]]. assert (i = 0 /\ k = 0) as [-> ->] by lia.
  assert (En : cell_number (5 / 4) 1 = 1) by (apply cell_is; lra). assert (Em : cell_number (9 / 4) 1 = 2) by (apply cell_is; lra). split.
  - split; [cbn; auto|]. cbn [sitting now pos_r pos_z geo8 g_dr g_dz g_nr g_nz]. split; [lra|]. split; [lra|]. intros b. rewrite !Rmult_1_r. destruct (border8 b). auto.
  - unfold home, pt_cr, pt_cz, part_cr, part_cz. cbn [sitting now pos_r pos_z g_dr g_dz geo8 nr nz rd_ zd_].
    change (ParticleModel.cell_number (5 / 4) 1) with (cell_number (5 / 4) 1). change (ParticleModel.cell_number (9 / 4) 1) with (cell_number (9 / 4) 1).
    rewrite En, Em, !s32_small by lia. vm_compute DecompModel.bound. lia.
Qed.
Lemma inner_one v : inner2 1 1 8 (fun _ => sz 8 v) (sz 8 v).
Proof.
  split; [apply sz_fits; lia|]. intros; split; [apply sz_fits; lia|reflexivity].
Qed.
Theorem C149_refuted : cold geo8 1 1 8 [7] lonely /\ node geo8 1 2 /\
  forall n, (exists w', rounds (smb_round hc_pusher (fun _ => (-1)%R) vb_distribution 1 geo8 1 1 8 (fun _ => sz 8 1) (fun _ => sz 8 0)) n lonely w') /\
  forall w', rounds (smb_round hc_pusher (fun _ => (-1)%R) vb_distribution 1 geo8 1 1 8 (fun _ => sz 8 1) (fun _ => sz 8 0)) n lonely w' ->
  forall ev, ~ gauss geo8 ev (y_e (w_f w' (0, 0))) (charges (fun _ => (-1)%R) (w_p w' 0 0)) 1 2.
Proof.
  assert (I : forall sid, hc_pusher sid (V3 0 0 0)%R (V3 0 0 0)%R (V3 0 0 0)%R = Ok (V3 0 0 0)%R) by (intros sid; apply C148_pushers; lra).
  assert (Sz : sizes geo8) by (unfold sizes; cbn; lra). assert (Nd : node geo8 1 2) by (unfold node; cbn; lia).
  split; [apply lonely_cold|]. split; [exact Nd|]. intros n. split.
  - apply (C148_run hc_pusher (fun _ => (-1)%R) 1 geo8 1 1 8 _ _ _ _ [7] n lonely I ltac:(lia) ltac:(lia) ltac:(lia) eq_refl eq_refl ltac:(cbn; lia) ltac:(cbn; lia) eq_refl eq_refl Sz (inner_one 1) (inner_one 0)
      lonely_cold vb_distribution (or_intror eq_refl)).
  - intros w' Rn ev G.
    destruct (C149_for_ever hc_pusher (fun _ => (-1)%R) 1 geo8 _ _ _ _ [7] n lonely w' I ltac:(cbn; lia) eq_refl ltac:(cbn; lia) eq_refl eq_refl Sz (inner_one 1) (inner_one 0) lonely_cold
      vb_distribution (or_intror eq_refl) Rn ev 1 2 Nd) as [A _]. apply A in G. apply C149_start_partial in G; [|intros c x y _; cbn [lonely w_f y_e]; destruct c; reflexivity|exact Nd].
    revert G. unfold ThmGauss.charge, charges, lonely, sitting. cbn [w_p flat_map map app fst snd sum_over now weight pos_r pos_z]. unfold share_r, share_z. cbn [geo8 g_dr g_dz].
    rewrite !Rmax_left, !Rmin_right by lra. unfold YeeModel.rlt. destruct (Rlt_dec _ _); [|lra]. destruct (Rlt_dec _ _); [|lra]. lra.
Qed.
(** the hypotheses of C149_start_partial and C149_neutral are met by the fields of a run that starts *)
Example C149_ex : empty_e geo8 (y_e (w_f lonely (0, 0))) /\ node geo8 1 2 /\ gauss geo8 1 (y_e (w_f lonely (0, 0))) [(1, 5 / 4, 9 / 4)%R; (-1, 5 / 4, 9 / 4)%R] 1 2.
Proof.
  assert (E : empty_e geo8 (y_e (w_f lonely (0, 0)))) by (intros c x y _; cbn [lonely w_f y_e]; destruct c; reflexivity). assert (Nd : node geo8 1 2) by (unfold node; cbn; lia).
  split; [exact E|]. split; [exact Nd|]. exact (C149_neutral geo8 1 _ [(1, 5 / 4, 9 / 4)%R] 1 2 E Nd).
Qed.

(** the random placement gives two species different places: a neutral plasma of one electron and one ion breaks the law *)
Theorem C149_random_refuted : exists g d1 d2 pe pi, Forall (fun d => 0 <= fst d < 1 /\ 0 <= snd d < 1)%R (d1 ++ d2) /\
  random_placement g 1 1 d1 = [pe] /\ random_placement g 1 1 d2 = [pi] /\
  empty_e geo8 (y_e (w_f lonely (0, 0))) /\ node geo8 1 2 /\
  forall ev, ~ gauss geo8 ev (y_e (w_f lonely (0, 0))) [((-1)%R, fst pe, snd pe); (1%R, fst pi, snd pi)] 1 2.
Proof.
  set (g := {| ParticleModel.g_bot := 0; ParticleModel.g_top := 8; ParticleModel.g_left := 0; ParticleModel.g_right := 8; ParticleModel.w_r0 := true; ParticleModel.w_z0 := true;
     ParticleModel.w_rr := true; ParticleModel.w_zz := true; ParticleModel.g_dr := 1; ParticleModel.g_dz := 1; ParticleModel.g_size_r := 8; ParticleModel.g_size_z := 8 |}).
  exists g, [(3 / 28, 1 / 4)%R], [(11 / 28, 1 / 4)%R], (5 / 4, 9 / 4)%R, (13 / 4, 9 / 4)%R.
  assert (E : empty_e geo8 (y_e (w_f lonely (0, 0)))) by (intros c x y _; cbn [lonely w_f y_e]; destruct c; reflexivity). assert (Nd : node geo8 1 2) by (unfold node; cbn; lia).
  assert (D : forall u, (u <> 0)%R -> nonzero_draw u = u) by (intros u Hu; unfold nonzero_draw; destruct (Req_EM_T u 0); [contradiction|reflexivity]).
  split; [apply Forall_cons; [cbn; lra|]; apply Forall_cons; [cbn; lra|apply Forall_nil]|].
  assert (X : forall u r, (u <> 0)%R -> (7 * u + 1 / 2 = r)%R -> random_r g u = r /\ random_z g 1 1 u = r).
  { intros u r Hu Hr. unfold random_r, random_z. rewrite D by assumption. destruct (Req_EM_T 1 1); [|lra]. unfold r_size, z_size, r_cells, z_cells, g.
    cbn [ParticleModel.g_bot ParticleModel.g_top ParticleModel.g_left ParticleModel.g_right ParticleModel.w_rr ParticleModel.w_zz ParticleModel.g_dr ParticleModel.g_dz].
    change (u32 (u32 8 - u32 0)) with 8. change (u32 0) with 0. lra. }
  unfold random_placement. cbn [map fst snd].
  rewrite (proj1 (X (3 / 28)%R (5 / 4)%R ltac:(lra) ltac:(lra))), (proj1 (X (11 / 28)%R (13 / 4)%R ltac:(lra) ltac:(lra))), (proj2 (X (1 / 4)%R (9 / 4)%R ltac:(lra) ltac:(lra))).
  split; [reflexivity|]. split; [reflexivity|]. split; [exact E|]. split; [exact Nd|].
  intros ev G. apply C149_start_partial in G; auto. revert G. unfold ThmGauss.charge, share_r, share_z. cbn [sum_over fst snd geo8 g_dr g_dz].
  assert (M1 : forall a b : R, (b <= a)%R -> Rmax a b = a) by (intros; now apply Rmax_left). assert (M2 : forall a b : R, (b <= a)%R -> Rmin a b = b) by (intros; now apply Rmin_right).
  rewrite !M1, !M2 by lra. unfold YeeModel.rlt. repeat (destruct (Rlt_dec _ _); [|try lra]); lra.
Qed.

Print Assumptions C149_start_partial.
Print Assumptions C149_neutral.
Print Assumptions C149_same_places.
Print Assumptions C149_for_ever.
Print Assumptions C149_random_refuted.
Print Assumptions C149_refuted.
