(** The programs that work on the fields are homogeneous: with the values multiplied they do the same, and their results are
    multiplied.  One number [La] for the polarisation E_r, E_z, H_phi with j_r and j_z, another one [Lb] for the polarisation E_phi,
    H_r, H_z with j_phi.  Helpers for ThmScale.v and ThmPlanar.v. *)
From Coq Require Import Reals Lra.
From Verif Require Import Base RndUtil DecompModel CollectorModel GridModel OverlayModel YeeModel ExtModel CurrentModel YeeSmb SmbCurrent.
Open Scope Z_scope.

(** both computations end in the same way, with related results *)
Definition orel {A B} (P : A -> B -> Prop) (m : outcome A) (n : outcome B) : Prop :=
  match m, n with Ok a, Ok b => P a b | Fatal, Fatal => True | UB, UB => True | _, _ => False end.
Lemma orel_bind {A B C D} (P : A -> B -> Prop) (Q : C -> D -> Prop) m n f g :
  orel P m n -> (forall a b, P a b -> orel Q (f a) (g b)) -> orel Q (bind m f) (bind n g).
Proof. destruct m, n; cbn; auto; contradiction. Qed.
Lemma orel_ok {A B} (P : A -> B -> Prop) m n a : orel P m n -> m = Ok a -> exists b, n = Ok b /\ P a b.
Proof. intros H ->. destruct n; try contradiction. eauto. Qed.
Lemma orel_loop {A B} (P : A -> B -> Prop) n f g : (forall i a b, P a b -> orel P (f i a) (g i b)) ->
  forall i a b, P a b -> orel P (loop n i f a) (loop n i g b).
Proof. intros H. induction n as [|n IH]; intros i a b Hab; cbn [loop]; [exact Hab|]. eapply orel_bind; [now apply H|]. intros. now apply IH. Qed.
Lemma orel_for {A B} (P : A -> B -> Prop) lo hi f g a b : (forall i a b, P a b -> orel P (f i a) (g i b)) -> P a b ->
  orel P (for_to lo hi f a) (for_to lo hi g b).
Proof. intros. unfold for_to. now apply orel_loop. Qed.
Lemma orel_for_in {A B} (P : A -> B -> Prop) lo hi f g a b : (forall i a b, lo <= i < hi -> P a b -> orel P (f i a) (g i b)) -> P a b ->
  orel P (for_to lo hi f a) (for_to lo hi g b).
Proof.
  intros H. unfold for_to. assert (G : forall n i a b, lo <= i -> i + Z.of_nat n <= hi \/ n = O -> P a b -> orel P (loop n i f a) (loop n i g b)).
  { induction n as [|n IH]; intros i x y L U Hxy; cbn [loop]; [exact Hxy|]. eapply orel_bind; [apply H; [lia|exact Hxy]|]. intros. apply IH; [lia| |assumption]. destruct n; lia. }
  intros Hab. apply G; [lia| |exact Hab]. lia.
Qed.

Record sc (L : R) (f f' : grid R) : Prop := mkSc
  { sc_xr : xr f' = xr f; sc_yr : yr f' = yr f; sc_xs : xs f' = xs f; sc_ys : ys f' = ys f; sc_os : os f' = os f;
    sc_cell : forall i j, cell f' i j = (L * cell f i j)%R }.
Definition sv (L v v' : R) : Prop := v' = (L * v)%R.
(** a vector field: [a] for the components r and z, [b] for phi *)
Record sc3 (a b : R) (f f' : grid3 R) : Prop := mkSc3 { s_r : sc a (c_r f) (c_r f'); s_phi : sc b (c_phi f) (c_phi f'); s_z : sc a (c_z f) (c_z f') }.
Definition fac (a b : R) (c : comp) : R := match c with Cphi => b | _ => a end.
Lemma sc3_get a b f f' c : sc3 a b f f' -> sc (fac a b c) (getc c f) (getc c f').
Proof. intros []. now destruct c. Qed.
Section Grid.
Variable L : R.
Lemma rd_sc f f' i j : sc L f f' -> orel (sv L) (rd f i j) (rd f' i j).
Proof. intros S. unfold rd, inb. rewrite (sc_xr _ _ _ S), (sc_yr _ _ _ S). destruct (_ && _ && _ && _); cbn; [|exact I]. apply (sc_cell _ _ _ S). Qed.
Lemma wr_sc f f' i j v v' : sc L f f' -> sv L v v' -> orel (sc L) (wr f i j v) (wr f' i j v').
Proof.
  intros S ->. unfold wr, inb. rewrite (sc_xr _ _ _ S), (sc_yr _ _ _ S). destruct (_ && _ && _ && _); cbn; [|exact I].
  destruct S as [S1 S2 S3 S4 S5 S6]. split; cbn; auto. intros a b. unfold upd. destruct (_ && _); auto.
Qed.
Lemma rget_sc f f' i j : sc L f f' -> orel (sv L) (rget f i j) (rget f' i j).
Proof. intros S. unfold rget, get. rewrite (sc_os _ _ _ S). now apply rd_sc. Qed.
Lemma rset_sc f f' i j v v' : sc L f f' -> sv L v v' -> orel (sc L) (rset f i j v) (rset f' i j v').
Proof. intros S V. unfold rset, set. rewrite (sc_os _ _ _ S). now apply wr_sc. Qed.
Lemma op_sc op f f' i j v v' : sc L f f' -> (forall a, sv L (op a v) (op (L * a)%R v')) -> orel (sc L) (op_assign op f (u32 i) (u32 j) v) (op_assign op f' (u32 i) (u32 j) v').
Proof.
  intros S V. unfold op_assign. rewrite (sc_os _ _ _ S). eapply orel_bind; [now apply rd_sc|]. intros a b ->. apply wr_sc; auto.
Qed.
Lemma rinc_sc f f' i j v v' : sc L f f' -> sv L v v' -> orel (sc L) (rinc f i j v) (rinc f' i j v').
Proof. intros S ->. apply op_sc; auto. intros a. unfold sv. ring. Qed.
Lemma rdec_sc f f' i j v v' : sc L f f' -> sv L v v' -> orel (sc L) (rdec f i j v) (rdec f' i j v').
Proof. intros S ->. apply op_sc; auto. intros a. unfold sv. ring. Qed.
Lemma rmul_sc f f' i j v : sc L f f' -> orel (sc L) (rmul f i j v) (rmul f' i j v).
Proof. intros S. apply op_sc; auto. intros a. unfold sv. ring. Qed.
Lemma overlay_set_sc f f' : sc L f f' -> orel (sc L) (overlay_set 0%R f) (overlay_set 0%R f').
Proof.
  intros S. unfold overlay_set. rewrite (sc_xr _ _ _ S), (sc_yr _ _ _ S), (sc_os _ _ _ S). apply orel_for; [|exact S]. intros i a b Sa. apply orel_for; [|exact Sa].
  intros j c d Sc. destruct (_ || _ || _ || _); [|exact Sc]. apply wr_sc; auto. unfold sv. ring.
Qed.
Lemma assign_all_sc f f' : sc L f f' -> orel (sc L) (assign_all 0%R f) (assign_all 0%R f').
Proof.
  intros S. unfold assign_all. rewrite (sc_xs _ _ _ S), (sc_ys _ _ _ S), (sc_os _ _ _ S). apply orel_for; [|exact S]. intros i a b Sa. apply orel_for; [|exact Sa].
  intros j c d Sc. apply wr_sc; auto. unfold sv. ring.
Qed.
End Grid.
Section Scale.
Lemma lift3_sc a b F f f' : (forall L x y, sc L x y -> orel (sc L) (F x) (F y)) -> sc3 a b f f' -> orel (sc3 a b) (lift3 F f) (lift3 F f').
Proof.
  intros H []. unfold lift3. eapply orel_bind; [apply H; eassumption|]. intros. eapply orel_bind; [apply H; eassumption|]. intros. eapply orel_bind; [apply H; eassumption|].
  intros. now constructor.
Qed.
Lemma overlay_set3_sc a b f f' : sc3 a b f f' -> orel (sc3 a b) (overlay_set3 0%R f) (overlay_set3 0%R f').
Proof. apply lift3_sc. apply overlay_set_sc. Qed.
Lemma zero3_sc a b f f' : sc3 a b f f' -> orel (sc3 a b) (zero3 f) (zero3 f').
Proof. intros S. unfold zero3. eapply orel_bind; [apply (lift3_sc _ _ _ _ _ assign_all_sc S)|]. apply overlay_set3_sc. Qed.
(** [La] for E_r, E_z, H_phi and the currents along r and z, [Lb] for E_phi, H_r, H_z and the azimuthal current *)
Variables La Lb : R.
Local Notation sE := (sc3 La Lb).
Local Notation sH := (sc3 Lb La).

Ltac one := first [eapply orel_bind; [first [eapply rget_sc; eassumption|eapply rmul_sc; eassumption|eapply rset_sc; [eassumption|unfold sv in *; subst; unfold Rdiv; ring]
    |eapply rinc_sc; [eassumption|unfold sv in *; subst; unfold Rdiv; ring]|eapply rdec_sc; [eassumption|unfold sv in *; subst; unfold Rdiv; ring]]|intros]].

(** ** the solver *)
Section Solver.
Variable mu : R.
Variable g : geo.
Definition sh (s s' : hstate) : Prop := sH (fst s) (fst s') /\ sH (snd s) (snd s').
Ltac fin := first [now constructor|split; cbn; now constructor].
Lemma h_r_at_sc e e' i k s s' : sE e e' -> sh s s' -> orel sh (h_r_at mu g e i k s) (h_r_at mu g e' i k s').
Proof. destruct s, s'. intros [] [[] []]. cbn in *. unfold h_r_at. repeat one. fin. Qed.
Lemma h_phi_at_sc e e' i k s s' : sE e e' -> sh s s' -> orel sh (h_phi_at mu g e i k s) (h_phi_at mu g e' i k s').
Proof. destruct s, s'. intros [] [[] []]. cbn in *. unfold h_phi_at. repeat one. fin. Qed.
Lemma h_z_at_sc e e' i k s s' : sE e e' -> sh s s' -> orel sh (h_z_at mu g e i k s) (h_z_at mu g e' i k s').
Proof. destruct s, s'. intros [] [[] []]. cbn in *. unfold h_z_at. repeat one. fin. Qed.
Lemma calc_field_h_sc e e' h h' t t' : sE e e' -> sH h h' -> sH t t' -> orel sh (calc_field_h mu g e h t) (calc_field_h mu g e' h' t').
Proof.
  intros E H T. unfold calc_field_h. eapply orel_bind; [apply overlay_set3_sc; eassumption|]. intros. eapply orel_bind; [apply overlay_set3_sc; eassumption|]. intros.
  eapply (orel_bind sh).
  - destruct (g_w2 g); [|now split]. apply orel_for; [|now split]. intros. now apply h_r_at_sc.
  - intros s s' S. apply orel_for; [|exact S]. intros. apply orel_for; [|assumption]. intros. unfold h_at.
    eapply orel_bind; [apply h_r_at_sc; eassumption|]. intros. eapply orel_bind; [apply h_phi_at_sc; eassumption|]. intros. now apply h_z_at_sc.
Qed.
Variables eps sg : grid R.
Variables t t' j j' : grid3 R.
Hypothesis T : sH t t'.
Hypothesis J : sE j j'.
Lemma e_r_at_sc i k ke kh e e' : sE e e' -> orel sE (e_r_at g t j i k ke kh e) (e_r_at g t' j' i k ke kh e').
Proof using T J. clear eps sg. destruct T, J. intros []. unfold e_r_at. repeat one. fin. Qed.
Lemma e_z_axis_at_sc i k ke kh e e' : sE e e' -> orel sE (e_z_axis_at g t j i k ke kh e) (e_z_axis_at g t' j' i k ke kh e').
Proof using T J. clear eps sg. destruct T, J. intros []. unfold e_z_axis_at. repeat one. fin. Qed.
Lemma e_z_at_sc i k ke kh e e' : sE e e' -> orel sE (e_z_at g t j i k ke kh e) (e_z_at g t' j' i k ke kh e').
Proof using T J. clear eps sg. destruct T, J. intros []. unfold e_z_at. repeat one. fin. Qed.
Lemma e_phi_at_sc i k ke kh e e' : sE e e' -> orel sE (e_phi_at g t j i k ke kh e) (e_phi_at g t' j' i k ke kh e').
Proof using T J. clear eps sg. destruct T, J. intros []. unfold e_phi_at. repeat one. fin. Qed.
Lemma koefs_sc {A B} (Q : A -> B -> Prop) i k f h : (forall x, orel Q (f x) (h x)) -> orel Q (bind (koefs g eps sg i k) f) (bind (koefs g eps sg i k) h).
Proof using. intros H. destruct (koefs g eps sg i k); cbn; auto. Qed.
Lemma calc_field_e_sc e e' : sE e e' -> orel sE (calc_field_e g t j eps sg e) (calc_field_e g t' j' eps sg e').
Proof using T J.
  intros E. unfold calc_field_e. eapply orel_bind; [apply overlay_set3_sc; eassumption|]. intros a b S. eapply (orel_bind sE).
  { destruct (g_w0 g); [|exact S]. apply orel_for; [|exact S]. intros. unfold e_axis. apply koefs_sc. intros [ke kh].
    eapply orel_bind; [apply e_r_at_sc; eassumption|]. intros. now apply e_z_axis_at_sc. }
  clear S a b. intros a b S. eapply (orel_bind sE).
  { destruct (g_w1 g); [|exact S]. apply orel_for; [|exact S]. intros. unfold e_left. apply koefs_sc. intros [ke kh]. now apply e_z_at_sc. }
  clear S a b. intros a b S. apply orel_for; [|exact S]. intros. apply orel_for; [|assumption]. intros. unfold e_regular. apply koefs_sc. intros [ke kh].
  eapply orel_bind; [apply e_r_at_sc; eassumption|]. intros. eapply orel_bind; [apply e_phi_at_sc; eassumption|]. intros. now apply e_z_at_sc.
Qed.
End Solver.
Record sy (y y' : yee) : Prop := mkSy { sy_e : sE (y_e y) (y_e y'); sy_h : sH (y_h y) (y_h y'); sy_t : sH (y_t y) (y_t y') }.
Lemma yee_step_sc mu g eps sg j j' y y' : sE j j' -> sy y y' -> orel sy (yee_step mu g eps sg j y) (yee_step mu g eps sg j' y').
Proof.
  intros J []. unfold yee_step. eapply orel_bind; [apply calc_field_e_sc; eassumption|]. intros e e' E. eapply orel_bind; [apply calc_field_h_sc; eassumption|].
  intros [h t] [h' t'] [H T]. now constructor.
Qed.

(** ** stitching *)
Definition sp {A B} (P : A -> B -> Prop) (x : A * A) (y : B * B) : Prop := P (fst x) (fst y) /\ P (snd x) (snd y).
Lemma acc_sc L f f' i j v v' : sc L f f' -> sv L v v' -> orel (sc L) (acc Rplus f i j v) (acc Rplus f' i j v').
Proof. intros S ->. unfold acc. eapply orel_bind; [apply (rd_sc L), S|]. intros a b ->. apply wr_sc; auto. unfold sv. ring. Qed.
Ltac two := eapply orel_bind; [first [eapply rd_sc; eassumption|eapply acc_sc; eassumption|eapply wr_sc; eassumption]|intros].
Lemma overlay_y_body_sc L d i s s' : sp (sc L) s s' -> orel (sp (sc L)) (overlay_y_body Rplus d i s) (overlay_y_body Rplus d i s').
Proof. destruct s as [a b], s' as [a' b']. intros [A B]. cbn in A, B. unfold overlay_y_body. cbv zeta. rewrite (sc_os _ _ _ A), (sc_yr _ _ _ A). repeat two. now split. Qed.
Lemma overlay_x_body_sc L d i s s' : sp (sc L) s s' -> orel (sp (sc L)) (overlay_x_body Rplus d i s) (overlay_x_body Rplus d i s').
Proof. destruct s as [a b], s' as [a' b']. intros [A B]. cbn in A, B. unfold overlay_x_body. cbv zeta. rewrite (sc_os _ _ _ A), (sc_xr _ _ _ A). repeat two. now split. Qed.
Lemma overlay_xy_body_sc L d i s s' : sp (sc L) s s' -> orel (sp (sc L)) (overlay_xy_body Rplus d i s) (overlay_xy_body Rplus d i s').
Proof.
  destruct s as [a b], s' as [a' b']. intros [A B]. cbn in A, B. unfold overlay_xy_body. cbv zeta. rewrite (sc_os _ _ _ A), (sc_xr _ _ _ A), (sc_yr _ _ _ A). repeat two. now split.
Qed.
Lemma overlay_y_sc L a a' b b' : sc L a a' -> sc L b b' -> orel (sp (sc L)) (overlay_y Rplus a b) (overlay_y Rplus a' b').
Proof.
  intros A B. unfold overlay_y. rewrite (sc_xr _ _ _ A), (sc_xr _ _ _ B), (sc_os _ _ _ A). destruct (_ =? _); [|exact I]. apply orel_for; [|now split]. intros.
  apply orel_for; [|assumption]. intros. now apply overlay_y_body_sc.
Qed.
Lemma overlay_x_sc L a a' b b' : sc L a a' -> sc L b b' -> orel (sp (sc L)) (overlay_x Rplus a b) (overlay_x Rplus a' b').
Proof.
  intros A B. unfold overlay_x. rewrite (sc_yr _ _ _ A), (sc_yr _ _ _ B), (sc_os _ _ _ A). destruct (_ =? _); [|exact I]. apply orel_for; [|now split]. intros.
  apply orel_for; [|assumption]. intros. now apply overlay_x_body_sc.
Qed.
Lemma overlay_xy_sc L a a' b b' : sc L a a' -> sc L b b' -> orel (sp (sc L)) (overlay_xy Rplus a b) (overlay_xy Rplus a' b').
Proof.
  intros A B. unfold overlay_xy. rewrite (sc_xr _ _ _ A), (sc_xr _ _ _ B), (sc_yr _ _ _ A), (sc_yr _ _ _ B), (sc_os _ _ _ A). destruct (_ && _); [|exact I]. apply orel_for; [|now split]. intros.
  apply orel_for; [|assumption]. intros. now apply overlay_xy_body_sc.
Qed.
Lemma lift3p_sc F u w a a' b b' : (forall L a a' b b', sc L a a' -> sc L b b' -> orel (sp (sc L)) (F a b) (F a' b')) -> sc3 u w a a' -> sc3 u w b b' ->
  orel (sp (sc3 u w)) (lift3p F a b) (lift3p F a' b').
Proof.
  intros H [] []. unfold lift3p. eapply orel_bind; [apply H; eassumption|]. intros [] [] []. eapply orel_bind; [apply H; eassumption|]. intros [] [] [].
  eapply orel_bind; [apply H; eassumption|]. intros [] [] []. split; now constructor.
Qed.
Lemma updp_rel {A B} (P : A -> B -> Prop) (m : doms A) (m' : doms B) p a b : (forall q, P (m q) (m' q)) -> P a b -> forall q, P (updp m p a q) (updp m' p b q).
Proof. intros H Hab q. unfold updp. destruct (peq q p); auto. Qed.
Definition sd {A B} (P : A -> B -> Prop) (m : doms A) (m' : doms B) : Prop := forall q, P (m q) (m' q).
Lemma pass3_sc u w R C m m' : sd (sc3 u w) m m' -> orel (sd (sc3 u w)) (pass3 Rplus R C m) (pass3 Rplus R C m').
Proof.
  unfold pass3, pass. revert m m'. induction (pass_ops R C) as [|o l IH]; intros m m' H; cbn [run_ops]; [exact H|].
  eapply (orel_bind (sd (sc3 u w))); [|intros; now apply IH]. unfold apply_op, pairop. eapply (orel_bind (sp (sc3 u w))).
  - unfold op_fun. cbn [fst snd]. destruct (okind o); apply lift3p_sc; auto using overlay_x_sc, overlay_y_sc, overlay_xy_sc.
  - intros [a b] [a' b'] [Ha Hb]. intros q. apply updp_rel; auto. now apply updp_rel.
Qed.
Lemma each_dom_sc {A B} (P : A -> B -> Prop) R C f f' m m' : (forall p a b, 0 <= fst p < R -> 0 <= snd p < C -> P a b -> orel P (f p a) (f' p b)) -> sd P m m' -> orel (sd P) (each_dom R C f m) (each_dom R C f' m').
Proof.
  intros H M. unfold each_dom. apply orel_for_in; [|exact M]. intros i a b Hi S. apply orel_for_in; [|exact S]. intros j c d Hj S2.
  eapply orel_bind; [apply H; [exact Hi|exact Hj|apply S2]|]. intros x y Hxy q. now apply updp_rel.
Qed.
Lemma smb_step_sc mu g R C s eps sg j j' m m' : sd sE j j' -> sd sy m m' -> orel (sd sy) (smb_step mu g R C s eps sg j m) (smb_step mu g R C s eps sg j' m').
Proof.
  intros J M. unfold smb_step. eapply (orel_bind (sd sy)).
  { apply each_dom_sc; [|exact M]. intros p a b _ _ []. eapply orel_bind; [apply calc_field_e_sc; auto|]. intros. now constructor. }
  intros m1 m1' M1. eapply (orel_bind (sd sE)); [apply pass3_sc; intros q; apply M1|]. intros e2 e2' E2. eapply (orel_bind (sd sy)).
  { apply each_dom_sc; [|intros q; constructor; [apply E2|apply M1|apply M1]]. intros p a b _ _ []. eapply orel_bind; [apply calc_field_h_sc; eassumption|].
    intros [h t] [h' t'] []. now constructor. }
  intros m3 m3' M3. eapply (orel_bind (sd sH)); [apply pass3_sc; intros q; apply M3|]. intros h4 h4' H4.
  eapply (orel_bind (sd sH)); [apply pass3_sc; intros q; apply M3|]. intros t4 t4' T4. intros q. constructor; [apply M3|apply H4|apply T4].
Qed.

(** ** the currents *)
(** the number for the azimuthal velocities *)
Variable Sg : R.
Hypothesis HS : Lb = (La * Sg)%R.
Inductive sdep : dep -> dep -> Prop :=
| sd_inc c i k v v' : sv (fac La Lb c) v v' -> sdep (Inc c i k v) (Inc c i k v')
| sd_put c i k v v' : sv (fac La Lb c) v v' -> sdep (Put c i k v) (Put c i k v').
Lemma with_c_sc c j j' h h' : sE j j' -> sc (fac La Lb c) h h' -> sE (with_c c j h) (with_c c j' h').
Proof. intros [] H. destruct c; now constructor. Qed.
Lemma do_deps_sc ds ds' : Forall2 sdep ds ds' -> forall j j', sE j j' -> orel sE (do_deps ds j) (do_deps ds' j').
Proof.
  induction 1 as [|d d' ds ds' D _ IH]; intros j j' J; cbn [do_deps]; [exact J|]. eapply orel_bind; [|intros; apply IH; eassumption].
  destruct D as [c i k v v' V|c i k v v' V]; unfold do_dep; (eapply orel_bind; [first [apply rinc_sc|apply rset_sc]; [apply (sc3_get La Lb), J|exact V]|]); intros; now apply with_c_sc.
Qed.
(** the same move, the charge and the azimuthal velocity multiplied *)
Definition smover (p p' : mover) : Prop := p' = mkMover (m_r p) (m_z p) (m_ro p) (m_zo p) (m_cr p) (m_cz p) (Sg * m_vphi p)%R (La * m_q p)%R.
Ltac dep := first [apply Forall2_nil | apply Forall2_cons; [constructor; unfold sv, fac, dens_strict, dens_r, dens_z, Rdiv; rewrite ?HS; ring|]].
Lemma zigzag_sc g p p' : smover p p' -> Forall2 sdep (zigzag g p) (zigzag g p').
Proof. intros ->. unfold zigzag. cbn [m_r m_z m_ro m_zo m_cr m_cz m_vphi m_q]. cbv zeta. repeat dep. Qed.
Lemma azimuthal_sc g p p' : smover p p' -> Forall2 sdep (azimuthal g p) (azimuthal g p').
Proof. intros ->. unfold azimuthal. cbn [m_r m_z m_ro m_zo m_cr m_cz m_vphi m_q]. cbv zeta. repeat dep. Qed.
Lemma simple_sc g q rn zn ro zo i k : Forall2 sdep (simple g q rn zn ro zo i k) (simple g (La * q) rn zn ro zo i k).
Proof. unfold simple. cbv zeta. destruct (_ || _); [constructor|]. destruct (1 <=? i); repeat dep. Qed.
Lemma strict_sc g q rn zn ro zo : Forall2 sdep (strict g q rn zn ro zo) (strict g (La * q) rn zn ro zo).
Proof.
  unfold strict. cbv zeta. destruct (_ && _); [constructor|]. destruct (rlt _ _).
  - cbn [app]. destruct (cell_number rn (g_dr g) =? 0); (destruct (_ =? 0); [|destruct (_ =? 1); [|destruct (_ =? -1)]]); cbn [app]; repeat dep.
  - destruct (rlt _ _); [|constructor]. destruct (_ =? 0); [|destruct (_ =? 1); [|destruct (_ =? -1)]]; cbn [app]; repeat dep.
Qed.
Lemma flat_map_sc {A} (f h : A -> list dep) l : (forall x, Forall2 sdep (f x) (h x)) -> Forall2 sdep (flat_map f l) (flat_map h l).
Proof. intros H. induction l; cbn; [constructor|]. apply Forall2_app; auto. Qed.
Lemma rz_deps_sc g p p' : smover p p' -> Forall2 sdep (rz_deps g p) (rz_deps g p').
Proof.
  intros ->. unfold rz_deps, rz_particle. cbn [m_r m_z m_ro m_zo m_cr m_cz m_vphi m_q]. cbv zeta. destruct (_ || _); [constructor|]. destruct (_ || _); [apply strict_sc|].
  apply flat_map_sc. intros [[[[[rn zn] ro] zo] i] k]. apply simple_sc.
Qed.
Lemma flat_movers (f h : mover -> list dep) ps ps' : (forall p p', smover p p' -> Forall2 sdep (f p) (h p')) -> Forall2 smover ps ps' -> Forall2 sdep (flat_map f ps) (flat_map h ps').
Proof. intros H. induction 1; cbn; [constructor|]. apply Forall2_app; auto. Qed.
(** the two schemes *)
Definition scheme_sc (dist : YeeModel.geo -> list mover -> grid3 R -> outcome (grid3 R)) : Prop :=
  forall g ps ps' j j', Forall2 smover ps ps' -> sE j j' -> orel sE (dist g ps j) (dist g ps' j').
Lemma zigzag_distribution_sc : scheme_sc zigzag_distribution.
Proof. intros g ps ps' j j' P J. unfold zigzag_distribution. eapply orel_bind; [apply overlay_set3_sc, J|]. apply do_deps_sc. now apply flat_movers; [apply zigzag_sc|]. Qed.
Lemma vb_distribution_sc : scheme_sc vb_distribution.
Proof.
  intros g ps ps' j j' P J. unfold vb_distribution. eapply orel_bind; [apply overlay_set3_sc, J|]. intros. eapply orel_bind; [apply do_deps_sc; [|eassumption]; now apply flat_movers; [apply azimuthal_sc|]|].
  intros. eapply orel_bind; [apply overlay_set3_sc; eassumption|]. apply do_deps_sc. now apply flat_movers; [apply rz_deps_sc|].
Qed.
Lemma one_current_sc dist g ps ps' j j' : scheme_sc dist -> Forall2 smover ps ps' -> sE j j' -> orel sE (one_current dist g ps j) (one_current dist g ps' j').
Proof. intros H P J. unfold one_current. eapply orel_bind; [apply zero3_sc, J|]. intros. now apply H. Qed.
Lemma smb_current_sc dist g R C s ps ps' j j' : scheme_sc dist -> (forall q, 0 <= fst q < R -> 0 <= snd q < C -> Forall2 smover (ps q) (ps' q)) -> sd sE j j' ->
  orel (sd sE) (smb_current dist g R C s ps j) (smb_current dist g R C s ps' j').
Proof.
  intros H P J. unfold smb_current. eapply (orel_bind (sd sE)); [|apply pass3_sc]. apply each_dom_sc; [|exact J]. intros p a b Hi Hk S.
  eapply orel_bind; [apply zero3_sc, S|]. intros. apply H; auto.
Qed.

(** ** interpolation *)
Definition s4 (L : R) (x x' : R * R * R * R) : Prop := let '(a, b, c, d) := x in x' = (L * a, L * b, L * c, L * d)%R.
Definition s3 (u w : R) (x x' : R * R * R) : Prop := let '(a, b, c) := x in x' = (u * a, w * b, u * c)%R.
Lemma quot_sc L a a' b : sv L a a' -> orel (sv L) (quot a b) (quot a' b).
Proof. intros ->. unfold quot. destruct (Req_EM_T b 0); cbn; [exact I|]. unfold sv, Rdiv. ring. Qed.
Lemma contributions_sc L g f f' r p : sc L f f' -> orel (s4 L) (contributions g f r p) (contributions g f' r p).
Proof.
  intros S. unfold contributions. cbv zeta.
  do 4 (eapply orel_bind; [apply rget_sc, S|]; intros ? ? ->; eapply orel_bind; [apply (quot_sc L); unfold sv; ring|]; intros ? ? ->). reflexivity.
Qed.
Lemma get_field_h_sc u w g h h' r z : sc3 u w h h' -> orel (s3 u w) (get_field_h g h r z) (get_field_h g h' r z).
Proof.
  intros []. unfold get_field_h. do 3 (eapply orel_bind; [apply contributions_sc; eassumption|]; intros [[[? ?] ?] ?] ? ->). cbn. f_equal; [f_equal|]; ring.
Qed.
(** one number only: the code adds a part of the azimuthal electric field to the longitudinal one (ExtModel.v) *)
Lemma get_field_e_sc u g h h' r z : sc3 u u h h' -> orel (s3 u u) (get_field_e g h r z) (get_field_e g h' r z).
Proof.
  intros []. unfold get_field_e. do 3 (eapply orel_bind; [apply contributions_sc; eassumption|]; intros [[[? ?] ?] ?] ? ->). cbn. f_equal; [f_equal|]; ring.
Qed.
End Scale.
