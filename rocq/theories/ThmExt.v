(** Theorems about the external fields and the interpolation of fields: properties C40, C41 and C66. *)
From Coq Require Import ZifyBool Reals Lra Psatz String.
From Verif Require Import Base GridModel GridProofs OverlayModel YeeModel YeeProofs ThmYee RndUtil ExtModel.
Open Scope Z_scope.

Definition all0 (nr nz : Z) (f : grid3 R) : Prop := forall c x y, inw nr nz x y -> lv (getc c f) x y = 0%R.
Lemma zero3_spec nr nz f : fits3 nr nz f -> exists f', zero3 f = Ok f' /\ fits3 nr nz f' /\ all0 nr nz f'.
Proof.
  intros F. unfold zero3.
  assert (G : forall h, fits2 nr nz h -> exists h', assign_all 0%R h = Ok h' /\ fits2 nr nz h' /\
     forall x y, 0 <= x < nr -> 0 <= y < nz -> lv h' x y = 0%R).
  { intros h (W & Eo & Ex & Ey). destruct (assign_all_spec 0%R h W) as (h' & E & S & V).
    exists h'. split; [exact E|]. pose proof S as (S1 & S2 & S3 & S4 & S5). split.
    - split; [eapply same_shape_wf; eauto|]. repeat split; congruence.
    - pose proof W as (? & ? & ? & ? & ? & ? & ?). intros x y Hx Hy. unfold lv. rewrite S5, Eo. rewrite V by lia. rewrite Eo.
      now replace ((2 <=? x + 2) && (x + 2 <? xr h - 2) && (2 <=? y + 2) && (y + 2 <? yr h - 2)) with true by lia. }
  destruct (G _ (F Cr)) as (a & Ea & Fa & Va). destruct (G _ (F Cphi)) as (b & Eb & Fb & Vb). destruct (G _ (F Cz)) as (c & Ec & Fc & Vc).
  cbn [getc] in *. unfold assign_all3, lift3. rewrite Ea, Eb, Ec. cbn [bind].
  destruct (overlay_set3_eq nr nz (mkGrid3 a b c)) as (f' & E & F' & V); [intros []; assumption|].
  exists f'. split; [exact E|]. split; [exact F'|]. intros d x y Hw. rewrite V by exact Hw.
  destruct (_ && _ && _ && _) eqn:B; [|reflexivity].
  destruct d; cbn [getc c_r c_phi c_z]; [apply Va|apply Vb|apply Vc]; lia.
Qed.

Section Hom.
Variable g : geo.
Variable eps : grid R.
Hypothesis Hg : geo_ok g.
Hypothesis Heps : fits2 (g_nr g) (g_nz g) eps.
Let nr := g_nr g.
Let nz := g_nz g.
Definition in_loops (x y : Z) : bool := (lo_r g <=? x) && (x <? hi_r g) && (lo_z g <=? y) && (y <? hi_z g).

Lemma borders : r_begin g = lo_r g /\ z_begin g = lo_z g /\ r_end g = hi_r g /\ z_end g = hi_z g.
Proof using Hg.
  destruct Hg as [? ?]. unfold r_begin, z_begin, r_end, z_end, lo_r, lo_z, hi_r, hi_z.
  rewrite !u32_small by lia. auto.
Qed.
Lemma set0_all0 c x y f : fits3 nr nz f -> all0 nr nz f -> 0 <= x < nr -> 0 <= y < nz ->
  exists d, rset (getc c f) x y 0%R = Ok d /\ fits2 nr nz d /\ forall a b, inw nr nz a b -> lv d a b = 0%R.
Proof.
  intros F A Hx Hy. rewrite (rset_eq nr nz) by (apply F || (unfold inw; lia)).
  eexists. split; [reflexivity|]. split; [apply setl_fits, F|]. intros a b W. rewrite lv_setl. destruct (_ && _); [reflexivity|]. now apply A.
Qed.

Lemma homogenous_z_spec amp ps other f : fits3 nr nz other -> fits3 nr nz f ->
  exists o f', homogenous_z g eps (amp :: ps) other f = Ok (o, f') /\ fits3 nr nz o /\ fits3 nr nz f' /\ all0 nr nz o /\
  forall c x y, inw nr nz x y -> lv (getc c f') x y = match c with Cz => if in_loops x y then amp else 0%R | _ => 0%R end.
Proof using Hg Heps.
  intros Fo Ff. unfold homogenous_z.
  destruct (zero3_spec nr nz other Fo) as (o & Eo & Fo' & Ao). rewrite Eo. cbn [bind].
  destruct (zero3_spec nr nz f Ff) as (f0 & E0 & F0 & A0). rewrite E0. cbn [bind].
  destruct borders as (B1 & B2 & B3 & B4). rewrite B1, B2, B3, B4.
  assert (Hg' := Hg). destruct Hg' as [G1 G2].
  assert (L : 0 <= lo_r g /\ hi_r g <= nr /\ 0 <= lo_z g /\ hi_z g <= nz).
  { unfold lo_r, lo_z, hi_r, hi_z, nr, nz. repeat split; destruct (g_w0 g), (g_w1 g), (g_w2 g), (g_w3 g); lia. }
  assert (S1 : exists f1, (if g_w0 g then for_to (lo_z g) (hi_z g) axis_zero f0 else Ok f0) = Ok f1 /\ fits3 nr nz f1 /\ all0 nr nz f1).
  { destruct (g_w0 g); [|exists f0; auto].
    destruct (Z_le_gt_dec (lo_z g) (hi_z g)) as [Hc|Hc]; [|rewrite for_empty by lia; exists f0; auto].
    destruct (for_inv (fun _ f => fits3 nr nz f /\ all0 nr nz f) (lo_z g) (hi_z g) axis_zero f0 Hc) as (f1 & E & P1); auto.
    - intros k f1 Hk [F1 A1]. unfold axis_zero.
      destruct (set0_all0 Cr 0 k f1 F1 A1 ltac:(unfold nr; lia) ltac:(lia)) as (a & Ea & Fa & Va). cbn [getc] in Ea. rewrite Ea. cbn [bind].
      destruct (set0_all0 Cz 0 k f1 F1 A1 ltac:(unfold nr; lia) ltac:(lia)) as (b & Eb & Fb & Vb). cbn [getc] in Eb. rewrite Eb. cbn [bind].
      eexists. split; [reflexivity|]. split; [intros []; cbn [getc]; auto; apply (F1 Cphi)|].
      intros [] x y W; cbn [getc c_r c_phi c_z]; auto. now apply (A1 Cphi).
    - exists f1. tauto. }
  destruct S1 as (f1 & E1 & F1 & A1). rewrite E1. cbn [bind].
  assert (S2 : exists f2, (if g_w1 g then for_to (lo_r g) (hi_r g) left_zero f1 else Ok f1) = Ok f2 /\ fits3 nr nz f2 /\ all0 nr nz f2).
  { destruct (g_w1 g); [|exists f1; auto].
    destruct (Z_le_gt_dec (lo_r g) (hi_r g)) as [Hc|Hc]; [|rewrite for_empty by lia; exists f1; auto].
    destruct (for_inv (fun _ f => fits3 nr nz f /\ all0 nr nz f) (lo_r g) (hi_r g) left_zero f1 Hc) as (f2 & E & P2); auto.
    - intros i f2 Hi [F2 A2]. unfold left_zero.
      destruct (set0_all0 Cz i 0 f2 F2 A2 ltac:(lia) ltac:(unfold nz; lia)) as (b & Eb & Fb & Vb). cbn [getc] in Eb. rewrite Eb. cbn [bind].
      eexists. split; [reflexivity|]. split; [intros []; cbn [getc]; auto; [apply (F2 Cr)|apply (F2 Cphi)]|].
      intros [] x y W; cbn [getc c_r c_phi c_z]; auto; [now apply (A2 Cr)|now apply (A2 Cphi)].
    - exists f2. tauto. }
  destruct S2 as (f2 & E2 & F2 & A2). rewrite E2. cbn [bind].
  destruct (nest (fun f c x y => lv (getc c f) x y) (fits3 nr nz)
     (fun i k old c => match c with Cz => amp | _ => 0%R end) ltac:(reflexivity) (set_z eps amp) (lo_r g) (hi_r g) (lo_z g) (hi_z g)) with (s := f2) as (f3 & E3 & F3 & V3).
  - intros i k s Hi Hk Fs. unfold set_z.
    assert (W : inw nr nz i k) by (unfold inw; lia).
    rewrite (rget_eq nr nz) by assumption. cbn [bind].
    rewrite (rset_eq nr nz _ _ _ _ (Fs Cr) W : rset (c_r s) i k _ = _). cbn [bind].
    rewrite (rset_eq nr nz _ _ _ _ (Fs Cphi) W : rset (c_phi s) i k _ = _). cbn [bind].
    rewrite (rset_eq nr nz _ _ _ _ (Fs Cz) W : rset (c_z s) i k _ = _). cbn [bind].
    eexists. split; [reflexivity|]. split; [intros []; cbn [getc c_r c_phi c_z]; apply setl_fits; [apply (Fs Cr)|apply (Fs Cphi)|apply (Fs Cz)]|].
    intros [] a b; cbn [getc c_r c_phi c_z]; rewrite lv_setl; reflexivity.
  - exact F2.
  - rewrite E3. cbn [bind]. exists o, f3. split; [reflexivity|]. split; [exact Fo'|]. split; [exact F3|]. split; [exact Ao|].
    intros c x y W. rewrite V3. unfold in_loops. destruct (_ && _ && _ && _); [now destruct c|]. rewrite A2 by exact W. now destruct c.
Qed.
End Hom.

(** * C40: profiles are selected by their names *)
(** specification: the field of the profile of a name; cells treated as boundary get no field *)
Definition profile_field (g : geo) (name : string) (amp : R) (c : comp) (x y : Z) : R :=
  if in_loops g x y then
    match c with
    | Cr => if String.eqb name "const_r" then amp else 0%R
    | Cphi => if String.eqb name "const_phi" then amp else 0%R
    | Cz => if String.eqb name "const_z" then amp else 0%R
    end
  else 0%R.
Definition is_field (g : geo) (f : grid3 R) (v : comp -> Z -> Z -> R) : Prop :=
  forall c x y, inw (g_nr g) (g_nz g) x y -> lv (getc c f) x y = v c x y.

(** what the two selections really compute *)
Lemma e_profile_value n : e_profile n = Ok (if String.eqb n "none" then 1 else 0).
Proof. unfold e_profile, compare. destruct (String.eqb_spec n "none"); [subst; reflexivity|reflexivity]. Qed.
Lemma e_profile_inert n : exists k, e_profile n = Ok k /\ (k =? 3) = false /\ (0 <=? k) && (k <=? 5) = true.
Proof. rewrite e_profile_value. eexists. split; [reflexivity|]. destruct (n =? "none")%string; auto. Qed.
Definition known (n : string) : Prop := In n ["none"; "const_r"; "const_phi"; "const_z"; "linerad_r"; "linerad_z"]%string.
Lemma m_profile_value n : (n = "const_z"%string -> m_profile n = Ok 3) /\
  (n <> "const_z"%string -> known n -> exists k, m_profile n = Ok k /\ 0 <= k <= 5 /\ k <> 3) /\ (~ known n -> m_profile n = Fatal).
Proof.
  split; [now intros ->|]. split.
  - intros N K. unfold known in K. cbn [In] in K.
    destruct K as [<-|[<-|[<-|[<-|[<-|[<-|[]]]]]]]; try congruence; (eexists; split; [reflexivity|lia]).
  - intros K. unfold m_profile, compare. rewrite !Bool.negb_involutive.
    assert (Hn : forall s, In s ["none"; "const_r"; "const_phi"; "const_z"; "linerad_r"; "linerad_z"]%string -> String.eqb n s = false).
    { intros s Hs. apply String.eqb_neq. intros ->. now apply K. }
    rewrite !Hn; [reflexivity| | | | | |]; cbn [In]; tauto.
Qed.

(** magnetic profiles none and const_z do what their names say; the electric profile has no effect, whatever its name *)
Theorem C40_selected_partial : forall g eps ename mname ep amp ps e h, geo_ok g -> fits2 (g_nr g) (g_nz g) eps ->
  fits3 (g_nr g) (g_nz g) e -> fits3 (g_nr g) (g_nz g) h -> (mname = "none" \/ mname = "const_z")%string ->
  exists e' h', ext_run g eps ename mname ep (amp :: ps) e h = Ok (e', h') /\
    is_field g e' (profile_field g "none" 0) /\ is_field g h' (profile_field g mname amp).
Proof.
  intros g eps ename mname ep amp ps e h Hg Heps Fe Fh Hm. unfold ext_run.
  destruct (zero3_spec _ _ e Fe) as (e0 & Ee & Fe0 & Ae). rewrite Ee. cbn [bind].
  destruct (zero3_spec _ _ h Fh) as (h0 & Eh & Fh0 & Ah). rewrite Eh. cbn [bind].
  destruct (e_profile_inert ename) as (en & -> & K1 & K2). cbn [bind].
  assert (Z0 : forall f, all0 (g_nr g) (g_nz g) f -> is_field g f (profile_field g "none" 0)).
  { intros f A c x y W. rewrite A by exact W. unfold profile_field. now destruct (in_loops g x y), c. }
  destruct Hm as [-> | ->].
  - change (m_profile "none") with (Ok 0). cbn [bind]. unfold ext_apply.
    rewrite K1, K2. cbn [bind Z.eqb Z.leb Z.compare andb].
    exists e0, h0. split; [reflexivity|]. split; [auto|]. intros c x y W. rewrite Ah by exact W. unfold profile_field. now destruct (in_loops g x y), c.
  - change (m_profile "const_z") with (Ok 3). cbn [bind]. unfold ext_apply.
    rewrite K1, K2. cbn [bind fst snd]. change (3 =? 3) with true. cbn iota.
    destruct (homogenous_z_spec g eps Hg Heps amp ps e0 h0 Fe0 Fh0) as (e' & h' & E & _ & _ & A & V). rewrite E.
    exists e', h'. split; [reflexivity|]. split; [auto|]. intros c x y W. rewrite V by exact W. unfold profile_field.
    destruct (in_loops g x y), c; reflexivity.
Qed.

(** An electric field of profile const_z is never applied, neither are magnetic fields of profile const_r, const_phi. *)
Theorem C40_electric_never : forall g eps ename mname ep mp e h e' h', geo_ok g -> fits2 (g_nr g) (g_nz g) eps ->
  fits3 (g_nr g) (g_nz g) e -> fits3 (g_nr g) (g_nz g) h ->
  ext_run g eps ename mname ep mp e h = Ok (e', h') -> all0 (g_nr g) (g_nz g) e' /\ (mname <> "const_z"%string -> all0 (g_nr g) (g_nz g) h').
Proof.
  intros g eps ename mname ep mp e h e' h' Hg Heps Fe Fh. unfold ext_run.
  destruct (zero3_spec _ _ e Fe) as (e0 & Ee & Fe0 & Ae). rewrite Ee. cbn [bind].
  destruct (zero3_spec _ _ h Fh) as (h0 & Eh & Fh0 & Ah). rewrite Eh. cbn [bind].
  destruct (e_profile_inert ename) as (en & -> & K1 & K2). cbn [bind]. destruct (m_profile mname) as [mn| |] eqn:Em; cbn [bind]; try discriminate.
  unfold ext_apply. rewrite K1, K2. cbn [bind fst snd].
  destruct (mn =? 3) eqn:M.
  - destruct mp as [|amp ps]; [unfold homogenous_z; destruct (zero3 e0), (zero3 h0); cbn [bind]; discriminate|].
    destruct (homogenous_z_spec g eps Hg Heps amp ps e0 h0 Fe0 Fh0) as (e1 & h1 & E & _ & _ & A & V). rewrite E.
    intros [= <- <-]. split; [exact A|]. intros N.
    destruct (m_profile_value mname) as (_ & K & F).
    destruct (in_dec String.string_dec mname ["none"; "const_r"; "const_phi"; "const_z"; "linerad_r"; "linerad_z"]%string) as [I|I].
    + destruct (K N I) as (k & Ek & _ & Hk). rewrite Em in Ek. injection Ek as <-. lia.
    + rewrite (F I) in Em. discriminate.
  - destruct ((0 <=? mn) && (mn <=? 5)); [|discriminate]. intros E. injection E as E1 E2. subst. auto.
Qed.
Example C40_example : exists e' h', ext_run geo_ex (gz 1) "const_z" "const_z" [5%R] [7%R] (gz3 0) (gz3 0) = Ok (e', h') /\
  lv (c_z h') 1 1 = 7%R /\ lv (c_z e') 1 1 = 0%R /\ profile_field geo_ex "const_z" 5 Cz 1 1 = 5%R.
Proof.
  destruct (C40_selected_partial geo_ex (gz 1) "const_z" "const_z" [5%R] 7%R [] (gz3 0) (gz3 0)) as (e' & h' & E & Ve & Vh);
    [split; cbn; lia|apply gz_fits|apply gz3_fits|apply gz3_fits|auto|].
  exists e', h'. split; [exact E|]. split; [|split; [|reflexivity]].
  - apply (Vh Cz 1 1). unfold inw. cbn. lia.
  - apply (Ve Cz 1 1). unfold inw. cbn. lia.
Qed.
Theorem C40_electric_refuted : exists g eps e h e' h', geo_ok g /\ fits2 (g_nr g) (g_nz g) eps /\ fits3 (g_nr g) (g_nz g) e /\ fits3 (g_nr g) (g_nz g) h /\
  ext_run g eps "const_z" "none" [5%R] [7%R] e h = Ok (e', h') /\ ~ is_field g e' (profile_field g "const_z" 5).
Proof.
  destruct (C40_selected_partial geo_ex (gz 1) "const_z" "none" [5%R] 7%R [] (gz3 0) (gz3 0)) as (e' & h' & E & Ve & _);
    [split; cbn; lia|apply gz_fits|apply gz3_fits|apply gz3_fits|auto|].
  exists geo_ex, (gz 1), (gz3 0), (gz3 0), e', h'. split; [split; cbn; lia|]. split; [apply gz_fits|]. split; [apply gz3_fits|]. split; [apply gz3_fits|].
  split; [exact E|]. intros F. assert (W : inw (g_nr geo_ex) (g_nz geo_ex) 1 1) by (unfold inw; cbn; lia).
  specialize (F Cz 1 1 W). rewrite (Ve Cz 1 1 W) in F. unfold profile_field in F.
  change (in_loops geo_ex 1 1) with true in F. cbn in F. lra.
Qed.
Theorem C40_magnetic_refuted : exists g eps e h e' h', geo_ok g /\ fits2 (g_nr g) (g_nz g) eps /\ fits3 (g_nr g) (g_nz g) e /\ fits3 (g_nr g) (g_nz g) h /\
  ext_run g eps "none" "const_r" [] [5%R] e h = Ok (e', h') /\ ~ is_field g h' (profile_field g "const_r" 5).
Proof.
  destruct (zero3_spec 3 3 _ (gz3_fits 0)) as (e0 & Ez & F0 & A0).
  assert (E : ext_run geo_ex (gz 1) "none" "const_r" [] [5%R] (gz3 0) (gz3 0) = Ok (e0, e0)).
  { unfold ext_run. rewrite Ez. cbn [bind]. destruct (e_profile_inert "none") as (en & -> & K1 & K2).
    change (m_profile "const_r") with (Ok 1). cbn [bind]. unfold ext_apply. rewrite K1, K2. reflexivity. }
  exists geo_ex, (gz 1), (gz3 0), (gz3 0), e0, e0. split; [split; cbn; lia|]. split; [apply gz_fits|]. split; [apply gz3_fits|]. split; [apply gz3_fits|].
  split; [exact E|]. intros F. assert (W : inw (g_nr geo_ex) (g_nz geo_ex) 1 1) by (unfold inw; cbn; lia).
  specialize (F Cr 1 1 W). rewrite (A0 Cr 1 1 W) in F. unfold profile_field in F.
  change (in_loops geo_ex 1 1) with true in F. cbn in F. lra.
Qed.
(** an unknown magnetic name is reported, an unknown electric name is not; no parameters for const_z: undefined *)
Theorem C40_unknown_partial : forall g eps ename mname ep mp e h, fits3 (g_nr g) (g_nz g) e -> fits3 (g_nr g) (g_nz g) h ->
  ~ known mname -> ext_run g eps ename mname ep mp e h = Fatal.
Proof.
  intros g eps ename mname ep mp e h Fe Fh N. unfold ext_run.
  destruct (zero3_spec _ _ e Fe) as (e0 & -> & _). cbn [bind]. destruct (zero3_spec _ _ h Fh) as (h0 & -> & _). cbn [bind].
  rewrite e_profile_value. cbn [bind]. destruct (m_profile_value mname) as (_ & _ & ->); auto.
Qed.
Theorem C40_unknown_electric_refuted : exists e' h', ext_run geo_ex (gz 1) "constant" "none" [5%R] [7%R] (gz3 0) (gz3 0) = Ok (e', h').
Proof.
  destruct (C40_selected_partial geo_ex (gz 1) "constant" "none" [5%R] 7%R [] (gz3 0) (gz3 0)) as (e' & h' & E & _);
    [split; cbn; lia|apply gz_fits|apply gz3_fits|apply gz3_fits|auto|]. now exists e', h'.
Qed.
Theorem C40_no_parameter_refuted : ext_run geo_ex (gz 1) "none" "const_z" [] [] (gz3 0) (gz3 0) = UB.
Proof.
  unfold ext_run. destruct (zero3_spec 3 3 _ (gz3_fits 0)) as (e0 & -> & F0 & _). cbn [bind].
  destruct (e_profile_inert "none") as (en & -> & K1 & K2). change (m_profile "const_z") with (Ok 3). cbn [bind]. unfold ext_apply.
  rewrite K1, K2. cbn [bind fst snd].
  change (3 =? 3) with true. cbn iota. unfold homogenous_z.
  destruct (zero3_spec 3 3 e0 F0) as (e1 & -> & _). reflexivity.
Qed.

(** * C41: interpolation *)
(** specification: a position inside the domain, not nearer to the axis than half a cell (reflect keeps particles there, C30) *)
Definition inside (g : geo) (r z : R) : Prop :=
  (0 < g_dr g /\ 0 < g_dz g /\ IZR (g_d0 g) * g_dr g <= r < IZR (g_d0 g + g_nr g) * g_dr g /\
   IZR (g_d1 g) * g_dz g <= z < IZR (g_d1 g + g_nz g) * g_dz g /\ / 2 * g_dr g <= r)%R /\ 0 <= g_d0 g /\ 0 <= g_d1 g.

Lemma cell_number_bounds p d : (0 < d)%R -> (IZR (cell_number p d) * d <= p < (IZR (cell_number p d) + 1) * d)%R.
Proof.
  intros Hd. unfold cell_number. pose proof (Int_part_bounds (p / d)) as [A B].
  assert (E : (p = p / d * d)%R) by (field; lra). split; [rewrite E at 2|rewrite E at 1]; nra.
Qed.
Lemma cell_number_range p d a b : (0 < d)%R -> (IZR a * d <= p < IZR b * d)%R -> a <= cell_number p d < b.
Proof.
  intros Hd [A B]. pose proof (cell_number_bounds p d Hd) as [C D]. split.
  - enough (IZR a < IZR (cell_number p d) + 1)%R by (rewrite <- (plus_IZR _ 1) in H; apply lt_IZR in H; lia). nra.
  - apply lt_IZR. nra.
Qed.

Section Interp.
Variable g : geo.
Let nr := g_nr g.
Let nz := g_nz g.
(** a placement whose four cells are in the window and whose volumes are not zero *)
Definition good (p : place) : Prop :=
  -1 <= p_i p - g_d0 g < nr /\ -1 <= p_k p - g_d1 g < nz /\ (0 < p_vol1 p)%R /\ (0 < p_vol2 p)%R.
(** the four contributions with the values of the field as a function *)
Definition four (v : Z -> Z -> R) (r : R) (p : place) : R * R * R * R :=
  let r1 := (r - /2 * g_dr g)%R in let r3 := (r + /2 * g_dr g)%R in
  let x := p_i p - g_d0 g in let y := p_k p - g_d1 g in
  (v x y * cyl_rng_vol (p_dz1 p) r1 (p_r2 p) / p_vol1 p, v (x + 1)%Z y * cyl_rng_vol (p_dz1 p) (p_r2 p) r3 / p_vol2 p,
   v x (y + 1)%Z * cyl_rng_vol (p_dz2 p) r1 (p_r2 p) / p_vol1 p, v (x + 1)%Z (y + 1)%Z * cyl_rng_vol (p_dz2 p) (p_r2 p) r3 / p_vol2 p)%R.
Definition sum4 (q : R * R * R * R) : R := let '(a, b, c, d) := q in (a + b + c + d)%R.
Lemma contributions_eq f r p : fits2 nr nz f -> good p -> contributions g f r p = Ok (four (lv f) r p).
Proof.
  intros F (Hx & Hy & V1 & V2). unfold contributions.
  rewrite !(rget_eq nr nz) by (auto; unfold inw; lia). unfold quot. destruct (Req_EM_T (p_vol1 p) 0) as [Z|_]; [lra|].
  destruct (Req_EM_T (p_vol2 p) 0) as [Z|_]; [lra|]. cbn [bind]. reflexivity.
Qed.

Lemma volume_pos i a : (0 < g_dr g)%R -> (0 < g_dz g)%R -> 0 <= i -> 0 <= a -> (0 < cell_volume i a (g_dr g) (g_dz g))%R.
Proof.
  intros H1 H2 Hi Ha. unfold cell_volume. assert (P := PI_RGT_0). assert (X := IZR_le _ _ Hi). assert (Y := IZR_le _ _ Ha).
  repeat (apply Rmult_lt_0_compat; [|lra]). exact P.
Qed.
Lemma places_good r z : inside g r z ->
  good (place_half_r g r z) /\ good (place_half_z g r z) /\ good (place_half_rz g r z) /\ good (place_node g r z) /\
  0 <= p_i (place_half_r g r z) /\ 0 <= p_i (place_half_z g r z).
Proof.
  intros ((D1 & D2 & Rr & Zr & Ax) & P0 & P1).
  assert (N1 : g_d0 g <= cell_number r (g_dr g) < g_d0 g + nr) by (apply cell_number_range; assumption).
  assert (N2 : g_d1 g <= cell_number z (g_dz g) < g_d1 g + nz) by (apply cell_number_range; assumption).
  assert (N3 : g_d0 g - 1 <= cell_number (r - /2 * g_dr g) (g_dr g) < g_d0 g + nr).
  { apply cell_number_range; [assumption|]. unfold nr. rewrite minus_IZR. lra. }
  assert (N4 : g_d1 g - 1 <= cell_number (z - /2 * g_dz g) (g_dz g) < g_d1 g + nz).
  { apply cell_number_range; [assumption|]. unfold nz. rewrite minus_IZR. lra. }
  assert (N5 : 0 <= cell_number (r - /2 * g_dr g) (g_dr g) < g_d0 g + nr).
  { split; [|lia]. apply (cell_number_range _ _ 0 (g_d0 g + nr)); [assumption|]. unfold nr. lra. }
  unfold good, place_half_r, place_half_z, place_half_rz, place_node. cbn [p_i p_k p_vol1 p_vol2].
  repeat match goal with |- _ /\ _ => split end; try lia; apply volume_pos; (assumption || lia).
Qed.

(** the interpolated field in closed form *)
Lemma get_field_h_eq h r z : fits3 nr nz h -> inside g r z ->
  get_field_h g h r z = Ok (sum4 (four (lv (c_r h)) r (place_half_z g r z)), sum4 (four (lv (c_phi h)) r (place_half_rz g r z)),
                            sum4 (four (lv (c_z h)) r (place_half_r g r z))).
Proof.
  intros F I. destruct (places_good r z I) as (G1 & G2 & G3 & G4 & _).
  unfold get_field_h. rewrite (contributions_eq _ _ _ (F Cz) G1 : contributions g (c_z h) _ _ = _). cbn [bind].
  rewrite (contributions_eq _ _ _ (F Cr) G2 : contributions g (c_r h) _ _ = _). cbn [bind].
  rewrite (contributions_eq _ _ _ (F Cphi) G3 : contributions g (c_phi h) _ _ = _). cbn [bind].
  unfold four, sum4. cbv zeta. cbn iota. cbn [bind]. now rewrite !Rplus_0_l.
Qed.
Definition last4 (q : R * R * R * R) : R := let '(_, _, _, d) := q in d.
Lemma get_field_e_eq e r z : fits3 nr nz e -> inside g r z ->
  get_field_e g e r z = Ok (sum4 (four (lv (c_r e)) r (place_half_r g r z)),
    (sum4 (four (lv (c_phi e)) r (place_node g r z)) - last4 (four (lv (c_phi e)) r (place_node g r z)))%R,
    (sum4 (four (lv (c_z e)) r (place_half_z g r z)) + last4 (four (lv (c_phi e)) r (place_node g r z)))%R).
Proof.
  intros F I. destruct (places_good r z I) as (G1 & G2 & G3 & G4 & _).
  unfold get_field_e. rewrite (contributions_eq _ _ _ (F Cr) G1 : contributions g (c_r e) _ _ = _). cbn [bind].
  rewrite (contributions_eq _ _ _ (F Cz) G2 : contributions g (c_z e) _ _ = _). cbn [bind].
  rewrite (contributions_eq _ _ _ (F Cphi) G4 : contributions g (c_phi e) _ _ = _). cbn [bind].
  destruct (four _ r (place_half_r g r z)) as [[[a1 a2] a3] a4]. destruct (four _ r (place_half_z g r z)) as [[[b1 b2] b3] b4].
  destruct (four _ r (place_node g r z)) as [[[c1 c2] c3] c4]. cbn [bind sum4 last4]. rewrite !Rplus_0_l.
  replace (c1 + c2 + c3 + c4 - c4)%R with (c1 + c2 + c3)%R by ring. reflexivity.
Qed.
Lemma four_ext v v' r p : (forall x y, v x y = v' x y) -> four v r p = four v' r p.
Proof. intros H. unfold four. cbv zeta. now rewrite !H. Qed.
Lemma four_zero v r p : (forall x y, v x y = 0%R) -> sum4 (four v r p) = 0%R /\ last4 (four v r p) = 0%R.
Proof. intros H. unfold four, sum4, last4. cbv zeta. rewrite !H. unfold Rdiv. split; ring. Qed.
End Interp.

Lemma ok_inj {A} (a b : A) : Ok a = Ok b -> b = a.
Proof. now intros [= ->]. Qed.
Definition vcomp (c : comp) (v : R * R * R) : R := let '(a, b, d) := v in match c with Cr => a | Cphi => b | Cz => d end.
(** inside the domain the interpolation is always defined (no access outside the grids, no division by zero) *)
Theorem C41_defined : forall g f r z, fits3 (g_nr g) (g_nz g) f -> inside g r z ->
  exists e h, get_field_e g f r z = Ok e /\ get_field_h g f r z = Ok h.
Proof. intros g f r z F I. rewrite get_field_e_eq, get_field_h_eq by assumption. eauto. Qed.
(** each component of the interpolated H depends on the same component of the grid only *)
Theorem C41_field_h : forall g f f' r z c v v', fits3 (g_nr g) (g_nz g) f -> fits3 (g_nr g) (g_nz g) f' -> inside g r z ->
  get_field_h g f r z = Ok v -> get_field_h g f' r z = Ok v' ->
  ((forall x y, lv (getc c f) x y = lv (getc c f') x y) -> vcomp c v = vcomp c v') /\
  ((forall x y, lv (getc c f) x y = 0%R) -> vcomp c v = 0%R).
Proof.
  intros g f f' r z c v v' F F' I. rewrite !get_field_h_eq by assumption. intros ->%ok_inj ->%ok_inj.
  destruct c; cbn [vcomp getc]; (split; [intros H; now rewrite (four_ext g _ _ r _ H)|intros H; now apply four_zero]).
Qed.
(** the same for E_r and E_phi; for E_z if the azimuthal component is the same (zero) too *)
Theorem C41_field_e_partial : forall g f f' r z c v v', fits3 (g_nr g) (g_nz g) f -> fits3 (g_nr g) (g_nz g) f' -> inside g r z ->
  get_field_e g f r z = Ok v -> get_field_e g f' r z = Ok v' ->
  (forall x y, lv (getc c f) x y = lv (getc c f') x y) ->
  (c = Cz -> forall x y, lv (c_phi f) x y = lv (c_phi f') x y) -> vcomp c v = vcomp c v'.
Proof.
  intros g f f' r z c v v' F F' I. rewrite !get_field_e_eq by assumption. intros ->%ok_inj ->%ok_inj H Hz.
  destruct c; cbn [vcomp getc] in *.
  - now rewrite (four_ext g _ _ r _ H).
  - now rewrite (four_ext g _ _ r (place_node g r z) H).
  - rewrite (four_ext g _ _ r (place_half_z g r z) H). now rewrite (four_ext g _ _ r (place_node g r z) (Hz eq_refl)).
Qed.
(** a field with E_z = 0 everywhere is interpolated to a vector with a z component *)
Definition only_phi : grid3 R := mkGrid3 (gz 0) (gz 1) (gz 0).
Lemma inside_ex : inside geo_ex (3/2) (3/2).
Proof. unfold inside, geo_ex. cbn [g_dr g_dz g_d0 g_d1 g_nr g_nz]. change (0 + 3) with 3. repeat split; lra || lia. Qed.
Lemma cell_ex : cell_number (3/2) 1 = 1.
Proof. unfold cell_number. apply Int_part_unique. lra. Qed.
Theorem C41_field_e_refuted : exists g f r z v, fits3 (g_nr g) (g_nz g) f /\ inside g r z /\ (forall x y, lv (c_z f) x y = 0%R) /\
  get_field_e g f r z = Ok v /\ vcomp Cz v <> 0%R.
Proof.
  assert (F : fits3 3 3 only_phi) by (intros []; apply gz_fits).
  exists geo_ex, only_phi, (3/2)%R, (3/2)%R. eexists. split; [exact F|]. split; [apply inside_ex|]. split; [reflexivity|].
  split; [apply (get_field_e_eq geo_ex only_phi _ _ F inside_ex)|].
  cbn [vcomp]. unfold four, sum4, last4, place_node, place_half_z, geo_ex. cbn [p_i p_k p_vol1 p_vol2 p_dz1 p_dz2 p_r2 g_dr g_dz g_d0 g_d1].
  rewrite cell_ex. set (m := cell_number _ _).
  replace (lv (c_phi only_phi) (1 - 0 + 1) (1 - 0 + 1)) with 1%R by reflexivity.
  assert (Z0 : forall x y, lv (c_z only_phi) x y = 0%R) by reflexivity. rewrite !Z0.
  unfold cell_volume, cyl_rng_vol. assert (P := PI_RGT_0).
  match goal with |- (?a + ?b)%R <> 0%R => replace a with 0%R by (unfold Rdiv; ring); replace b with (7/40)%R by (field; lra) end. lra.
Qed.

(** * C66: interpolation of a uniform field *)
Section Uniform.
Open Scope R_scope.
Lemma deficit N t : 1 <= N -> 0 <= t < 1 ->
  / (N + 2) <= (1 - t) * (1 - t) / N + t * (2 - t) / (N + 2) <= / N.
Proof.
  intros HN Ht.
  assert (A : / (N + 2) <= / N) by (apply Rinv_le_contravar; lra).
  assert (B : 0 < / (N + 2)) by (apply Rinv_0_lt_compat; lra).
  unfold Rdiv. set (p := / N) in *. set (q := / (N + 2)) in *. clearbody p q.
  assert (X1 : 0 <= (1 - t) * (1 - t) * (p - q)) by (apply Rmult_le_pos; [apply Rmult_le_pos; lra|lra]).
  assert (X2 : 0 <= t * (2 - t) * (p - q)) by (apply Rmult_le_pos; [apply Rmult_le_pos; lra|lra]).
  split; lra.
Qed.
Lemma uniform_weights (i a r dr dz dz1 dz2 v N t : R) : 0 < dr -> 0 < dz -> dz1 + dz2 = dz -> N = 2 * i + a + 1 -> 1 <= N ->
  r = (i + a / 2 + t) * dr ->
  v * cyl_rng_vol dz1 (r - /2 * dr) ((i + (1 + a) / 2) * dr) / (PI * dz * dr * dr * N) +
  v * cyl_rng_vol dz1 ((i + (1 + a) / 2) * dr) (r + /2 * dr) / (PI * dz * dr * dr * (N + 2)) +
  v * cyl_rng_vol dz2 (r - /2 * dr) ((i + (1 + a) / 2) * dr) / (PI * dz * dr * dr * N) +
  v * cyl_rng_vol dz2 ((i + (1 + a) / 2) * dr) (r + /2 * dr) / (PI * dz * dr * dr * (N + 2)) =
  v * (1 - ((1 - t) * (1 - t) / N + t * (2 - t) / (N + 2))).
Proof.
  intros Hr Hz Hs -> HN ->. assert (P := PI_RGT_0). unfold cyl_rng_vol.
  replace dz2 with (dz - dz1) by lra. field. repeat split; lra.
Qed.
End Uniform.

Lemma uniform_sum g (a : Z) i k v r : (a = 0 \/ a = 1) -> (0 < g_dr g)%R -> (0 < g_dz g)%R -> 0 <= i ->
  i = cell_number (r - IZR a / 2 * g_dr g) (g_dr g) ->
  forall p, p_i p = i -> p_k p = k -> p_vol1 p = cell_volume i a (g_dr g) (g_dz g) -> p_vol2 p = cell_volume i (a + 2) (g_dr g) (g_dz g) ->
  p_r2 p = ((IZR i + (1 + IZR a) / 2) * g_dr g)%R -> (p_dz1 p + p_dz2 p = g_dz g)%R ->
  exists w N, sum4 (four g (fun _ _ => v) r p) = (v * w)%R /\ 1 <= N /\ (IZR N - 1 <= 2 * r / g_dr g < IZR N + 1)%R /\
    (1 - / IZR N <= w <= 1 - / IZR (N + 2))%R.
Proof.
  intros Ha Hr Hz Hi Ei p E1 E2 E3 E4 E5 E6.
  assert (HN : 1 <= 2 * i + a + 1) by lia.
  pose proof (cell_number_bounds (r - IZR a / 2 * g_dr g) (g_dr g) Hr) as B. rewrite <- Ei in B.
  set (t := (r / g_dr g - IZR i - IZR a / 2)%R).
  assert (Er : (r = (IZR i + IZR a / 2 + t) * g_dr g)%R) by (unfold t; field; lra).
  assert (Ht : (0 <= t < 1)%R) by (rewrite Er in B; nra).
  assert (EN : (IZR (2 * i + a + 1) = 2 * IZR i + IZR a + 1)%R) by (rewrite !plus_IZR, mult_IZR; ring).
  assert (HN' := IZR_le _ _ HN). rewrite EN in HN'.
  exists (1 - ((1 - t) * (1 - t) / (2 * IZR i + IZR a + 1) + t * (2 - t) / (2 * IZR i + IZR a + 1 + 2)))%R, (2 * i + a + 1).
  split; [|split; [exact HN|]].
  - rewrite <- (uniform_weights (IZR i) (IZR a) r (g_dr g) (g_dz g) (p_dz1 p) (p_dz2 p) v _ t Hr Hz E6 eq_refl HN' Er).
    unfold four, sum4. cbv zeta. rewrite E3, E4, E5. unfold cell_volume. rewrite plus_IZR.
    replace (2 * IZR i + (IZR a + 2) + 1)%R with (2 * IZR i + IZR a + 1 + 2)%R by ring. reflexivity.
  - rewrite (plus_IZR _ 2), EN. split.
    + replace (2 * r / g_dr g)%R with (2 * (IZR i + IZR a / 2 + t))%R by (rewrite Er; field; lra). lra.
    + pose proof (deficit (2 * IZR i + IZR a + 1) t HN' Ht). lra.
Qed.
Lemma uniform_places g v r z : inside g r z -> forall p, (p = place_half_r g r z \/ p = place_half_z g r z \/ p = place_half_rz g r z) ->
  exists w N, sum4 (four g (fun _ _ => v) r p) = (v * w)%R /\ 1 <= N /\ (IZR N - 1 <= 2 * r / g_dr g < IZR N + 1)%R /\
    (1 - / IZR N <= w <= 1 - / IZR (N + 2))%R.
Proof.
  intros I p Hp. destruct (places_good g r z I) as (_ & _ & _ & _ & N1 & N2). destruct I as ((D1 & D2 & _) & _).
  cbn [place_half_r place_half_z p_i] in N1, N2.
  destruct Hp as [->|[->| ->]].
  - eapply (uniform_sum g 1 (cell_number (r - / 2 * g_dr g) (g_dr g))); cbn [place_half_r p_i p_k p_vol1 p_vol2 p_r2 p_dz1 p_dz2]; try reflexivity; try assumption; auto.
    + f_equal. lra.
    + rewrite plus_IZR. lra.
    + rewrite plus_IZR. ring.
  - eapply (uniform_sum g 0 (cell_number r (g_dr g))); cbn [place_half_z p_i p_k p_vol1 p_vol2 p_r2 p_dz1 p_dz2]; try reflexivity; try assumption; auto.
    + f_equal. lra.
    + lra.
    + lra.
  - eapply (uniform_sum g 1 (cell_number (r - / 2 * g_dr g) (g_dr g))); cbn [place_half_rz p_i p_k p_vol1 p_vol2 p_r2 p_dz1 p_dz2]; try reflexivity; try assumption; auto.
    + f_equal. lra.
    + rewrite plus_IZR. lra.
    + lra.
Qed.
(** The interpolated value of a uniform component falls short by a share between 1/(N+2) and 1/N where N = 2r/dr + 1
    up to one: the error decreases with the distance to the axis only like dr/(2r). *)
Definition uniform (f : grid3 R) (c : comp) (v : R) : Prop := forall x y, lv (getc c f) x y = v.
Definition short_by (g : geo) (r v u : R) : Prop :=
  exists w N, u = (v * w)%R /\ 1 <= N /\ (IZR N - 1 <= 2 * r / g_dr g < IZR N + 1)%R /\ (1 - / IZR N <= w <= 1 - / IZR (N + 2))%R.
Theorem C66_uniform_partial : forall g f r z c v u, fits3 (g_nr g) (g_nz g) f -> inside g r z -> uniform f c v ->
  (get_field_h g f r z = Ok u \/ (get_field_e g f r z = Ok u /\ c <> Cphi /\ (c = Cz -> uniform f Cphi 0))) ->
  short_by g r v (vcomp c u).
Proof.
  intros g f r z c v u F I U H. pose proof (uniform_places g v r z I) as K. unfold short_by.
  destruct H as [H|(H & Nc & Hz)].
  - rewrite get_field_h_eq in H by assumption. apply ok_inj in H. subst u. unfold uniform in U.
    destruct c; cbn [vcomp getc] in *; rewrite (four_ext g _ (fun _ _ => v) r _ U); apply K; auto.
  - rewrite get_field_e_eq in H by assumption. apply ok_inj in H. subst u. unfold uniform in U.
    destruct c; cbn [vcomp getc] in *; [|congruence|]; rewrite (four_ext g _ (fun _ _ => v) r _ U).
    + apply K; auto.
    + destruct (four_zero g (lv (c_phi f)) r (place_node g r z) (Hz eq_refl)) as [_ ->]. rewrite Rplus_0_r. apply K; auto.
Qed.
(** it is never exact *)
Theorem C66_uniform_refuted : forall g f r z c v u, fits3 (g_nr g) (g_nz g) f -> inside g r z -> uniform f c v -> v <> 0%R ->
  get_field_h g f r z = Ok u -> vcomp c u <> v.
Proof.
  intros g f r z c v u F I U Nv H E.
  destruct (C66_uniform_partial g f r z c v u F I U (or_introl H)) as (w & N & E1 & HN & _ & _ & W).
  rewrite E1 in E. assert (w = 1%R) by (apply (Rmult_eq_reg_l v); lra).
  assert (P : (0 < / IZR (N + 2))%R) by (apply Rinv_0_lt_compat, IZR_lt; lia). lra.
Qed.
(** half a cell from the axis only half of a uniform H_z is seen *)
Theorem C66_axis_refuted : exists g f v u, fits3 (g_nr g) (g_nz g) f /\ inside g (/2) (3/2) /\ uniform f Cz v /\
  get_field_h g f (/2) (3/2) = Ok u /\ vcomp Cz u = (v / 2)%R /\ v <> 0%R.
Proof.
  assert (I : inside geo_ex (/2) (3/2)).
  { unfold inside, geo_ex. cbn [g_dr g_dz g_d0 g_d1 g_nr g_nz]. change (0 + 3) with 3. repeat split; lra || lia. }
  exists geo_ex, (gz3 1), 1%R. eexists. split; [apply gz3_fits|]. split; [exact I|]. split; [intros x y; reflexivity|].
  split; [apply (get_field_h_eq geo_ex (gz3 1) _ _ (gz3_fits 1) I)|]. split; [|lra].
  cbn [vcomp]. rewrite (four_ext geo_ex _ (fun _ _ => 1%R)) by reflexivity.
  unfold four, sum4, place_half_r, geo_ex. cbn [p_i p_k p_vol1 p_vol2 p_dz1 p_dz2 p_r2 g_dr g_dz g_d0 g_d1].
  rewrite cell_ex. replace (cell_number (/2 - /2 * 1) 1) with 0 by (symmetry; apply Int_part_unique; lra).
  unfold cell_volume, cyl_rng_vol. cbn [Z.add Z.mul Pos.add]. assert (P := PI_RGT_0). field. lra.
Qed.
Example C41_example : exists u, get_field_h geo_ex (gz3 4) (3/2) (3/2) = Ok u /\ inside geo_ex (3/2) (3/2) /\ (0 < vcomp Cz u < 4)%R.
Proof.
  eexists. split; [apply (get_field_h_eq geo_ex (gz3 4) _ _ (gz3_fits 4) inside_ex)|]. split; [apply inside_ex|].
  destruct (C66_uniform_partial geo_ex (gz3 4) (3/2) (3/2) Cz 4 _ (gz3_fits 4) inside_ex ltac:(intros x y; reflexivity)
    (or_introl (get_field_h_eq geo_ex (gz3 4) _ _ (gz3_fits 4) inside_ex))) as (w & N & E & HN & HR & W1 & W2).
  rewrite E. cbn [g_dr geo_ex] in HR.
  assert (2 < N) by (apply lt_IZR; lra). assert (X : (/ IZR N <= / 3)%R) by (apply Rinv_le_contravar; [lra|apply IZR_le; lia]).
  assert (P : (0 < / IZR (N + 2))%R) by (apply Rinv_0_lt_compat, IZR_lt; lia). lra.
Qed.

Print Assumptions C40_selected_partial.
Print Assumptions C40_electric_never.
Print Assumptions C40_electric_refuted.
Print Assumptions C40_magnetic_refuted.
Print Assumptions C40_unknown_partial.
Print Assumptions C40_unknown_electric_refuted.
Print Assumptions C40_no_parameter_refuted.
Print Assumptions C41_defined.
Print Assumptions C41_field_h.
Print Assumptions C41_field_e_partial.
Print Assumptions C41_field_e_refuted.
Print Assumptions C66_uniform_partial.
Print Assumptions C66_uniform_refuted.
Print Assumptions C66_axis_refuted.
