(** Theorems about the reading of the configuration file and about the metadata: properties C155 - C157. *)
From Coq Require Import Reals Lra String ZifyBool.
From Verif Require Import Base RndUtil DecompModel PushModel HashModel CfgModel CheckModel CfgJsonModel CfgJsonProofs ThmCfg ThmCheck.
Open Scope string_scope.

(** * What a configuration file says *)
(** there is a value under the names [p], and it is as [Q] says *)
Definition field (p : list string) (Q : json -> Prop) (j : json) : Prop := exists v, under p j = Some v /\ Q v.
Definition number (x : Rdefinitions.R) (v : json) : Prop := v = Num x.
Definition text (s : string) (v : json) : Prop := v = Str s.
Definition flag (b : bool) (v : json) : Prop := v = Bool b.
(** a number with the integer part [n] *)
Definition integer (lo hi n : Z) (v : json) : Prop := exists x, v = Num x /\ chops x n /\ (lo <= n < hi)%Z.
Definition int32 := integer (- 2 ^ 31) (2 ^ 31).
Definition size64 := integer 0 (2 ^ 64).
(** a fraction of [n] cells, rounded down to [l] of them *)
Definition part_of (n l : Z) (v : json) : Prop := exists x, v = Num x /\ (IZR l <= x * IZR n < IZR l + 1)%R /\ (0 <= l < 2 ^ 64)%Z.

Definition says_layers (nr nz : Z) (j : json) (l : layers) : Prop :=
  field ["left_wall"] (part_of nz (l_left l)) j /\ field ["outer_wall"] (part_of nr (l_outer l)) j /\ field ["right_wall"] (part_of nz (l_right l)) j /\
  field ["sigma_1"] (number (l_s1 l)) j /\ field ["sigma_2"] (number (l_s2 l)) j.
Definition says_area (b : build) (j : json) (a : area) : Prop :=
  field ["geometry"; "size"; "radius"] (number (a_radius a)) j /\ field ["geometry"; "size"; "longitude"] (number (a_longitude a)) j /\
  field ["geometry"; "grid"; "radius"] (size64 (a_nr a)) j /\ field ["geometry"; "grid"; "longitude"] (size64 (a_nz a)) j /\
  (a_radius a <> 0)%R /\ (a_longitude a <> 0)%R /\
  (if has_pml b then exists l, a_pml a = Some l /\ field ["geometry"; "pml"] (fun v => says_layers (a_nr a) (a_nz a) v l) j else a_pml a = None) /\
  (if single b then a_dom_r a = 1%Z /\ a_dom_z a = 1%Z
   else exists m n, field ["geometry"; "domains_amount"; "radius"] (int32 m) j /\ field ["geometry"; "domains_amount"; "longitude"] (int32 n) j /\
     a_dom_r a = (m mod 2 ^ 64)%Z /\ a_dom_z a = (n mod 2 ^ 64)%Z).
Definition says_clock (j : json) (t : clock) : Prop :=
  field ["time"; "start"] (number (t_start t)) j /\ field ["time"; "end"] (number (t_end t)) j /\ field ["time"; "step"] (number (t_step t)) j /\
  t_current t = 0%R.
Definition says_species (j : json) (s : species) : Prop :=
  field ["name"] (text (s_name s)) j /\ s_id s = specie_id (s_name s) /\
  (exists m, field ["mass"] (int32 m) j /\ s_mass s = (m mod 2 ^ 32)%Z) /\ field ["charge"] (int32 (s_charge s)) j /\
  field ["density"] (number (s_left s)) j /\ field ["density"] (number (s_right s)) j /\ field ["temperature"] (number (s_temp s)) j.
Definition says_beam (j : json) (b : beam) : Prop :=
  (exists name, field ["name"] (text name) j /\ b_name b = "beam_" ++ name /\ b_id b = beam_id name) /\
  (exists m, field ["mass"] (int32 m) j /\ b_mass b = (m mod 2 ^ 32)%Z) /\ field ["charge"] (int32 (b_charge b)) j /\
  field ["start_time"] (number (b_start b)) j /\ field ["velocity"] (number (b_velocity b)) j /\
  field ["bunch"; "amount"] (int32 (b_amount b)) j /\ field ["bunch"; "distance"] (number (b_distance b)) j /\
  field ["bunch"; "length"] (number (b_length b)) j /\ field ["bunch"; "radius"] (number (b_radius b)) j /\
  field ["bunch"; "density"] (number (b_density b)) j /\ field ["bunch"; "profile"; "radial"] (text (b_radial b)) j /\
  field ["bunch"; "profile"; "longitudinal"] (text (b_longitudinal b)) j.
Definition says_output (j : json) (o : output) : Prop :=
  field ["data"; "data_root"] (text (o_root o)) j /\ field ["data"; "compression"; "use"] (flag (o_compress o)) j /\
  field ["data"; "compression"; "level"] (int32 (o_level o)) j.
(** the quantities of one species *)
Definition particle_quantities : list string := ["temperature"; "energy"; "momentum/r"; "momentum/phi"; "momentum/z"; "density"].
Definition says_probe (nr nz : Z) (j : json) (p : prob) : Prop :=
  field ["component"] (text (p_component p)) j /\
  (field ["specie"] (text (p_specie p)) j \/ (forall s, ~ field ["specie"] (text s) j) /\ p_specie p = "unknown") /\
  field ["shape"] (text "rec") j /\
  exists r0 z0 r1 z1 s,
    field ["start"; "r"] (size64 r0) j /\ field ["start"; "z"] (size64 z0) j /\ field ["end"; "r"] (size64 r1) j /\ field ["end"; "z"] (size64 z1) j /\
    field ["schedule"] (int32 s) j /\ (r0 <= r1 <= nr)%Z /\ (z0 <= z1 <= nz)%Z /\
    p_probe p = {| p_shape := 0; p_dims := [r0; z0; r1; z1]; p_schedule := (s mod 2 ^ 32)%Z |} /\
    let extent := to_string r0 ++ "-" ++ to_string r1 ++ "_" ++ to_string z0 ++ "-" ++ to_string z1 in
    (In (p_component p) particle_quantities -> p_path p = p_component p ++ "/" ++ p_specie p ++ "/rec/" ++ extent) /\
    (~ In (p_component p) particle_quantities -> p_path p = p_component p ++ "/rec/" ++ extent).
Definition says_outside (name : string) (j : json) (f : outside) : Prop :=
  f_name f = name /\ field ["external_fields"; name; "formfactor"] (text (f_form f)) j /\
  field ["external_fields"; name; "params"] (fun v => v = Arr (map Num (f_params f))) j.
(** a list whose elements are as [P] says *)
Definition list_of {A} (P : json -> A -> Prop) (l : list A) (v : json) : Prop := exists es, v = Arr es /\ Forall2 P es l.

Definition says (b : build) (j : json) (c : settings) : Prop :=
  field ["log_file"] (text (c_log c)) j /\ field ["macro_amount"] (number (c_macro c)) j /\
  field ["beam_plasma_macro_size_ratio"] (integer 0 (2 ^ 32) (c_ratio c)) j /\
  says_area b j (c_area c) /\ says_clock j (c_time c) /\
  field ["particles"] (list_of says_species (c_particles c)) j /\ field ["beams"] (list_of says_beam (c_beams c)) j /\
  says_output j (c_output c) /\
  field ["data"; "probes"] (list_of (says_probe (a_nr (c_area c)) (a_nz (c_area c))) (c_probes c)) j /\
  (if has_ext b then exists e h, c_outside c = [e; h] /\ says_outside "electric" j e /\ says_outside "magnetic" j h else c_outside c = []).

(** * Proofs *)
Lemma field_cons k p Q j : field (k :: p) Q j <-> exists v, under [k] j = Some v /\ field p Q v.
Proof.
  unfold field. cbn [under]. destruct j; try (split; intros (? & H & ?); discriminate).
  destruct (lookup k m) as [v|].
  - split; [intros (w & H & HQ); exists v; split; [reflexivity|]; eauto|intros (w & [= ->] & x & H & HQ); eauto].
  - split; intros (? & H & ?); discriminate.
Qed.
Lemma field_nil Q j : field [] Q j <-> Q j.
Proof. unfold field. cbn [under]. split; [intros (v & [= <-] & H); auto|eauto]. Qed.
Lemma under_obj k j v : under [k] j = Some v -> exists m, j = Obj m.
Proof. destruct j; try discriminate. eauto. Qed.

Ltac is_strict := let a := fresh in let H := fresh in intros a H; cbv beta in H; decompose [ex and] H; discriminate.
Ltac pure :=
  lazymatch goal with
  | |- Pure (give _) _ => apply pure_give
  | |- Pure num _ => apply pure_num
  | |- Pure str _ => apply pure_str
  | |- Pure boolean _ => apply pure_bool
  | |- Pure obj _ => apply pure_obj
  | |- Pure (seq _ _) _ => eapply pure_seq; [pure|intros ? _; cbv beta; pure]
  | |- Pure (key _ _) _ => eapply pure_key; [pure|is_strict]
  | |- Pure _ _ => eassumption
  end.
Ltac same :=
  repeat match goal with
  | H : under ?p ?j = Some ?a, H' : under ?p ?j = Some ?b |- _ => rewrite H in H'; injection H' as H'; try subst
  end.

Ltac opens := repeat match goal with
  | H : ex _ |- _ => destruct H
  | H : _ /\ _ |- _ => destruct H
  | H : field (_ :: _) _ _ |- _ => apply (proj1 (field_cons _ _ _ _)) in H
  | H : field [] _ _ |- _ => apply (proj1 (field_nil _ _)) in H; cbv beta in H
  | H : number _ _ |- _ => unfold number in H
  | H : text _ _ |- _ => unfold text in H
  | H : flag _ _ |- _ => unfold flag in H
  | H : int32 _ _ |- _ => unfold int32 in H
  | H : size64 _ _ |- _ => unfold size64 in H
  | H : integer _ _ _ _ |- _ => unfold integer in H
  | H : part_of _ _ _ |- _ => unfold part_of in H
  end.
Ltac conv := repeat match goal with
  | H : to_s32 _ = Ok _ |- _ => apply to_s32_ok in H
  | H : to_u32 _ = Ok _ |- _ => apply to_u32_ok in H
  | H : to_u64 _ = Ok _ |- _ => apply to_u64_ok in H
  | H : read_pml _ _ = Ok _ |- _ => apply read_pml_ok in H
  | H : read_domains _ = Ok _ |- _ => apply read_domains_ok in H
  | H : Ok _ = Ok _ |- _ => injection H as H
  end.
Ltac fin := match goal with
  | |- to_s32 _ = Ok _ => apply to_s32_ok
  | |- to_u32 _ = Ok _ => apply to_u32_ok
  | |- to_u64 _ = Ok _ => apply to_u64_ok
  | |- read_pml _ _ = Ok _ => apply read_pml_ok
  | |- read_domains _ = Ok _ => apply read_domains_ok
  | |- _ /\ _ => split
  | |- exists m, _ = Obj m => eapply under_obj; eassumption
  | |- exists _ : unit, _ => exists tt
  | |- ex _ => eexists
  | |- under _ _ = Some _ => eassumption
  | |- chops _ _ => eassumption
  | |- field (_ :: _) _ _ => apply (proj2 (field_cons _ _ _ _))
  | |- field [] _ _ => apply (proj2 (field_nil _ _)); cbv beta
  | |- number _ _ => unfold number
  | |- text _ _ => unfold text
  | |- flag _ _ => unfold flag
  | |- int32 _ _ => unfold int32
  | |- size64 _ _ => unfold size64
  | |- integer _ _ _ _ => unfold integer
  | |- part_of _ _ _ => unfold part_of
  | _ => reflexivity || eassumption
  end.

Lemma pure_layers nr nz : Pure (read_layers nr nz) (fun j l => field ["pml"] (fun v => says_layers nr nz v l) j).
Proof.
  unfold read_layers. eapply pure_ext; [pure|]. intros j l. cbv beta. unfold says_layers. split; intros H; opens; subst; same; conv; opens; subst.
  - cbn [l_left l_outer l_right l_s1 l_s2]. repeat fin.
  - destruct l as [y1 y2 y3 y4 y5]. cbn [l_left l_outer l_right l_s1 l_s2] in *. subst. repeat fin.
Qed.
Lemma sized_ok x : Pure (sized x) (fun _ _ => x <> 0%R).
Proof.
  unfold sized. eapply pure_ext; [pure|]. intros j []. cbv beta. unfold req. destruct (Req_EM_T x 0); split; auto; try discriminate. now intros [].
Qed.
Lemma stop_ok c : Pure (stop_if c) (fun _ _ => c = false).
Proof. unfold stop_if. eapply pure_ext; [pure|]. intros j []. cbv beta. destruct c; split; auto; discriminate. Qed.
Ltac solved := subst; same; conv; opens; subst; same; subst.

Lemma pure_geometry b : Pure (read_geometry b) (says_area b).
Proof.
  unfold read_geometry, says_area. destruct (has_pml b), (single b).
  all: pose proof pure_layers as PL; pose proof sized_ok as PS.
  all: eapply pure_ext; [eapply pure_key; [repeat first [eapply pure_seq; [|intros ? _; cbv beta] | apply PL | apply PS | pure]|is_strict]|].
  all: intros j a; cbv beta; split; intros H; opens; solved; [cbn [a_radius a_longitude a_nr a_nz a_pml a_dom_r a_dom_z]; repeat fin|].
  all: destruct a as [y1 y2 y3 y4 y5 y6 y7]; cbn [a_radius a_longitude a_nr a_nz a_pml a_dom_r a_dom_z] in *; solved; repeat fin.
Qed.
Lemma pure_time : Pure read_time says_clock.
Proof.
  unfold read_time, says_clock. eapply pure_ext; [pure|]. intros j a; cbv beta; split; intros H; opens; solved.
  - cbn [t_start t_end t_step t_current]. repeat fin.
  - destruct a as [y1 y2 y3 y4]. cbn [t_start t_end t_step t_current] in *. solved. repeat fin.
Qed.
Lemma pure_output : Pure read_output says_output.
Proof.
  unfold read_output, says_output. eapply pure_ext; [pure|]. intros j a; cbv beta; split; intros H; opens; solved.
  - cbn [o_root o_compress o_level]. repeat fin.
  - destruct a as [y1 y2 y3]. cbn [o_root o_compress o_level] in *. solved. repeat fin.
Qed.
Lemma pure_species1 acc : Pure (read_species1 acc) (fun j s => ~ In (s_name s) (map s_name acc) /\ says_species j s).
Proof.
  pose proof stop_ok as PS. unfold read_species1, says_species.
  eapply pure_ext; [repeat first [eapply pure_seq; [|intros ? _; cbv beta] | apply PS | pure]|]. intros j a; cbv beta; split; intros H; opens; solved.
  - cbn [s_name s_id s_mass s_charge s_left s_right s_temp]. split; [now apply existsb_known|]. repeat fin.
  - destruct a as [y1 y2 y3 y4 y5 y6 y7]. cbn [s_name s_id s_mass s_charge s_left s_right s_temp] in *. solved.
    match goal with H : ~ In _ _ |- _ => apply existsb_known in H end. repeat fin.
Qed.
Lemma pure_beam1 acc : Pure (read_beam1 acc) (fun j s => ~ In (b_name s) (map b_name acc) /\ says_beam j s).
Proof.
  pose proof stop_ok as PS. unfold read_beam1, says_beam.
  eapply pure_ext; [repeat first [eapply pure_seq; [|intros ? _; cbv beta] | apply PS | pure]|]. intros j a; cbv beta; split; intros H; opens; solved.
  - cbn [b_id b_name b_mass b_charge b_start b_velocity b_amount b_distance b_length b_radius b_density b_radial b_longitudinal].
    split; [now apply existsb_known|]. repeat fin.
  - destruct a as [y1 y2 y3 y4 y5 y6 y7 y8 y9 y10 y11 y12 y13].
    cbn [b_id b_name b_mass b_charge b_start b_velocity b_amount b_distance b_length b_radius b_density b_radial b_longitudinal] in *. solved.
    match goal with H : ~ In _ _ |- _ => apply existsb_known in H end. repeat fin.
Qed.
Lemma pure_species : Pure read_species (fun j l => field ["particles"] (list_of says_species l) j /\ NoDup (map s_name l)).
Proof.
  unfold read_species. eapply pure_ext; [eapply pure_key; [apply pure_items; exact pure_species1|is_strict]|].
  intros j l. cbv beta. unfold list_of. split.
  - intros (v & U & es & -> & C). apply chain_names in C as [F N]; [|constructor]. split; [|exact N]. exists (Arr es). split; [exact U|]. eauto.
  - intros [(v & U & es & -> & F) N]. exists (Arr es). split; [exact U|]. exists es. split; [reflexivity|]. apply chain_names; [constructor|]. auto.
Qed.
Lemma pure_beams : Pure read_beams (fun j l => field ["beams"] (list_of says_beam l) j /\ NoDup (map b_name l)).
Proof.
  unfold read_beams. eapply pure_ext; [eapply pure_key; [apply pure_items; exact pure_beam1|is_strict]|].
  intros j l. cbv beta. unfold list_of. split.
  - intros (v & U & es & -> & C). apply chain_names in C as [F N]; [|constructor]. split; [|exact N]. exists (Arr es). split; [exact U|]. eauto.
  - intros [(v & U & es & -> & F) N]. exists (Arr es). split; [exact U|]. exists es. split; [reflexivity|]. apply chain_names; [constructor|]. auto.
Qed.
Lemma numbers es l : Forall2 (fun j x => j = Num x) es l <-> es = map Num l.
Proof.
  split; [intros F; induction F; subst; cbn [map]; congruence|intros ->]. induction l; cbn [map]; constructor; auto.
Qed.
Lemma pure_outside1 name : Pure (read_outside1 name) (fun j f => f_name f = name /\ field [name; "formfactor"] (text (f_form f)) j /\
  field [name; "params"] (fun v => v = Arr (map Num (f_params f))) j).
Proof.
  unfold read_outside1.
  assert (PI : Pure (items (fun _ => num)) (fun j l => j = Arr (map Num l))).
  { eapply pure_ext; [apply pure_items; intros acc; apply pure_num|]. intros j l. cbv beta. split.
    - intros (es & -> & C). apply chain_forall2, numbers in C. now rewrite C.
    - intros ->. exists (map Num l). split; [reflexivity|]. now apply chain_forall2, numbers. }
  eapply pure_ext; [eapply pure_key; [repeat first [eapply pure_seq; [|intros ? _; cbv beta] | eapply pure_key; [apply PI|is_strict] | pure]|is_strict]|].
  intros j a; cbv beta; split; intros H; opens; solved.
  - cbn [f_name f_form f_params]. repeat fin.
  - destruct a as [y1 y2 y3]. cbn [f_name f_form f_params] in *. solved. repeat fin.
Qed.
Lemma pure_outside : Pure read_outside (fun j l => exists e h, l = [e; h] /\ says_outside "electric" j e /\ says_outside "magnetic" j h).
Proof.
  pose proof pure_outside1 as PO. unfold read_outside, says_outside.
  eapply pure_ext; [eapply pure_key; [repeat first [eapply pure_seq; [|intros ? _; cbv beta] | apply PO | pure]|is_strict]|].
  intros j a; cbv beta; split; intros H; opens; solved; repeat fin.
Qed.
(** ** Probes *)
(** null for a species that is not given *)
Definition touch (e : json) : json := match e with Obj m => Obj (put "specie" (value_of "specie" m) m) | _ => e end.
Lemma under_touch k p e : k <> "specie" -> under (k :: p) (touch e) = under (k :: p) e.
Proof.
  intros N. destruct e as [| | | | |m]; try reflexivity. cbn [touch under]. rewrite lookup_put. now rewrite (proj2 (String.eqb_neq k "specie") N).
Qed.
Lemma field_touch k p Q e : k <> "specie" -> field (k :: p) Q (touch e) <-> field (k :: p) Q e.
Proof. intros N. unfold field. now setoid_rewrite (under_touch k p e N). Qed.
Definition says_extent (j : json) (r : Z * list Z * string) : Prop :=
  exists r0 z0 r1 z1, field ["start"; "r"] (size64 r0) j /\ field ["start"; "z"] (size64 z0) j /\ field ["end"; "r"] (size64 r1) j /\
    field ["end"; "z"] (size64 z1) j /\ r = (0%Z, [r0; z0; r1; z1], rec_path [r0; z0; r1; z1]).
Lemma other_shapes s r0 z0 r1 z1 r z t : s <> "rec" -> forall v, probe_shape (desc s r0 z0 r1 z1 r z t) <> Ok v.
Proof.
  intros N v. unfold probe_shape, desc. cbn [d_shape d_r d_z]. rewrite (proj2 (String.eqb_neq _ _) N).
  destruct (s =? "col"); [discriminate|]. destruct (s =? "row"); [destruct (to_s32 r); discriminate|].
  destruct (s =? "dot"); [destruct (to_s32 r); discriminate|discriminate].
Qed.
Lemma pure_shape shape : Pure (read_shape shape) (fun j r => shape = "rec" /\ says_extent j r).
Proof.
  unfold read_shape, says_extent. destruct (shape =? "rec") eqn:E.
  - apply String.eqb_eq in E. eapply pure_ext; [pure|]. intros j r. cbv beta. split; intros H; opens; solved; repeat fin.
  - apply String.eqb_neq in E. destruct (shape =? "col"); [|destruct ((shape =? "row") || (shape =? "dot"))].
    + eapply pure_ext; [pure|]. intros j r. cbv beta. split; [|now intros []]. intros H.
      destruct (probe_shape _) as [v| |] eqn:F; try discriminate. now apply other_shapes in F.
    + eapply pure_ext; [pure|]. intros j r. cbv beta. split; [|now intros []]. intros (x & _ & H).
      destruct (probe_shape _) as [v| |] eqn:F; try discriminate. now apply other_shapes in F.
    + eapply pure_ext; [pure|]. intros j r. cbv beta. split; [discriminate|now intros []].
Qed.
Lemma of_particles_in s : of_particles s = true <-> In s particle_quantities.
Proof.
  unfold of_particles, particle_quantities. rewrite !orb_true_iff, !String.eqb_eq. cbn [In]. intuition congruence.
Qed.
Lemma str_or_ok k other j s j' : str_or k other j = Ok (s, j') <->
  exists m, j = Obj m /\ ((exists t, under [k] j = Some (Str t) /\ s = t) \/ (forall t, under [k] j <> Some (Str t)) /\ s = other) /\
    j' = Obj (put k (value_of k m) m).
Proof.
  unfold str_or. destruct j as [| | | | |m]; try (split; [discriminate|intros (m & [=] & _)]). cbn [under]. unfold value_of. split.
  - intros [= <- <-]. exists m. split; [reflexivity|]. split; [|reflexivity].
    destruct (lookup k m) as [[]|]; try (right; split; [discriminate|reflexivity]). left. eauto.
  - intros (m' & [= <-] & H & ->). f_equal. f_equal. destruct H as [(t & H & ->)|[H ->]].
    + destruct (lookup k m) as [v|]; [|discriminate]. now injection H as ->.
    + destruct (lookup k m) as [[| | |t| |]|]; try reflexivity. now destruct (H t).
Qed.
Lemma append_slash a b : (a ++ "/") ++ b = a ++ "/" ++ b.
Proof. induction a as [|c a IH]; cbn [append]; [reflexivity|]. now rewrite IH. Qed.
Lemma field_text k s j : field [k] (text s) j <-> under [k] j = Some (Str s).
Proof. unfold field, text. split; [intros (v & H & ->); auto|eauto]. Qed.
Lemma probe1_ok nr nz acc e p e' : read_probe1 nr nz acc e = Ok (p, e') <-> says_probe nr nz e p /\ e' = touch e.
Proof.
  pose proof stop_ok as PS. pose proof pure_shape as PH. unfold read_probe1, seq at 1 2.
  assert (B : forall component specie, Pure (shape <~ key "shape" str ;; sv <~ read_shape shape ;; schedule <~ (x <~ key "schedule" num ;; give (to_s32 x)) ;;
     let '(n, v, tail) := sv in
     d0 <~ give (vec_get v 0) ;; d1 <~ give (vec_get v 1) ;; d2 <~ give (vec_get v 2) ;; d3 <~ give (vec_get v 3) ;;
     stop_if ((d2 <? d0) || (d3 <? d1) || (nr <? d2) || (nz <? d3))%Z ;;;
     give (Ok {| p_component := component; p_specie := specie;
       p_path := component ++ "/" ++ (if of_particles component then specie ++ "/" else "") ++ tail;
       p_probe := {| p_shape := n; p_dims := v; p_schedule := u32 schedule |} |}))
     (fun j p => p_component p = component /\ p_specie p = specie /\ field ["shape"] (text "rec") j /\
       exists r0 z0 r1 z1 s, field ["start"; "r"] (size64 r0) j /\ field ["start"; "z"] (size64 z0) j /\ field ["end"; "r"] (size64 r1) j /\
         field ["end"; "z"] (size64 z1) j /\ field ["schedule"] (int32 s) j /\ (r0 <= r1 <= nr)%Z /\ (z0 <= z1 <= nz)%Z /\
         p_probe p = {| p_shape := 0; p_dims := [r0; z0; r1; z1]; p_schedule := (s mod 2 ^ 32)%Z |} /\
         p_path p = component ++ "/" ++ (if of_particles component then specie ++ "/" else "") ++ rec_path [r0; z0; r1; z1])).
  { intros component specie. intros j q j'.
    assert (PT : Pure (x <~ key "schedule" num ;; give (to_s32 x)) (fun j s => field ["schedule"] (int32 s) j)).
    { eapply pure_ext; [pure|]. intros i s. cbv beta. split; intros H; opens; solved; repeat fin. }
    assert (PN : Pure (key "shape" str) (fun j s => field ["shape"] (text s) j)).
    { eapply pure_ext; [pure|]. intros i s. cbv beta. split; intros H; opens; solved; repeat fin. }
    split.
    - unfold seq at 1 2 3. intros H. destruct (key "shape" str j) as [[sh j1]| |] eqn:E1; cbn [bind] in H; try discriminate. apply PN in E1 as [E1 ->].
      destruct (read_shape sh j) as [[sv j1]| |] eqn:E2; cbn [bind] in H; try discriminate. apply PH in E2 as [[-> (r0 & z0 & r1 & z1 & F1 & F2 & F3 & F4 & ->)] ->].
      match type of H with (bind ?t _) = _ => destruct t as [[s j1]| |] eqn:E3; cbn [bind] in H; try discriminate end. apply PT in E3 as [E3 ->].
      unfold seq, give, stop_if, vec_get in H. cbn [nth_error bind] in H.
      destruct ((r1 <? r0) || (z1 <? z0) || (nr <? r1) || (nz <? z1))%Z eqn:D; [discriminate|]. cbn [bind] in H. injection H as <- <-.
      cbn [p_component p_specie p_probe p_path]. split; [|reflexivity]. split; [reflexivity|]. split; [reflexivity|]. split; [exact E1|].
      exists r0, z0, r1, z1, s. repeat (split; [first [assumption|lia|reflexivity]|]). reflexivity.
    - intros [(C1 & C2 & E1 & r0 & z0 & r1 & z1 & s & F1 & F2 & F3 & F4 & E3 & I1 & I2 & C3 & C4) ->].
      unfold seq at 1 2 3. rewrite (proj2 (PN j "rec" j)) by auto. cbn [bind].
      rewrite (proj2 (PH "rec" j (0%Z, [r0; z0; r1; z1], rec_path [r0; z0; r1; z1]) j)); [|split; [|reflexivity]; split; [reflexivity|]; exists r0, z0, r1, z1; auto].
      cbn [bind]. rewrite (proj2 (PT j s j)) by auto. cbn [bind]. unfold seq, give, stop_if, vec_get. cbn [nth_error bind].
      destruct ((r1 <? r0) || (z1 <? z0) || (nr <? r1) || (nz <? z1))%Z eqn:D; [lia|]. cbn [bind]. do 2 f_equal.
      destruct q as [q1 q2 q3 q4]. cbn [p_component p_specie p_probe p_path] in *. now rewrite C1, C2, C3, C4. }
  destruct e as [| | | | |m]; try (split; [discriminate|intros [[H _] _]; apply field_text in H; discriminate]).
  cbn [obj bind]. unfold seq at 1.
  split.
  - intros H. destruct (key "component" str (Obj m)) as [[co j1]| |] eqn:E1; cbn [bind] in H; try discriminate.
    assert (PC : Pure (key "component" str) (fun j s => exists v, under ["component"] j = Some v /\ v = Str s)) by pure.
    apply PC in E1 as [(v & E1 & ->) ->]. unfold seq at 1 in H.
    destruct (str_or "specie" "unknown" (Obj m)) as [[sp j1]| |] eqn:E2; cbn [bind] in H; try discriminate.
    apply str_or_ok in E2 as (m' & [= <-] & E2 & ->). apply B in H as [H ->]. change (Obj (put "specie" (value_of "specie" m) m)) with (touch (Obj m)) in *.
    split; [|reflexivity]. destruct H as (C1 & C2 & E3 & r0 & z0 & r1 & z1 & s & F1 & F2 & F3 & F4 & E4 & I1 & I2 & C3 & C4).
    rewrite field_touch in E3, F1, F2, F3, F4, E4 by discriminate. unfold says_probe. split; [apply field_text; now rewrite C1|]. split.
    { rewrite field_text. destruct E2 as [(t & E2 & ->)|[E2 ->]]; [left; now rewrite C2|right]. split; [|exact C2]. intros t T. apply field_text in T. now apply (E2 t). }
    split; [exact E3|]. exists r0, z0, r1, z1, s. repeat (split; [assumption|]). cbv zeta. rewrite C1, C2, C4. cbn [rec_path]. split; intros I.
    + apply of_particles_in in I. rewrite I. now rewrite append_slash.
    + destruct (of_particles co) eqn:O; [apply of_particles_in in O; contradiction|]. reflexivity.
  - intros [(E1 & E2 & E3 & r0 & z0 & r1 & z1 & s & F1 & F2 & F3 & F4 & E4 & I1 & I2 & C3 & C4 & C5) ->].
    assert (PC : Pure (key "component" str) (fun j s => exists v, under ["component"] j = Some v /\ v = Str s)) by pure.
    apply field_text in E1. rewrite (proj2 (PC (Obj m) (p_component p) (Obj m))) by eauto. cbn [bind]. unfold seq at 1.
    rewrite (proj2 (str_or_ok "specie" "unknown" (Obj m) (p_specie p) (touch (Obj m)))).
    2:{ exists m. split; [reflexivity|]. split; [|reflexivity]. destruct E2 as [E2|[E2 E5]].
        - apply field_text in E2. left. eauto.
        - right. split; [|exact E5]. intros t T. apply (E2 t). now apply field_text. }
    cbn [bind]. apply B. split; [|reflexivity]. split; [reflexivity|]. split; [reflexivity|]. rewrite field_touch by discriminate. split; [exact E3|].
    exists r0, z0, r1, z1, s. rewrite !field_touch by discriminate. repeat (split; [assumption|]). cbn [rec_path].
    destruct (of_particles (p_component p)) eqn:O.
    + rewrite append_slash. apply C4. now apply of_particles_in.
    + apply C5. intros I. apply of_particles_in in I. congruence.
Qed.

(** the probes of a file with null for each species that is not given *)
Definition touch_list (v : json) : json := match v with Arr es => Arr (map touch es) | _ => v end.
Definition change (k : string) (g : json -> json) (j : json) : json := match j with Obj m => Obj (put k (g (value_of k m)) m) | _ => j end.
Definition touch_all (j : json) : json := change "data" (change "probes" touch_list) j.
Lemma probes_ok nr nz j l j' : read_probes nr nz j = Ok (l, j') <->
  field ["data"; "probes"] (list_of (says_probe nr nz) l) j /\ j' = touch_all j.
Proof.
  assert (I : forall v l v', items (read_probe1 nr nz) v = Ok (l, v') <-> list_of (says_probe nr nz) l v /\ v' = touch_list v).
  { clear. intros v l v'. unfold items, list_of. destruct v as [| | | |es|]; try (split; [discriminate|intros [(es & [=] & _) _]]). split.
    - destruct (each _ [] es) as [[r es']| |] eqn:E; cbn [bind]; try discriminate. intros [= <- <-].
      apply (each_gen _ _ (fun _ => says_probe nr nz) touch) in E; [|exact (probe1_ok nr nz)]. destruct E as (l & -> & C & ->).
      apply chain_forall2 in C. cbn [app touch_list]. eauto.
    - intros [(es' & [= <-] & F) ->]. rewrite (proj2 (each_gen _ _ (fun _ => says_probe nr nz) touch (probe1_ok nr nz) es [] l (map touch es))); [reflexivity|].
      exists l. split; [reflexivity|]. split; [now apply chain_forall2|reflexivity]. }
  unfold read_probes. split.
  - unfold key at 1. destruct j as [| | | | |m]; try discriminate. unfold seq. destruct (value_of "data" m) as [| | | | |d] eqn:V; try discriminate. cbn [obj bind].
    cbn [key]. destruct (items _ (value_of "probes" d)) as [[r v]| |] eqn:E; cbn [bind]; try discriminate. intros [= <- <-].
    apply I in E as [E ->]. split; [|unfold touch_all, change; now rewrite V].
    assert (D : lookup "data" m = Some (Obj d)) by (unfold value_of in V; destruct (lookup "data" m); congruence).
    exists (value_of "probes" d). split; [|exact E]. cbn [under]. rewrite D. unfold value_of. destruct (lookup "probes" d) eqn:P; [reflexivity|].
    unfold value_of in E. rewrite P in E. destruct E as (es & [=] & _).
  - intros [(v & U & F) ->]. destruct j as [| | | | |m]; try discriminate. cbn [under] in U.
    destruct (lookup "data" m) as [[| | | | |d]|] eqn:D; try discriminate. destruct (lookup "probes" d) as [w|] eqn:P; [injection U as ->|discriminate].
    unfold key at 1, touch_all, change. unfold value_of at 1 2. rewrite D. unfold seq. cbn [obj bind key]. unfold value_of. rewrite P.
    rewrite (proj2 (I v l (touch_list v))) by auto. reflexivity.
Qed.

(** ** The whole file *)
(** what becomes of the file: the options of the build, and null for species of probes that are not given *)
Definition recorded (b : build) (j : json) : json :=
  touch_all (match j with Obj m => Obj (put "build_options" (build_options b) m) | _ => j end).
Lemma field_put k v m a p Q : a <> k -> field (a :: p) Q (Obj (put k v m)) <-> field (a :: p) Q (Obj m).
Proof. intros N. unfold field. cbn [under]. rewrite lookup_put. now rewrite (proj2 (String.eqb_neq _ _) N). Qed.
Lemma field_all a p Q j : a <> "data" -> field (a :: p) Q (touch_all j) <-> field (a :: p) Q j.
Proof. intros N. destruct j; try reflexivity. unfold touch_all, change. now apply field_put. Qed.
(** what the file says depends on its fields only *)
Definition agree (k : string) (j1 j2 : json) : Prop := forall a p Q, a <> k -> field (a :: p) Q j1 -> field (a :: p) Q j2.
Lemma area_agree b j1 j2 a : agree "build_options" j1 j2 -> says_area b j1 a -> says_area b j2 a.
Proof.
  intros E (H1 & H2 & H3 & H4 & H5 & H6 & H7 & H8). unfold says_area. repeat (split; [first [exact H5|exact H6|apply E; [discriminate|assumption]]|]). split.
  - destruct (has_pml b); [|exact H7]. destruct H7 as (l & H & F). exists l. split; [exact H|]. apply E; [discriminate|exact F].
  - destruct (single b); [exact H8|]. destruct H8 as (m & n & F & G & H). exists m, n. split; [apply E; [discriminate|exact F]|]. split; [apply E; [discriminate|exact G]|exact H].
Qed.
Lemma outside_agree k name j1 j2 f : k <> "external_fields" -> agree k j1 j2 -> says_outside name j1 f -> says_outside name j2 f.
Proof. intros N E (H1 & H2 & H3). split; [exact H1|]. split; apply E; auto. Qed.
Lemma agree_put v m : agree "build_options" (Obj (put "build_options" v m)) (Obj m) /\ agree "build_options" (Obj m) (Obj (put "build_options" v m)).
Proof. split; intros a p Q N H; now apply (field_put "build_options" v m a p Q N). Qed.
Lemma agree_all j : agree "data" (touch_all j) j /\ agree "data" j (touch_all j).
Proof. split; intros a p Q N H; now apply (field_all a p Q j N). Qed.

Theorem C155_reads : forall light b j c j', read_cfg light b j = Ok (c, j') <->
  says b j c /\ NoDup (map s_name (c_particles c)) /\ NoDup (map b_name (c_beams c)) /\
  share (c_area c) (c_macro c) (c_ratio c) (c_particles c) (c_beams c) = Ok (c_amounts c) /\
  method_check light (limits (c_area c) (c_time c) (c_particles c) (c_amounts c)) = Ok (c_messages c) /\
  j' = recorded b j.
Proof.
  intros light b j c j'.
  assert (P1 : Pure (key "log_file" str) (fun j s => field ["log_file"] (text s) j)).
  { eapply pure_ext; [pure|]. intros i s. cbv beta. split; intros H; opens; solved; repeat fin. }
  assert (P2 : Pure (key "macro_amount" num) (fun j s => field ["macro_amount"] (number s) j)).
  { eapply pure_ext; [pure|]. intros i s. cbv beta. split; intros H; opens; solved; repeat fin. }
  assert (P3 : Pure (x <~ key "beam_plasma_macro_size_ratio" num ;; give (to_u32 x)) (fun j s => field ["beam_plasma_macro_size_ratio"] (integer 0 (2 ^ 32) s) j)).
  { eapply pure_ext; [pure|]. intros i s. cbv beta. split; intros H; opens; solved; repeat fin. }
  assert (P4 : Pure (if has_ext b then read_outside else give (Ok [])) (fun j l =>
     if has_ext b then exists e h, l = [e; h] /\ says_outside "electric" j e /\ says_outside "magnetic" j h else l = [])).
  { destruct (has_ext b); [apply pure_outside|]. eapply pure_ext; [pure|]. intros i l. cbv beta. split; [now intros [= <-]|now intros ->]. }
  unfold read_cfg. split.
  - unfold seq at 1. intros H. destruct (key "log_file" str j) as [[log j0]| |] eqn:E1; cbn [bind] in H; try discriminate. apply P1 in E1 as [E1 ->].
    unfold seq at 1, assign at 1 in H. destruct j as [| | | | |m]; try discriminate. cbn [bind] in H.
    set (m' := put "build_options" (build_options b) m) in *. destruct (agree_put (build_options b) m) as [A1 A2]. fold m' in A1, A2.
    unfold seq at 1 in H. destruct (key "macro_amount" num (Obj m')) as [[macro j0]| |] eqn:E2; cbn [bind] in H; try discriminate. apply P2 in E2 as [E2 ->].
    unfold seq at 1 in H. match type of H with bind ?t _ = _ => destruct t as [[ratio j0]| |] eqn:E3; cbn [bind] in H; try discriminate end. apply P3 in E3 as [E3 ->].
    unfold seq at 1 in H. match type of H with bind ?t _ = _ => destruct t as [[a j0]| |] eqn:E4; cbn [bind] in H; try discriminate end. apply pure_geometry in E4 as [E4 ->].
    unfold seq at 1 in H. match type of H with bind ?t _ = _ => destruct t as [[t0 j0]| |] eqn:E5; cbn [bind] in H; try discriminate end. apply pure_time in E5 as [E5 ->].
    unfold seq at 1 in H. match type of H with bind ?t _ = _ => destruct t as [[ss j0]| |] eqn:E6; cbn [bind] in H; try discriminate end. apply pure_species in E6 as [[E6 N6] ->].
    unfold seq at 1 in H. match type of H with bind ?t _ = _ => destruct t as [[bs j0]| |] eqn:E7; cbn [bind] in H; try discriminate end. apply pure_beams in E7 as [[E7 N7] ->].
    unfold seq at 1, give at 1 in H. destruct (share a macro ratio ss bs) as [am| |] eqn:E8; cbn [bind] in H; try discriminate.
    unfold seq at 1 in H. match type of H with bind ?t _ = _ => destruct t as [[out j0]| |] eqn:E9; cbn [bind] in H; try discriminate end. apply pure_output in E9 as [E9 ->].
    unfold seq at 1 in H. match type of H with bind ?t _ = _ => destruct t as [[ps j0]| |] eqn:E10; cbn [bind] in H; try discriminate end. apply probes_ok in E10 as [E10 ->].
    unfold seq at 1 in H. match type of H with bind ?t _ = _ => destruct t as [[fs j0]| |] eqn:E11; cbn [bind] in H; try discriminate end. apply P4 in E11 as [E11 ->].
    unfold seq, give in H. destruct (method_check light _) as [ms| |] eqn:E12; cbn [bind] in H; try discriminate. injection H as <- <-.
    cbn [c_log c_macro c_ratio c_area c_time c_particles c_beams c_amounts c_output c_probes c_outside c_messages].
    split; [|split; [exact N6|split; [exact N7|split; [exact E8|split; [exact E12|reflexivity]]]]].
    unfold says. cbn [c_log c_macro c_ratio c_area c_time c_particles c_beams c_amounts c_output c_probes c_outside c_messages].
    split; [exact E1|]. split; [apply A1; [discriminate|exact E2]|]. split; [apply A1; [discriminate|exact E3]|]. split; [now apply (area_agree b (Obj m'))|].
    split; [unfold says_clock in *; repeat split; try (apply A1; [discriminate|apply E5]); apply E5|].
    split; [apply A1; [discriminate|exact E6]|]. split; [apply A1; [discriminate|exact E7]|].
    split; [unfold says_output in *; repeat split; (apply A1; [discriminate|apply E9])|]. split; [apply A1; [discriminate|exact E10]|].
    destruct (has_ext b); [|exact E11]. destruct E11 as (e & h & -> & X1 & X2). exists e, h. split; [reflexivity|].
    destruct (agree_all (Obj m')) as [B1 B2]. split; (apply (outside_agree "build_options" _ (Obj m')); [discriminate|exact A1|]; apply (outside_agree "data" _ (touch_all (Obj m'))); [discriminate|exact B1|assumption]).
  - intros ((E1 & E2 & E3 & E4 & E5 & E6 & E7 & E9 & E10 & E11) & N6 & N7 & E8 & E12 & ->).
    destruct j as [| | | | |m]; try (destruct E1 as (? & U & _); discriminate).
    destruct (agree_put (build_options b) m) as [A1 A2]. unfold seq at 1. rewrite (proj2 (P1 (Obj m) (c_log c) (Obj m))) by auto. cbn [bind].
    unfold seq at 1, assign at 1. cbn [bind]. set (m' := put "build_options" (build_options b) m) in *.
    unfold seq at 1. rewrite (proj2 (P2 (Obj m') (c_macro c) (Obj m'))) by (split; [apply A2; [discriminate|auto]|auto]). cbn [bind].
    unfold seq at 1. rewrite (proj2 (P3 (Obj m') (c_ratio c) (Obj m'))) by (split; [apply A2; [discriminate|auto]|auto]). cbn [bind].
    unfold seq at 1. rewrite (proj2 (pure_geometry b (Obj m') (c_area c) (Obj m'))) by (split; [now apply (area_agree b (Obj m))|auto]). cbn [bind].
    unfold seq at 1. rewrite (proj2 (pure_time (Obj m') (c_time c) (Obj m'))) by
      (split; [unfold says_clock in *; repeat split; try (apply A2; [discriminate|apply E5]); apply E5|auto]). cbn [bind].
    unfold seq at 1. rewrite (proj2 (pure_species (Obj m') (c_particles c) (Obj m'))) by (split; [split; [apply A2; [discriminate|auto]|auto]|auto]). cbn [bind].
    unfold seq at 1. rewrite (proj2 (pure_beams (Obj m') (c_beams c) (Obj m'))) by (split; [split; [apply A2; [discriminate|auto]|auto]|auto]). cbn [bind].
    unfold seq at 1, give at 1. rewrite E8. cbn [bind].
    unfold seq at 1. rewrite (proj2 (pure_output (Obj m') (c_output c) (Obj m'))) by
      (split; [unfold says_output in *; repeat split; (apply A2; [discriminate|apply E9])|auto]). cbn [bind].
    unfold seq at 1. rewrite (proj2 (probes_ok (a_nr (c_area c)) (a_nz (c_area c)) (Obj m') (c_probes c) (touch_all (Obj m')))) by
      (split; [apply A2; [discriminate|auto]|auto]). cbn [bind].
    unfold seq at 1. rewrite (proj2 (P4 (touch_all (Obj m')) (c_outside c) (touch_all (Obj m')))).
    2:{ split; [|reflexivity]. destruct (has_ext b); [|exact E11]. destruct E11 as (e & h & -> & X1 & X2). exists e, h. split; [reflexivity|].
      destruct (agree_all (Obj m')) as [B1 B2]. split; (apply (outside_agree "data" _ (Obj m')); [discriminate|exact B2|]; apply (outside_agree "build_options" _ (Obj m)); [discriminate|exact A2|assumption]). }
    cbn [bind]. unfold seq, give. rewrite E12. cbn [bind]. destruct c. reflexivity.
Qed.

(** every name below is needed, with a value of its type: without it nothing is calculated *)
Inductive kind : Type := KNum | KStr | KBool | KList.
Definition is_kind (k : kind) (v : json) : Prop :=
  match k, v with KNum, Num _ | KStr, Str _ | KBool, Bool _ | KList, Arr _ => True | _, _ => False end.
Definition required (b : build) : list (list string * kind) :=
  [(["log_file"], KStr); (["macro_amount"], KNum); (["beam_plasma_macro_size_ratio"], KNum);
   (["geometry"; "size"; "radius"], KNum); (["geometry"; "size"; "longitude"], KNum);
   (["geometry"; "grid"; "radius"], KNum); (["geometry"; "grid"; "longitude"], KNum);
   (["time"; "start"], KNum); (["time"; "end"], KNum); (["time"; "step"], KNum);
   (["particles"], KList); (["beams"], KList);
   (["data"; "data_root"], KStr); (["data"; "compression"; "use"], KBool); (["data"; "compression"; "level"], KNum); (["data"; "probes"], KList)] ++
  (if has_pml b then [(["geometry"; "pml"; "left_wall"], KNum); (["geometry"; "pml"; "right_wall"], KNum); (["geometry"; "pml"; "outer_wall"], KNum);
     (["geometry"; "pml"; "sigma_1"], KNum); (["geometry"; "pml"; "sigma_2"], KNum)] else []) ++
  (if single b then [] else [(["geometry"; "domains_amount"; "radius"], KNum); (["geometry"; "domains_amount"; "longitude"], KNum)]) ++
  (if has_ext b then [(["external_fields"; "electric"; "formfactor"], KStr); (["external_fields"; "electric"; "params"], KList);
     (["external_fields"; "magnetic"; "formfactor"], KStr); (["external_fields"; "magnetic"; "params"], KList)] else []).
Definition of_species : list (list string * kind) :=
  [(["name"], KStr); (["mass"], KNum); (["charge"], KNum); (["density"], KNum); (["temperature"], KNum)].
Definition of_beam : list (list string * kind) :=
  [(["name"], KStr); (["mass"], KNum); (["charge"], KNum); (["start_time"], KNum); (["velocity"], KNum); (["bunch"; "amount"], KNum);
   (["bunch"; "distance"], KNum); (["bunch"; "length"], KNum); (["bunch"; "radius"], KNum); (["bunch"; "density"], KNum);
   (["bunch"; "profile"; "radial"], KStr); (["bunch"; "profile"; "longitudinal"], KStr)].
Definition of_probe : list (list string * kind) :=
  [(["component"], KStr); (["shape"], KStr); (["start"; "r"], KNum); (["start"; "z"], KNum); (["end"; "r"], KNum); (["end"; "z"], KNum); (["schedule"], KNum)].

Definition there (j : json) (pk : list string * kind) : Prop := field (fst pk) (is_kind (snd pk)) j.
Lemma field_weaken p (Q Q' : json -> Prop) j : (forall v, Q v -> Q' v) -> field p Q j -> field p Q' j.
Proof. intros H (v & U & Hv). exists v. auto. Qed.
Lemma forall2_left A B (P : A -> B -> Prop) l1 l2 e : Forall2 P l1 l2 -> In e l1 -> exists a, P e a.
Proof. intros F. induction F as [|x y l1 l2 H F IH]; [intros []|]. intros [->|I]; eauto. Qed.
Ltac weak := match goal with
  | H : field ?p _ ?j |- field ?p _ ?j => apply (field_weaken p _ _ j) with (2 := H); clear; intros v Hv;
      unfold number, text, flag, int32, size64, integer, part_of, list_of in Hv; opens; subst; exact Logic.I
  end.
Theorem C155_required : forall light b j c j', read_cfg light b j = Ok (c, j') ->
  Forall (there j) (required b) /\
  exists ss bs ps, under ["particles"] j = Some (Arr ss) /\ under ["beams"] j = Some (Arr bs) /\ under ["data"; "probes"] j = Some (Arr ps) /\
    (forall e, In e ss -> Forall (there e) of_species) /\ (forall e, In e bs -> Forall (there e) of_beam) /\ (forall e, In e ps -> Forall (there e) of_probe).
Proof.
  intros light b j c j' H. apply C155_reads in H as ((E1 & E2 & E3 & E4 & E5 & E6 & E7 & E9 & E10 & E11) & _).
  destruct E4 as (G1 & G2 & G3 & G4 & _ & _ & G7 & G8). destruct E5 as (T1 & T2 & T3 & _). destruct E9 as (O1 & O2 & O3). split.
  - unfold required. apply Forall_app. split; [repeat (constructor; [unfold there; cbn [fst snd]; weak|]); constructor|]. apply Forall_app. split; [|apply Forall_app; split].
    + destruct (has_pml b); [|constructor]. destruct G7 as (l & _ & v & U & L1 & L2 & L3 & L4 & L5).
      assert (D : forall k Q, field [k] Q v -> field ["geometry"; "pml"; k] Q j).
      { intros k Q (w & W & HQ). exists w. split; [|exact HQ]. destruct j; try discriminate. cbn [under] in U |- *. destruct (lookup "geometry" m) as [[]|]; try discriminate.
        destruct (lookup "pml" m0) as [x|]; [|discriminate]. now injection U as ->. }
      apply D in L1, L2, L3, L4, L5. repeat (constructor; [unfold there; cbn [fst snd]; weak|]); constructor.
    + destruct (single b); [constructor|]. destruct G8 as (m & n & F & G & _). repeat (constructor; [unfold there; cbn [fst snd]; weak|]); constructor.
    + destruct (has_ext b); [|constructor]. destruct E11 as (e & h & _ & (_ & X1 & X2) & (_ & X3 & X4)).
      repeat (constructor; [unfold there; cbn [fst snd]; weak|]); constructor.
  - destruct E6 as (v & U1 & ss & -> & F1), E7 as (v & U2 & bs & -> & F2), E10 as (v & U3 & ps & -> & F3).
    exists ss, bs, ps. repeat (split; [assumption|]). split; [|split]; intros e I.
    + destruct (forall2_left _ _ _ _ _ _ F1 I) as (s & S1 & _ & (m & S2 & _) & S3 & S4 & _ & S5). repeat (constructor; [unfold there; cbn [fst snd]; weak|]); constructor.
    + destruct (forall2_left _ _ _ _ _ _ F2 I) as (s & (n & S1 & _) & (m & S2 & _) & S3 & S4 & S5 & S6 & S7 & S8 & S9 & S10 & S11 & S12).
      repeat (constructor; [unfold there; cbn [fst snd]; weak|]); constructor.
    + destruct (forall2_left _ _ _ _ _ _ F3 I) as (s & S1 & _ & S2 & r0 & z0 & r1 & z1 & t & S3 & S4 & S5 & S6 & S7 & _).
      repeat (constructor; [unfold there; cbn [fst snd]; weak|]); constructor.
Qed.

(** the number of macro-particles is shared out by the number of cells of the area, and of cells that the bunches of a beam fill *)
Definition filled (a : area) (ratio : Z) (b : beam) : Rdefinitions.R :=
  ((b_radius b * IZR (a_nr a) / a_radius a) * (b_length b * IZR (b_amount b) * IZR (a_nz a) / a_longitude a) * IZR ratio)%R.
Definition parts (c : settings) : list Rdefinitions.R :=
  (repeat (IZR (a_nr (c_area c)) * IZR (a_nz (c_area c)))%R (List.length (c_particles c)) ++ map (filled (c_area c) (c_ratio c)) (c_beams c))%list.
Lemma parts_weights c : (0 < a_nr (c_area c))%Z -> (0 < a_nz (c_area c))%Z -> (0 < a_radius (c_area c))%R -> (0 < a_longitude (c_area c))%R ->
  weights (a_nr (c_area c)) (a_nz (c_area c)) (a_radius (c_area c) / IZR (a_nr (c_area c))) (a_longitude (c_area c) / IZR (a_nz (c_area c))) (c_ratio c)
    (List.length (c_particles c)) (map (fun b => {| bunch_radius := b_radius b; bunch_length := b_length b; bunches_amount := b_amount b |}) (c_beams c)) = parts c.
Proof.
  intros Hn Hm Hr Hl. apply IZR_lt in Hn, Hm. unfold weights, parts, specie_cells. f_equal.
  rewrite map_map. apply map_ext. intros e. unfold beam_cells, filled. cbn [bunch_radius bunch_length bunches_amount]. field. repeat split; lra.
Qed.
Theorem C155_amounts : forall light b j c j', read_cfg light b j = Ok (c, j') ->
  (0 < a_nr (c_area c))%Z -> (0 < a_nz (c_area c))%Z -> (0 < a_radius (c_area c))%R -> (0 < a_longitude (c_area c))%R ->
  (0 <= c_macro c)%R -> (c_macro c + 1 <= 2 ^ 32)%R -> (a_nr (c_area c) * a_nz (c_area c) * Z.of_nat (S (List.length (c_particles c))) < 2 ^ 64)%Z ->
  Forall (fun b => (0 <= b_radius b)%R /\ (0 <= b_length b)%R /\ (0 <= b_amount b)%Z) (c_beams c) -> (0 < sumR (parts c))%R ->
  Forall2 (fun w n => (0 <= n)%Z /\ (IZR n <= w * c_macro c / sumR (parts c) < IZR n + 1)%R) (parts c) (c_amounts c) /\
  (IZR (sumZ (c_amounts c)) <= c_macro c)%R.
Proof.
  intros light b j c j' H Hn Hm Hr Hl Hk HK HB Hb HW. apply C155_reads in H as ((_ & _ & (q & _ & x & _ & _ & Q) & _) & _ & _ & H & _).
  pose proof (parts_weights c Hn Hm Hr Hl) as E.
  set (l := map (fun b => {| bunch_radius := b_radius b; bunch_length := b_length b; bunches_amount := b_amount b |}) (c_beams c)) in *.
  assert (Hq : (0 <= c_ratio c)%Z) by lia.
  assert (Hd : (0 < a_radius (c_area c) / IZR (a_nr (c_area c)))%R) by (apply Rdiv_lt_0_compat; [lra|now apply IZR_lt]).
  assert (He : (0 < a_longitude (c_area c) / IZR (a_nz (c_area c)))%R) by (apply Rdiv_lt_0_compat; [lra|now apply IZR_lt]).
  assert (F : Forall (fun b => (0 <= bunch_radius b)%R /\ (0 <= bunch_length b)%R /\ (0 <= bunches_amount b)%Z) l).
  { unfold l. apply Forall_map. exact Hb. }
  rewrite <- E in HW |- *.
  destruct (C28_budget_partial _ _ _ _ _ _ _ _ Hn Hm Hd He Hq Hk HK HB F HW) as (n & A & B & C & _).
  unfold share in H. fold l in H. replace (a_nr (c_area c) =? 0)%Z with false in H by lia. replace (a_nz (c_area c) =? 0)%Z with false in H by lia. cbn [orb] in H.
  destruct (req _ 0) in H; [destruct (c_particles c), (c_beams c); try discriminate; cbn in HW; lra|].
  rewrite A in H. injection H as <-. now split.
Qed.
(** without an error message no particle crosses a cell in one step, with the cells of the file *)
Theorem C155_step : forall light b j c j', read_cfg light b j = Ok (c, j') -> (0 < light)%R ->
  (0 < a_nr (c_area c))%Z -> (0 < a_nz (c_area c))%Z -> (0 < a_radius (c_area c))%R -> (0 < a_longitude (c_area c))%R ->
  ~ In StepTooLarge (c_messages c) ->
  forall v, (0 <= v <= light)%R -> (v * t_step (c_time c) * IZR (a_nr (c_area c)) <= a_radius (c_area c))%R /\
    (v * t_step (c_time c) * IZR (a_nz (c_area c)) <= a_longitude (c_area c))%R.
Proof.
  intros light b j c j' H Hc Hn Hm Hr Hl HM v Hv. apply C155_reads in H as (_ & _ & _ & _ & H & _). apply IZR_lt in Hn, Hm.
  assert (Hd : (0 < a_radius (c_area c) / IZR (a_nr (c_area c)))%R) by (apply Rdiv_lt_0_compat; lra).
  assert (He : (0 < a_longitude (c_area c) / IZR (a_nz (c_area c)))%R) by (apply Rdiv_lt_0_compat; lra).
  destruct (C98_clean _ (limits _ _ _ _) _ Hc Hd He H HM) as (_ & _ & F & _). destruct (F v Hv) as [F1 F2]. cbn [limits c_step c_dr c_dz] in F1, F2.
  apply (Rmult_le_compat_r (IZR (a_nr (c_area c)))) in F1; [|lra]. apply (Rmult_le_compat_r (IZR (a_nz (c_area c)))) in F2; [|lra].
  replace (a_radius (c_area c) / IZR (a_nr (c_area c)) * IZR (a_nr (c_area c)))%R with (a_radius (c_area c)) in F1 by (field; lra).
  replace (a_longitude (c_area c) / IZR (a_nz (c_area c)) * IZR (a_nz (c_area c)))%R with (a_longitude (c_area c)) in F2 by (field; lra). now split.
Qed.
(** the check is about the domains, the sizes and the step of the file, and about its species with their shares *)
Theorem C155_limits : forall light b j c j', read_cfg light b j = Ok (c, j') -> exists g, method_check light g = Ok (c_messages c) /\
  c_dom_r g = a_dom_r (c_area c) /\ c_dom_z g = a_dom_z (c_area c) /\ c_nr g = a_nr (c_area c) /\ c_size_r g = a_radius (c_area c) /\
  c_size_z g = a_longitude (c_area c) /\ c_step g = t_step (c_time c) /\
  (a_nr (c_area c) <> 0%Z -> c_dr g * IZR (a_nr (c_area c)) = a_radius (c_area c))%R /\
  (a_nz (c_area c) <> 0%Z -> c_dz g * IZR (a_nz (c_area c)) = a_longitude (c_area c))%R /\
  (forall i s n, nth_error (c_particles c) i = Some s -> nth_error (c_amounts c) i = Some n -> exists e, nth_error (c_species g) i = Some e /\
    sp_name e = s_name s /\ sp_mass e = s_mass s /\ sp_charge e = s_charge s /\ sp_macro e = IZR n /\ sp_left e = s_left s /\ sp_right e = s_right s /\
    sp_temp e = s_temp s).
Proof.
  intros light b j c j' H. apply C155_reads in H as (_ & _ & _ & _ & H & _). eexists. split; [exact H|]. cbn [limits c_dom_r c_dom_z c_nr c_size_r c_size_z c_step c_dr c_dz c_species].
  do 6 (split; [reflexivity|]). split; [|split].
  1, 2: intros N; field; intros E; apply N; now apply eq_IZR.
  intros i s n. generalize (c_particles c) (c_amounts c). clear. intros l m. revert l m. induction i as [|i IH]; intros [|x l] [|y m] A B; try discriminate.
  - injection A as ->. injection B as ->. exists (with_amount s n). repeat split.
  - apply (IH l m A B).
Qed.

(** the reader of probes used for the other theorems agrees: [C60_accepted_inside] and so on *)
Theorem C155_probe : forall nr nz e p, says_probe nr nz e p -> exists r0 z0 r1 z1 s,
  field ["start"; "r"] (number r0) e /\ field ["start"; "z"] (number z0) e /\ field ["end"; "r"] (number r1) e /\ field ["end"; "z"] (number z1) e /\
  field ["schedule"] (number s) e /\ parse_probe nr nz (desc "rec" r0 z0 r1 z1 0 0 s) = Ok (p_probe p).
Proof.
  intros nr nz e p (_ & _ & _ & r0 & z0 & r1 & z1 & s & F1 & F2 & F3 & F4 & F5 & I1 & I2 & E & _).
  destruct F1 as (? & U1 & x1 & -> & C1), F2 as (? & U2 & x2 & -> & C2), F3 as (? & U3 & x3 & -> & C3), F4 as (? & U4 & x4 & -> & C4), F5 as (? & U5 & x5 & -> & C5).
  exists x1, x2, x3, x4, x5. repeat (split; [eexists; split; [eassumption|reflexivity]|]).
  apply to_u64_ok in C1, C2, C3, C4. apply to_s32_ok in C5. unfold parse_probe, probe_shape, desc. cbn [d_shape d_start_r d_start_z d_end_r d_end_z d_schedule].
  rewrite String.eqb_refl, C1, C2, C3, C4, C5. cbn [bind vec_get nth_error].
  destruct ((r1 <? r0) || (z1 <? z0))%Z eqn:D1; [lia|]. destruct (nr <? r1)%Z eqn:D2; [lia|]. destruct (nz <? z1)%Z eqn:D3; [lia|]. now rewrite E.
Qed.

(** * C156: what is recorded *)
(** a place in a JSON value *)
Inductive step : Type := K (k : string) | I (i : nat).
Fixpoint look (p : list step) (j : json) : option json :=
  match p with
  | [] => Some j
  | K k :: p => match j with Obj m => match lookup k m with Some v => look p v | None => None end | _ => None end
  | I i :: p => match j with Arr l => match nth_error l i with Some v => look p v | None => None end | _ => None end
  end.
Lemma recorded_data b m d ps : lookup "data" m = Some (Obj d) -> lookup "probes" d = Some (Arr ps) ->
  recorded b (Obj m) = Obj (put "data" (Obj (put "probes" (Arr (map touch ps)) d)) (put "build_options" (build_options b) m)).
Proof.
  intros D P. unfold recorded, touch_all, change, value_of. rewrite lookup_put. cbn [String.eqb Ascii.eqb Bool.eqb]. rewrite D. now rewrite P.
Qed.
Lemma read_data light b j c j' : read_cfg light b j = Ok (c, j') -> exists m d ps, j = Obj m /\ lookup "data" m = Some (Obj d) /\ lookup "probes" d = Some (Arr ps) /\
  Forall (fun e => exists x o, e = Obj (x :: o)) ps.
Proof.
  intros H. apply C155_reads in H as ((_ & _ & _ & _ & _ & _ & _ & _ & (v & U & ps & -> & F) & _) & _).
  destruct j as [| | | | |m]; try discriminate. cbn [under] in U. destruct (lookup "data" m) as [[| | | | |d]|] eqn:D; try discriminate.
  destruct (lookup "probes" d) as [w|] eqn:P; [injection U as ->|discriminate]. exists m, d, ps. split; [reflexivity|]. split; [exact D|]. split; [exact P|].
  apply Forall_forall. intros e In. destruct (forall2_left _ _ _ _ _ _ F In) as (p & (w & U & _) & _). destruct e as [| | | | |[|x o]]; try discriminate. eauto.
Qed.
(** a value without others in it *)
Definition leaf (v : json) : Prop := match v with Arr (_ :: _) | Obj (_ :: _) => False | _ => True end.
Lemma put_leaf k v m : ~ leaf (Obj (put k v m)).
Proof. destruct m as [|[a w] m]; cbn [put]; [|destruct (k =? a)]; cbn [leaf]; auto. Qed.
(** all values of the file are recorded as they are, and but for the options of the build nothing is added but null for
    the species of probes that do not name one *)
Theorem C156_kept : forall light b j c j', read_cfg light b j = Ok (c, j') -> forall k p v, k <> "build_options" -> leaf v ->
  look (K k :: p) j' = Some v <-> look (K k :: p) j = Some v \/
    v = Null /\ exists i e, K k :: p = [K "data"; K "probes"; I i; K "specie"] /\ look [K "data"; K "probes"; I i] j = Some e /\ look [K "specie"] e = None.
Proof.
  intros light b j c j' H k p v N L. destruct (read_data _ _ _ _ _ H) as (m & d & ps & -> & D & P & O).
  apply C155_reads in H as (_ & _ & _ & _ & _ & ->). rewrite (recorded_data _ _ _ _ D P). cbn [look].
  assert (ONLY : forall A B C : Prop, (A <-> B) -> (C -> False) -> (A <-> B \/ C)) by tauto.
  rewrite !lookup_put. destruct (k =? "data") eqn:E.
  2:{ apply ONLY; [now rewrite (proj2 (String.eqb_neq _ _) N)|]. intros (_ & i & e & [= -> _] & _). rewrite String.eqb_refl in E. discriminate. }
  apply String.eqb_eq in E as ->. rewrite D, P. destruct p as [|[k2|i] p]; cbn [look].
  - apply ONLY; [|intros (_ & i & e & [=] & _)]. split; intros [= <-]; exfalso; [exact (put_leaf _ _ _ L)|]. destruct d; [discriminate|exact L].
  - rewrite lookup_put. destruct (k2 =? "probes") eqn:E2.
    2:{ apply ONLY; [reflexivity|]. intros (_ & i & e & [= -> _] & _). rewrite String.eqb_refl in E2. discriminate. }
    apply String.eqb_eq in E2 as ->. rewrite P. destruct p as [|[k3|i] p]; cbn [look].
    + apply ONLY; [|intros (_ & i & e & [=] & _)]. split; intros [= <-]; destruct ps; cbn [map leaf] in *; tauto.
    + apply ONLY; [tauto|intros (_ & i & e & [=] & _)].
    + rewrite nth_error_map. destruct (nth_error ps i) as [e|] eqn:Ei; cbn [option_map].
      2:{ apply ONLY; [tauto|]. intros (_ & i' & e & [= -> _] & X & _). rewrite Ei in X. discriminate. }
      rewrite Forall_forall in O. destruct (O e (nth_error_In _ _ Ei)) as (x & o & ->). cbn [touch].
      destruct p as [|[k4|i2] p]; cbn [look].
      * apply ONLY; [|intros (_ & i' & e & [=] & _)]. split; intros [= <-]; exfalso; [exact (put_leaf "specie" _ (x :: o) L)|exact L].
      * rewrite lookup_put. destruct (k4 =? "specie") eqn:E4.
        2:{ apply ONLY; [reflexivity|]. intros (_ & i' & e & [= _ -> _] & _). rewrite String.eqb_refl in E4. discriminate. }
        apply String.eqb_eq in E4 as ->. unfold value_of. destruct (lookup "specie" (x :: o)) as [w|] eqn:W.
        -- apply ONLY; [reflexivity|]. intros (_ & i' & e & [= -> _] & X & Y). rewrite Ei in X. injection X as <-. rewrite W in Y. discriminate.
        -- split.
           ++ intros X. right. destruct p as [|[] p]; [|discriminate|discriminate]. injection X as <-. split; [reflexivity|]. exists i, (Obj (x :: o)).
              rewrite Ei. split; [reflexivity|]. split; [reflexivity|]. now rewrite W.
           ++ intros [X|(-> & i' & e & X & _)]; [discriminate|]. injection X as _ ->. reflexivity.
      * apply ONLY; [tauto|intros (_ & i' & e & [=] & _)].
  - apply ONLY; [tauto|intros (_ & i' & e & [=] & _)].
Qed.
Theorem C156_options : forall light b j c j', read_cfg light b j = Ok (c, j') ->
  look [K "build_options"; K "debug"] j' = Some (Bool (debug b)) /\ look [K "build_options"; K "ieee"] j' = Some (Bool (ieee b)) /\
  look [K "build_options"; K "particles_pusher"] j' = Some (Str (pusher b)) /\ look [K "build_options"; K "current_deposition"] j' = Some (Str (deposition b)) /\
  look [K "build_options"; K "maxwell_solver"] j' = Some (Str "yee") /\
  look [K "build_options"; K "plasma_spatial_distribution"] j' = Some (Str (spatial b)) /\
  look [K "build_options"; K "plasma_velocity_distribution"] j' = Some (Str (velocity_distr b)) /\
  look [K "build_options"; K "package_version"] j' = Some (Str (version b)) /\ look [K "build_options"; K "build_flags"] j' = Some (Str (flags b)).
Proof.
  intros light b j c j' H. destruct (read_data _ _ _ _ _ H) as (m & d & ps & -> & D & P & _).
  apply C155_reads in H as (_ & _ & _ & _ & _ & ->). rewrite (recorded_data _ _ _ _ D P). cbn [look]. rewrite !lookup_put. cbn [String.eqb Ascii.eqb Bool.eqb].
  repeat split.
Qed.

(** ** The recorded configuration gives the same run again *)
Lemma touch_touch e : touch (touch e) = touch e.
Proof. destruct e; try reflexivity. cbn [touch]. rewrite put_put. unfold value_of at 1. rewrite lookup_put, String.eqb_refl. reflexivity. Qed.
Lemma says_touch nr nz e p : says_probe nr nz (touch e) p <-> says_probe nr nz e p.
Proof.
  assert (T : forall s, field ["specie"] (text s) (touch e) <-> field ["specie"] (text s) e).
  { intros s. rewrite !field_text. destruct e as [| | | | |m]; try reflexivity. cbn [touch under]. rewrite lookup_put, String.eqb_refl. unfold value_of.
    destruct (lookup "specie" m); [reflexivity|]. split; discriminate. }
  unfold says_probe. setoid_rewrite T. rewrite !field_touch by discriminate.
  split; intros (A & B & C & r0 & z0 & r1 & z1 & s & F); (split; [exact A|split; [exact B|split; [exact C|]]]); exists r0, z0, r1, z1, s.
  - rewrite !field_touch in F by discriminate. exact F.
  - rewrite !field_touch by discriminate. exact F.
Qed.
Lemma under_eq k p Q (j1 j2 : json) : under [k] j1 = under [k] j2 -> field (k :: p) Q j1 <-> field (k :: p) Q j2.
Proof. intros H. rewrite !field_cons. now rewrite H. Qed.
Section Again.
Variables (b : build) (m d : list (string * json)) (ps : list json).
Hypothesis D : lookup "data" m = Some (Obj d).
Hypothesis P : lookup "probes" d = Some (Arr ps).
Let r := recorded b (Obj m).
Lemma again_other k p Q : k <> "data" -> k <> "build_options" -> field (k :: p) Q r <-> field (k :: p) Q (Obj m).
Proof using D P.
  intros N1 N2. apply under_eq. unfold r. rewrite (recorded_data b m d ps D P). cbn [under]. rewrite !lookup_put.
  now rewrite (proj2 (String.eqb_neq _ _) N1), (proj2 (String.eqb_neq _ _) N2).
Qed.
Lemma again_data k p Q : k <> "probes" -> field ("data" :: k :: p) Q r <-> field ("data" :: k :: p) Q (Obj m).
Proof using D P.
  intros N. unfold r. rewrite (recorded_data b m d ps D P). rewrite !(field_cons "data").
  cbn [under]. rewrite lookup_put. cbn [String.eqb Ascii.eqb Bool.eqb]. rewrite D. split; intros (v & [= <-] & H); eexists; (split; [reflexivity|]).
  - rewrite field_put in H by exact N. exact H.
  - rewrite field_put by exact N. exact H.
Qed.
Lemma again_probes nr nz l : field ["data"; "probes"] (list_of (says_probe nr nz) l) r <-> field ["data"; "probes"] (list_of (says_probe nr nz) l) (Obj m).
Proof using D P.
  unfold r. rewrite (recorded_data b m d ps D P). unfold field, list_of. cbn [under]. rewrite !lookup_put. cbn [String.eqb Ascii.eqb Bool.eqb]. rewrite D, P, lookup_put, String.eqb_refl.
  assert (F : forall l, Forall2 (says_probe nr nz) (map touch ps) l <-> Forall2 (says_probe nr nz) ps l).
  { clear. induction ps as [|e es IH]; intros l; cbn [map]; [reflexivity|]. split; intros F; inversion F; subst; constructor; try (now apply says_touch); now apply IH. }
  split; intros (v & [= <-] & es & [= <-] & G); eexists; (split; [reflexivity|]); eexists; (split; [reflexivity|]); now apply F.
Qed.
Lemma says_again b' c : says b' r c <-> says b' (Obj m) c.
Proof using D P.
  assert (E : forall j1 j2, (forall k p Q, k <> "data" -> k <> "build_options" -> field (k :: p) Q j1 -> field (k :: p) Q j2) ->
    (forall k p Q, k <> "probes" -> field ("data" :: k :: p) Q j1 -> field ("data" :: k :: p) Q j2) ->
    (forall nr nz l, field ["data"; "probes"] (list_of (says_probe nr nz) l) j1 -> field ["data"; "probes"] (list_of (says_probe nr nz) l) j2) ->
    says b' j1 c -> says b' j2 c).
  { clear. intros j1 j2 A1 A2 A3 (E1 & E2 & E3 & E4 & E5 & E6 & E7 & E9 & E10 & E11). unfold says.
    split; [now apply A1|]. split; [now apply A1|]. split; [now apply A1|]. split; [|split].
    - destruct E4 as (H1 & H2 & H3 & H4 & H5 & H6 & H7 & H8). unfold says_area.
      split; [now apply A1|]. split; [now apply A1|]. split; [now apply A1|]. split; [now apply A1|]. split; [exact H5|]. split; [exact H6|]. split.
      + destruct (has_pml b'); [|exact H7]. destruct H7 as (l & H & F). exists l. split; [exact H|]. now apply A1.
      + destruct (single b'); [exact H8|]. destruct H8 as (x & n & F & G & H). exists x, n. split; [now apply A1|]. split; [now apply A1|exact H].
    - destruct E5 as (T1 & T2 & T3 & T4). split; [now apply A1|]. split; [now apply A1|]. split; [now apply A1|exact T4].
    - split; [now apply A1|]. split; [now apply A1|]. split.
      + destruct E9 as (O1 & O2 & O3). split; [now apply A2|]. split; now apply A2.
      + split; [now apply A3|]. destruct (has_ext b'); [|exact E11]. destruct E11 as (e & h & E & (X0 & X1 & X2) & (X3 & X4 & X5)).
        exists e, h. split; [exact E|]. split; (split; [assumption|]); split; now apply A1. }
  split; apply E; intros.
  - now apply again_other. - now apply again_data. - now apply again_probes.
  - now apply again_other. - now apply again_data. - now apply again_probes.
Qed.
Lemma recorded_again b' : recorded b' r = recorded b' (Obj m).
Proof using D P.
  unfold r. rewrite (recorded_data b m d ps D P). set (d' := put "probes" (Arr (map touch ps)) d).
  assert (X : forall m0, lookup "data" m0 = Some (Obj d') -> recorded b' (Obj m0) = Obj (put "data" (Obj d') (put "build_options" (build_options b') m0))).
  { intros m0 H. rewrite (recorded_data b' m0 d' (map touch ps) H); [|unfold d'; now rewrite lookup_put, String.eqb_refl].
    do 4 f_equal. unfold d'. rewrite put_put. f_equal. f_equal. rewrite map_map. apply map_ext. exact touch_touch. }
  rewrite X by (rewrite lookup_put; reflexivity). rewrite (recorded_data b' m d ps D P). fold d'. f_equal.
  assert (N : lookup "data" m <> None) by congruence.
  rewrite (put_comm "data" "build_options" (Obj d') (build_options b) m N) by discriminate. rewrite put_put.
  rewrite <- (put_comm "data" "build_options" (Obj d') (build_options b') m N) by discriminate. now rewrite put_put.
Qed.
End Again.
Theorem C156_again : forall light b j c j', read_cfg light b j = Ok (c, j') ->
  read_cfg light b j' = Ok (c, j') /\ forall b' c' j'', read_cfg light b' j' = Ok (c', j'') <-> read_cfg light b' j = Ok (c', j'').
Proof.
  intros light b j c j' H. destruct (read_data _ _ _ _ _ H) as (m & d & ps & -> & D & P & _).
  assert (E : j' = recorded b (Obj m)) by apply (C155_reads light b (Obj m) c j'), H.
  assert (G : forall b' c' j'', read_cfg light b' j' = Ok (c', j'') <-> read_cfg light b' (Obj m) = Ok (c', j'')).
  { intros b' c' j''. rewrite !C155_reads. rewrite E. now rewrite (says_again b m d ps D P b' c'), (recorded_again b m d ps D P b'). }
  split; [|exact G]. now apply G.
Qed.

(** * C157: the attributes of the file *)
Theorem C157_attributes_partial : forall light b j c l, start light b j = Ok (c, l) <->
  exists j' s, read_cfg light b j = Ok (c, j') /\ c_probes c <> [] /\ under ["comment"] j = Some (Str s) /\
    l = [("metadata", Dump j'); ("software", Text (package b)); ("softwareVersion", Text (version b)); ("softwareBuildFlags", Text (flags b));
         ("softwareDependencies", Text (deps b)); ("softwareConfigDebug", Flag (debug b)); ("softwareConfigIEEE", Flag (ieee b));
         ("softwareConfigCurrentDeposition", Text (deposition b)); ("softwareConfigFieldSolver", Text "yee");
         ("softwareConfigParticlesPusher", Text (pusher b)); ("softwareConfigPlasmaVelocityDistribution", Text (velocity_distr b));
         ("softwareConfigPlasmaSpatialDistribution", Text (spatial b)); ("comment", Text s)].
Proof.
  intros light b j c l.
  assert (M : forall c j', read_cfg light b j = Ok (c, j') -> write_metadata b j' = match under ["comment"] j with Some (Str s) =>
      Ok [("metadata", Dump j'); ("software", Text (package b)); ("softwareVersion", Text (version b)); ("softwareBuildFlags", Text (flags b));
         ("softwareDependencies", Text (deps b)); ("softwareConfigDebug", Flag (debug b)); ("softwareConfigIEEE", Flag (ieee b));
         ("softwareConfigCurrentDeposition", Text (deposition b)); ("softwareConfigFieldSolver", Text "yee");
         ("softwareConfigParticlesPusher", Text (pusher b)); ("softwareConfigPlasmaVelocityDistribution", Text (velocity_distr b));
         ("softwareConfigPlasmaSpatialDistribution", Text (spatial b)); ("comment", Text s)] | _ => Fatal end).
  { clear. intros c j' H. destruct (read_data _ _ _ _ _ H) as (m & d & ps & -> & D & P & _).
    apply C155_reads in H as (_ & _ & _ & _ & _ & ->).
    assert (B : under ["build_options"] (recorded b (Obj m)) = Some (build_options b)).
    { rewrite (recorded_data b m d ps D P). cbn [under]. now rewrite !lookup_put. }
    assert (C : under ["comment"] (recorded b (Obj m)) = under ["comment"] (Obj m)).
    { rewrite (recorded_data b m d ps D P). cbn [under]. now rewrite !lookup_put. }
    rewrite <- C. clear C. set (r := recorded b (Obj m)) in *.
    assert (OF : forall k v, lookup k match build_options b with Obj o => o | _ => [] end = Some (Bool v) -> option_flag k r = Ok (v, r)).
    { intros k v L. assert (PF : Pure (option_flag k) (fun j v => exists w, under ["build_options"] j = Some w /\ exists u, under [k] w = Some u /\ u = Bool v)) by (unfold option_flag; pure).
      apply PF. split; [|reflexivity]. exists (build_options b). split; [exact B|]. exists (Bool v). split; [|reflexivity]. unfold build_options in *. cbn [under]. now rewrite L. }
    assert (OS : forall k v, lookup k match build_options b with Obj o => o | _ => [] end = Some (Str v) -> option_str k r = Ok (v, r)).
    { intros k v L. assert (PF : Pure (option_str k) (fun j v => exists w, under ["build_options"] j = Some w /\ exists u, under [k] w = Some u /\ u = Str v)) by (unfold option_str; pure).
      apply PF. split; [|reflexivity]. exists (build_options b). split; [exact B|]. exists (Str v). split; [|reflexivity]. unfold build_options in *. cbn [under]. now rewrite L. }
    unfold write_metadata, metadata_rest. unfold seq at 1. rewrite (OF "debug" _ eq_refl). cbn [bind]. unfold seq at 1. rewrite (OF "ieee" _ eq_refl). cbn [bind]. unfold seq at 1. rewrite (OS "current_deposition" _ eq_refl). cbn [bind]. unfold seq at 1. rewrite (OS "maxwell_solver" _ eq_refl). cbn [bind]. unfold seq at 1. rewrite (OS "particles_pusher" _ eq_refl). cbn [bind]. unfold seq at 1. rewrite (OS "plasma_velocity_distribution" _ eq_refl). cbn [bind]. unfold seq at 1. rewrite (OS "plasma_spatial_distribution" _ eq_refl). cbn [bind].
    unfold seq, give.
    assert (PC : Pure (key "comment" str) (fun j s => under ["comment"] j = Some (Str s))).
    { eapply pure_ext; [pure|]. intros i s. cbv beta. split; [intros (v & U & ->); exact U|eauto]. }
    destruct (key "comment" str r) as [[s r']| |] eqn:E.
    - apply PC in E as [E ->]. rewrite E. reflexivity.
    - destruct (under ["comment"] r) as [[| | |s| |]|] eqn:U; try reflexivity. rewrite (proj2 (PC r s r)) in E by auto. discriminate.
    - exfalso. unfold key in E. destruct r; try discriminate. destruct (value_of "comment" m0); discriminate. }
  unfold start. split.
  - destruct (read_cfg light b j) as [[c' j']| |] eqn:E; cbn [bind]; try discriminate. specialize (M c' j' eq_refl).
    destruct (c_probes c') eqn:Q; [discriminate|]. rewrite M. destruct (under ["comment"] j) as [[| | |s| |]|] eqn:U; cbn [bind]; try discriminate.
    intros [= <- <-]. exists j', s. rewrite Q. repeat split; try reflexivity. discriminate.
  - intros (j' & s & E & Q & U & ->). rewrite E. cbn [bind]. rewrite (M c j' E), U. destruct (c_probes c); [now destruct Q|reflexivity].
Qed.
(** a configuration that was read is not used if it has no comment, or no probes *)
Theorem C157_comment_refuted : forall light b j c j', read_cfg light b j = Ok (c, j') -> (forall s, under ["comment"] j <> Some (Str s)) ->
  forall r, start light b j <> Ok r.
Proof. intros light b j c j' H N [c' l] S. apply C157_attributes_partial in S as (? & s & _ & _ & U & _). now apply (N s). Qed.
Theorem C157_probes_refuted : forall light b j c j', read_cfg light b j = Ok (c, j') -> c_probes c = [] -> start light b j = UB.
Proof. intros light b j c j' H N. unfold start. rewrite H. cbn [bind]. now rewrite N. Qed.

(** * A configuration *)
Open Scope R_scope.
Definition plain : build :=
  {| has_pml := false; has_ext := false; single := true; debug := false; ieee := true; spatial := "random"; velocity_distr := "thermal"; pusher := "vay";
     deposition := "zigzag"; package := "PiCoPiC"; version := "2.0"; flags := "-m64"; deps := "" |}.
Definition sample_species (name : string) (mass charge : R) : json :=
  Obj [("name", Str name); ("charge", Num charge); ("mass", Num mass); ("density", Num 1); ("temperature", Num 0)].
Definition sample_at (st : R) (probes : list json) (extra : list (string * json)) : json :=
  Obj ([("macro_amount", Num 4); ("beam_plasma_macro_size_ratio", Num 2); ("log_file", Str "log");
    ("geometry", Obj [("size", Obj [("radius", Num 1); ("longitude", Num 1)]); ("grid", Obj [("radius", Num 1); ("longitude", Num 1)])]);
    ("time", Obj [("start", Num 0); ("end", Num 2); ("step", Num st)]);
    ("particles", Arr [sample_species "electrons" 1 (-1); sample_species "ions" 1836 1]); ("beams", Arr []);
    ("data", Obj [("data_root", Str "out"); ("compression", Obj [("use", Bool false); ("level", Num 0)]); ("probes", Arr probes)])] ++ extra)%list.
Notation sample := (sample_at 1).
Definition sample_probe (component : string) (extra : list (string * json)) : json :=
  Obj ([("component", Str component); ("shape", Str "rec"); ("schedule", Num 5); ("start", Obj [("r", Num 0); ("z", Num 0)]);
    ("end", Obj [("r", Num 1); ("z", Num 1)])] ++ extra)%list.
Definition the_species (name : string) (mass : Z) (charge : Z) : species :=
  {| s_id := specie_id name; s_name := name; s_mass := mass; s_charge := charge; s_left := 1; s_right := 1; s_temp := 0 |}.
Definition sample_settings_at (st : R) (ps : list prob) (ms : list message) : settings :=
  {| c_log := "log"; c_macro := 4; c_ratio := 2; c_area := {| a_radius := 1; a_longitude := 1; a_nr := 1; a_nz := 1; a_pml := None; a_dom_r := 1; a_dom_z := 1 |};
     c_time := {| t_start := 0; t_end := 2; t_step := st; t_current := 0 |};
     c_particles := [the_species "electrons" 1 (-1); the_species "ions" 1836 1]; c_beams := []; c_amounts := [2; 2]%Z;
     c_output := {| o_root := "out"; o_compress := false; o_level := 0 |}; c_probes := ps; c_outside := []; c_messages := ms |}.
Notation sample_settings := (sample_settings_at 1).

Lemma chops_Z (n : Z) : chops (IZR n) n.
Proof. apply chops_integer. Qed.
Lemma integer_Z lo hi (n : Z) : (lo <= n < hi)%Z -> integer lo hi n (Num (IZR n)).
Proof. intros H. exists (IZR n). split; [reflexivity|]. split; [apply chops_integer|exact H]. Qed.
Ltac here := eexists; split; [reflexivity|]; try reflexivity.
Lemma sample_shares : share (c_area (sample_settings [] [])) 4 2 (c_particles (sample_settings [] [])) [] = Ok [2; 2]%Z.
Proof.
  unfold share, sample_settings_at. cbn [c_area c_particles a_nr a_nz a_radius a_longitude List.length map].
  assert (S : norm_sum (fun x => x) 1 1 (1 / 1) (1 / 1) 2 2 [] = 2) by (unfold norm_sum, norm_beams, norm_species; change (u64 (u64 (1 * 1) * Z.of_nat 2)) with 2%Z; lra).
  rewrite S. unfold req. destruct (Req_EM_T 2 0); [lra|]. cbn [Z.eqb orb].
  unfold weight_macro_amount. cbn [map repeat app].
  assert (E : specie_share (fun x => x) 1 1 (1 / 1) (1 / 1) 2 4 2 [] = 2).
  { unfold specie_share, norm. rewrite S. change (u64 (1 * 1)) with 1%Z. lra. }
  rewrite E. cbn [convert_all]. assert (U : to_u32 2 = Ok 2%Z) by (apply to_u32_ok; split; [apply chops_Z|lia]). rewrite U. reflexivity.
Qed.
Lemma sample_check light st : exists ms, method_check light (limits (c_area (sample_settings [] [])) (c_time (sample_settings_at st [] [])) (c_particles (sample_settings [] [])) [2; 2]%Z) = Ok ms.
Proof.
  set (g := limits _ _ _ _).
  assert (S : search (c_species g) = {| f_macro := 0 + 2 + 2; n_el := (1 + 1) / 2; t_el := 0; n_ion := (1 + 1) / 2; t_ion := 0 |}) by reflexivity.
  unfold method_check. change (negb (accepted_domains (c_dom_r g)) || negb (accepted_domains (c_dom_z g)))%bool with false. cbv iota zeta. rewrite S.
  cbn [n_el n_ion t_el t_ion f_macro].
  unfold req at 1. destruct (Req_EM_T ((1 + 1) / 2) 0); [lra|]. unfold debye_length, rlt. destruct (Rlt_dec 0 ((1 + 1) / 2)); [|lra]. cbn [bind]. eauto.
Qed.
Definition sample_messages_at (light st : R) : list message :=
  match method_check light (limits (c_area (sample_settings [] [])) (c_time (sample_settings_at st [] [])) (c_particles (sample_settings [] [])) [2; 2]%Z) with Ok ms => ms | _ => [] end.
Notation sample_messages := (sample_messages_at 3 1).
Lemma sample_reads_at light st probes ps extra : Forall2 (says_probe 1 1) probes ps ->
  read_cfg light plain (sample_at st probes extra) = Ok (sample_settings_at st ps (sample_messages_at light st), recorded plain (sample_at st probes extra)).
Proof.
  intros F. apply C155_reads. split; [|split; [|split; [|split; [|split; [|reflexivity]]]]].
  - unfold says, sample_at. cbn [app]. split; [here|]. split; [here|]. split; [here; apply integer_Z; lia|]. split.
    { unfold says_area. cbn [has_pml single plain sample_settings_at c_area a_radius a_longitude a_nr a_nz a_pml a_dom_r a_dom_z].
      repeat (split; [first [here; try (apply integer_Z; lia)|lra]|]). split; [reflexivity|]. split; reflexivity. }
    split; [unfold says_clock; cbn [sample_settings_at c_time t_start t_end t_step t_current]; repeat split; here|]. split.
    { here. exists [sample_species "electrons" 1 (-1); sample_species "ions" 1836 1]. split; [reflexivity|]. cbn [sample_settings_at c_particles].
      repeat (constructor; [unfold says_species, the_species, sample_species; cbn [s_name s_id s_mass s_charge s_left s_right s_temp];
        split; [here|]; split; [reflexivity|]; split; [eexists; split; [here; apply integer_Z; lia|reflexivity]|]; split; [here; apply integer_Z; lia|]; repeat split; here|]). constructor. }
    split; [here; exists []; split; [reflexivity|constructor]|]. split.
    { unfold says_output. cbn [sample_settings_at c_output o_root o_compress o_level]. split; [here|]. split; [here|]. here. apply integer_Z. lia. }
    split; [here; exists probes; split; [reflexivity|exact F]|]. reflexivity.
  - cbn [sample_settings_at c_particles map the_species s_name]. repeat constructor; cbn [In]; intuition discriminate.
  - constructor.
  - exact sample_shares.
  - destruct (sample_check light st) as [ms E]. assert (M : sample_messages_at light st = ms) by (unfold sample_messages_at; now rewrite E). rewrite M. exact E.
Qed.
Lemma sample_reads probes ps extra : Forall2 (says_probe 1 1) probes ps ->
  read_cfg 3 plain (sample probes extra) = Ok (sample_settings ps sample_messages, recorded plain (sample probes extra)).
Proof. apply sample_reads_at. Qed.
Definition sample_prob (component specie path : string) : prob :=
  {| p_component := component; p_specie := specie; p_path := path; p_probe := {| p_shape := 0; p_dims := [0; 0; 1; 1]%Z; p_schedule := 5 |} |}.
Lemma sample_fields component extra : let e := sample_probe component extra in
  field ["shape"] (text "rec") e /\ field ["start"; "r"] (size64 0) e /\ field ["start"; "z"] (size64 0) e /\ field ["end"; "r"] (size64 1) e /\
  field ["end"; "z"] (size64 1) e /\ field ["schedule"] (int32 5) e.
Proof. repeat split; here; apply integer_Z; lia. Qed.
(** the field is recorded as it is; the density without a species is accepted, for the species "unknown" *)
Example sample_Ez : says_probe 1 1 (sample_probe "E/z" []) (sample_prob "E/z" "unknown" "E/z/rec/0-1_0-1").
Proof.
  destruct (sample_fields "E/z" []) as (A & B & C & D & E & F). split; [here|]. split; [right; split; [|reflexivity]; intros s H; apply field_text in H; discriminate|].
  split; [exact A|]. exists 0%Z, 0%Z, 1%Z, 1%Z, 5%Z. repeat (split; [first [assumption|lia|reflexivity]|]). split; [|reflexivity].
  intros H. cbn [In particle_quantities sample_prob p_component] in H. intuition discriminate.
Qed.
Example sample_density s : says_probe 1 1 (sample_probe "density" [("specie", Str s)]) (sample_prob "density" s ("density/" ++ s ++ "/rec/0-1_0-1")).
Proof.
  destruct (sample_fields "density" [("specie", Str s)]) as (A & B & C & D & E & F). split; [here|]. split; [left; here|].
  split; [exact A|]. exists 0%Z, 0%Z, 1%Z, 1%Z, 5%Z. repeat (split; [first [assumption|lia|reflexivity]|]).
  intros H. destruct H. cbn [In particle_quantities sample_prob p_component]. tauto.
Qed.
Example C155_ex : read_cfg 3 plain (sample [sample_probe "E/z" []; sample_probe "density" [("specie", Str "ions")]] [("comment", Str "none")]) =
  Ok (sample_settings [sample_prob "E/z" "unknown" "E/z/rec/0-1_0-1"; sample_prob "density" "ions" "density/ions/rec/0-1_0-1"] sample_messages,
    recorded plain (sample [sample_probe "E/z" []; sample_probe "density" [("specie", Str "ions")]] [("comment", Str "none")])).
Proof. apply sample_reads. constructor; [exact sample_Ez|]. constructor; [exact (sample_density "ions")|]. constructor. Qed.
(** the two species share the four macro-particles: their parts are the same *)
Example C155_amounts_ex : Forall2 (fun w n => (0 <= n)%Z /\ (IZR n <= w * 4 / sumR (parts (sample_settings [] [])) < IZR n + 1)%R)
  (parts (sample_settings [] [])) [2; 2]%Z.
Proof.
  assert (F : Forall2 (says_probe 1 1) [] []) by constructor. pose proof (sample_reads _ _ [] F) as H. apply C155_amounts in H.
  - exact (proj1 H).
  - reflexivity.
  - reflexivity.
  - cbn. lra.
  - cbn. lra.
  - cbn. lra.
  - cbn. lra.
  - reflexivity.
  - constructor.
  - cbn. lra.
Qed.
(** a step of 1/10000 is accepted without an error; a step of 1 is not, for then something of velocity 3 crosses three cells *)
Example C155_step_ex : ~ In StepTooLarge (c_messages (sample_settings_at (/ 10000) [] (sample_messages_at 3 (/ 10000)))) /\
  In StepTooLarge (c_messages (sample_settings [] sample_messages)).
Proof.
  assert (F : Forall2 (says_probe 1 1) [] []) by constructor. split.
  - cbn [sample_settings_at c_messages]. unfold sample_messages_at. set (g := limits _ _ _ _).
    assert (S : search (c_species g) = {| f_macro := 0 + 2 + 2; n_el := (1 + 1) / 2; t_el := 0; n_ion := (1 + 1) / 2; t_ion := 0 |}) by reflexivity.
    unfold method_check. change (negb (accepted_domains (c_dom_r g)) || negb (accepted_domains (c_dom_z g)))%bool with false. cbv iota zeta. rewrite S.
    cbn [n_el n_ion t_el t_ion f_macro].
    unfold req at 1. destruct (Req_EM_T ((1 + 1) / 2) 0); [lra|]. unfold debye_length.
    assert (A : rlt 0 ((1 + 1) / 2) = true) by (unfold rlt; destruct (Rlt_dec 0 ((1 + 1) / 2)); [reflexivity|lra]). rewrite A. cbn [bind].
    assert (B : req 0 0 = true) by (unfold req; destruct (Req_EM_T 0 0); [reflexivity|lra]). rewrite B. cbn [app orb]. unfold rlt at 1. destruct (Rlt_dec _ _) as [L|L].
    + exfalso. apply Rlt_not_le in L. apply L. unfold max_time, plasma_frequency. replace ((1 + 1) / 2) with 1 by field. rewrite sqrt_1.
      change (c_dr g) with (1 / 1). change (c_dz g) with (1 / 1). change (c_step g) with (/ 10000). unfold Rmin. repeat destruct (Rle_dec _ _); lra.
    + cbn [when app]. destruct (rlt (0 + 2 + 2) _); cbn [when In app]; intros Q; cbn [In] in Q; [destruct Q as [Q|[]]; discriminate Q|exact Q].
  - pose proof (sample_reads _ _ [] F) as H. destruct (in_dec (fun a b : message => ltac:(decide equality) : {a = b} + {a <> b}) StepTooLarge (c_messages (sample_settings [] sample_messages))) as [I|I]; [exact I|].
    exfalso. eapply C155_step with (v := 3) in H; try exact I; cbn in *; try lra; try reflexivity.
Qed.
(** a probe of a quantity of particles is accepted without a species: a name that was left out or misspelt is not noticed *)
Theorem C155_specie_refuted : exists j c j', read_cfg 3 plain j = Ok (c, j') /\
  Exists (fun p => In (p_component p) particle_quantities /\ p_specie p = "unknown" /\ ~ In "unknown" (map s_name (c_particles c))) (c_probes c).
Proof.
  exists (sample [sample_probe "density" [("species", Str "ions")]] []), (sample_settings [sample_prob "density" "unknown" "density/unknown/rec/0-1_0-1"] sample_messages).
  eexists. split.
  - apply sample_reads. constructor; [|constructor]. destruct (sample_fields "density" [("species", Str "ions")]) as (A & B & C & D & E & F).
    split; [here|]. split; [right; split; [|reflexivity]; intros s H; apply field_text in H; discriminate|].
    split; [exact A|]. exists 0%Z, 0%Z, 1%Z, 1%Z, 5%Z. repeat (split; [first [assumption|lia|reflexivity]|]).
    intros H. destruct H. cbn [In particle_quantities sample_prob p_component]. tauto.
  - cbn [sample_settings_at c_probes]. constructor. split; [cbn [In particle_quantities sample_prob p_component]; tauto|]. split; [reflexivity|].
    intros H. cbn in H. destruct H as [H|[H|[]]]; discriminate.
Qed.
(** null is recorded for the species, which was not in the file *)
Example C156_ex : let j := sample [sample_probe "E/z" []] [] in
  exists c j', read_cfg 3 plain j = Ok (c, j') /\ look [K "data"; K "probes"; I 0; K "specie"] j = None /\ look [K "data"; K "probes"; I 0; K "specie"] j' = Some Null /\
    look [K "geometry"; K "size"; K "radius"] j' = Some (Num 1).
Proof.
  intros j. eexists; eexists. split; [apply sample_reads; constructor; [exact sample_Ez|constructor]|]. repeat split.
Qed.
(** options of a build in the file are lost *)
Theorem C156_lost_refuted : exists j c j', read_cfg 3 plain j = Ok (c, j') /\ look [K "build_options"; K "debug"] j = Some (Bool true) /\
  look [K "build_options"; K "debug"] j' = Some (Bool false).
Proof.
  exists (sample [sample_probe "E/z" []] [("build_options", Obj [("debug", Bool true)])]); eexists; eexists.
  split; [apply sample_reads; constructor; [exact sample_Ez|constructor]|]. repeat split.
Qed.
Example C157_ex : let j := sample [sample_probe "E/z" []] in
  (exists c l, start 3 plain (j [("comment", Str "none")]) = Ok (c, l) /\ In ("comment", Text "none") l /\ In ("softwareConfigParticlesPusher", Text "vay") l) /\
  (exists c j', read_cfg 3 plain (j []) = Ok (c, j') /\ start 3 plain (j []) = Fatal).
Proof.
  intros j. assert (F : Forall2 (says_probe 1 1) [sample_probe "E/z" []] [sample_prob "E/z" "unknown" "E/z/rec/0-1_0-1"]) by (constructor; [exact sample_Ez|constructor]).
  split.
  - eexists; eexists. split; [apply C157_attributes_partial; eexists; exists "none"; split; [apply sample_reads; exact F|]; split; [discriminate|]; split; reflexivity|].
    cbn [In]. tauto.
  - eexists; eexists. split; [apply sample_reads; exact F|]. unfold start, j. rewrite (sample_reads _ _ [] F). reflexivity.
Qed.

Print Assumptions C155_reads.
Print Assumptions C155_required.
Print Assumptions C155_amounts.
Print Assumptions C155_step.
Print Assumptions C155_limits.
Print Assumptions C155_probe.
Print Assumptions C155_specie_refuted.
Print Assumptions C156_kept.
Print Assumptions C156_options.
Print Assumptions C156_again.
Print Assumptions C156_lost_refuted.
Print Assumptions C157_attributes_partial.
Print Assumptions C157_comment_refuted.
Print Assumptions C157_probes_refuted.
