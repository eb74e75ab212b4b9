(** Theorems about the helpers: properties C24 - C27. *)
From Verif Require Import Base UtilModel UtilProofs.
From Coq Require Import Ascii String Reals Lra Floats.SpecFloat.

(** * C24 *)
(** [fields d s]: the standard split at every delimiter; joining it gives the string back *)
Theorem C24_fields_lossless : forall d s, join d (fields d s) = s /\ Forall (fun f => ~ In d f) (fields d s).
Proof. intros. split; [apply join_fields|apply fields_free]. Qed.
(** splitstr terminates and returns the non-empty fields, in order *)
Theorem C24_pieces_partial : forall s d, exists fuel, forall out,
  split_loop fuel s d (Some O) out = Some (out ++ filter ne (fields d s)).
Proof. intros s d. exists (S (List.length s)). intros out. rewrite split_loop_spec; [reflexivity|cbn; lia]. Qed.
(** joining the pieces gives the string back exactly if no field is empty *)
Theorem C24_join_iff : forall s d, join d (filter ne (fields d s)) = s <-> s = [] \/ Forall (fun f => f <> []) (fields d s).
Proof.
  intros s d. split.
  - intros H. destruct (filter ne (fields d s)) as [|f r] eqn:E; [left; now rewrite <- H|right].
    assert (L : List.length (filter ne (fields d s)) = List.length (fields d s)).
    { rewrite <- (count_join d (fields d s)) by (apply fields_free || apply fields_nonnil).
      rewrite <- (count_join d (filter ne (fields d s))).
      - rewrite E, H, join_fields. reflexivity.
      - apply Forall_forall. intros x Hx. apply filter_In in Hx as [Hx _]. pose proof (fields_free d s) as F. rewrite Forall_forall in F. auto.
      - rewrite E. discriminate. }
    apply filter_length_all in L. eapply Forall_impl; [|exact L]. intros [|]; cbn; congruence.
  - intros [-> | H]; [reflexivity|]. rewrite <- (join_fields d s) at 2. f_equal.
    induction H as [|f r Hf Hr IH]; [reflexivity|]. cbn. destruct f; [congruence|]. cbn. now rewrite IH.
Qed.
Definition slash : char := "/"%char.
Definition of_string (s : string) : str := list_ascii_of_string s.
Theorem C24_lossless_refuted : exists s d fuel out, split_loop fuel s d (Some O) [] = Some out /\ join d out <> s.
Proof.
  exists (of_string "a//b"), slash, 10%nat, [of_string "a"; of_string "b"]. split; [vm_compute; reflexivity|].
  vm_compute. discriminate.
Qed.
Example ex_C24 : split_loop 20 (of_string "E/E_r/rec") slash (Some O) [] = Some [of_string "E"; of_string "E_r"; of_string "rec"] /\
  Forall (fun f => f <> []) (fields slash (of_string "E/E_r/rec")).
Proof. split; [vm_compute; reflexivity|]. vm_compute. repeat constructor; discriminate. Qed.

(** * C25 *)
(** [t]: the names along the path.  The call returns true exactly when the directory exists already or its
    closest existing parent is a writable directory; then all missing parents have been created and nothing else
    has changed; otherwise nothing has changed at all. *)
Theorem C25_make_directory : forall fs a t, (a = [] \/ a = [EmptyString]) -> t <> [] ->
  Forall (fun c => c <> EmptyString) t -> fs_ok fs ->
  let '(fs', ok) := make_dir fs (a ++ t) in
  (ok = true <-> creatable fs t) /\
  (ok = true -> forall q, (is_prefix q t -> fs q = None -> fs' q = Some (Dir true)) /\
                          (~ is_prefix q t \/ fs q <> None -> fs' q = fs q)) /\
  (ok = false -> forall q, fs' q = fs q).
Proof.
  intros fs a t Ha Ht Hc Hok. unfold make_dir.
  pose proof (make_directory_spec a Ha t (List.length (a ++ t)) fs Hok Ht Hc) as H.
  rewrite app_length in H at 1. specialize (H ltac:(lia)).
  destruct (make_directory (List.length (a ++ t)) fs (a ++ t)) as [fs' ok]. exact H.
Qed.
Definition ex_fs : fsys := fun q => match q with [] => Some (Dir true) | [a] => if string_dec a "data" then Some (Dir true) else None | _ => None end.
Example ex_C25_ok : fs_ok ex_fs /\ creatable ex_fs ["data"; "run"; "hdf5"]%string.
Proof.
  split.
  - split; [now exists true|]. intros q c H. destruct q as [|x [|y q]]; cbn in *; [now exists true| |].
    + congruence.
    + destruct q; congruence.
  - right. exists 1%nat. cbn. repeat split; lia.
Qed.
Example ex_C25_run : let '(fs', ok) := make_dir ex_fs ["data"; "run"; "hdf5"]%string in
  ok = true /\ fs' ["data"; "run"]%string = Some (Dir true) /\ fs' ["data"; "run"; "hdf5"]%string = Some (Dir true) /\ fs' ["x"]%string = None.
Proof. vm_compute. repeat split; reflexivity. Qed.
(** A path that ends in a slash: the directories are created, yet the call reports failure. *)
Theorem C25_trailing_slash_refuted : exists fs t, fs_ok fs /\ creatable fs t /\
  let '(fs', ok) := make_dir fs (t ++ [EmptyString]) in ok = false /\ fs' t = Some (Dir true) /\ fs t = None.
Proof.
  exists ex_fs, ["data"; "run"; "hdf5"]%string. split; [apply ex_C25_ok|]. split; [apply ex_C25_ok|]. vm_compute. repeat split; reflexivity.
Qed.

(** * C26 *)
(** roundings to double: relative error at most 2^-53, integers below 2^53 unchanged *)
Definition double_rounding (rnd : R -> R) : Prop :=
  (forall x, (0 <= x)%R -> (Rabs (rnd x - x) <= / 2 ^ 53 * x)%R) /\ (forall k, 0 <= k < 2 ^ 53 -> rnd (IZR k) = IZR k).
Lemma pow53 : (2 ^ 53 = 9007199254740992)%R.
Proof. change 9007199254740992%R with (IZR (2 ^ 53)). change 53%Z with (Z.of_nat 53). now rewrite <- pow_IZR. Qed.

Lemma integral_iff rnd d res : double_rounding rnd -> 1 <= d < 2 ^ 32 -> 0 <= res < 2 ^ 32 ->
  (quotient_integral rnd (IZR d) res <-> (d | res)).
Proof.
  intros [Hr Hi] Hd Hres.
  assert (Dpos : (1 <= IZR d)%R) by (apply IZR_le; lia).
  assert (Rpos : (0 <= IZR res <= 4294967296)%R) by (split; apply IZR_le; lia).
  assert (Q0 : (0 <= IZR res / IZR d)%R).
  { apply Rmult_le_pos; [lra|]. left. apply Rinv_0_lt_compat. lra. }
  assert (QD : (IZR res / IZR d * IZR d = IZR res)%R) by (field; lra).
  split.
  - intros [k Hk]. specialize (Hr (IZR res / IZR d)%R Q0). rewrite Hk, pow53 in Hr.
    assert (B : (Rabs (IZR k * IZR d - IZR res) < 1)%R).
    { replace (IZR k * IZR d - IZR res)%R with ((IZR k - IZR res / IZR d) * IZR d)%R by (rewrite Rmult_minus_distr_r, QD; reflexivity).
      rewrite Rabs_mult, (Rabs_right (IZR d)) by lra.
      apply Rle_lt_trans with (/ 9007199254740992 * (IZR res / IZR d) * IZR d)%R; [apply Rmult_le_compat_r; lra|].
      rewrite Rmult_assoc, QD. lra. }
    exists k. rewrite <- mult_IZR, <- minus_IZR, <- abs_IZR in B. apply lt_IZR in B. lia.
  - intros [k ->]. exists k. rewrite mult_IZR. replace (IZR k * IZR d / IZR d)%R with (IZR k) by (field; lra).
    apply Hi. nia.
Qed.

(** for an integral second argument: the least multiple that is not smaller, or 0 if that does not fit *)
Definition next_multiple (n d : Z) : Z := (n + d - 1) / d * d.
Lemma next_multiple_spec n d : 0 <= n -> 1 <= d ->
  n <= next_multiple n d /\ (d | next_multiple n d) /\ forall m, n <= m -> (d | m) -> next_multiple n d <= m.
Proof.
  intros Hn Hd. unfold next_multiple. pose proof (Z.div_mod (n + d - 1) d ltac:(lia)) as E.
  pose proof (Z.mod_pos_bound (n + d - 1) d ltac:(lia)). split; [lia|]. split; [eexists; reflexivity|].
  intros m Hm [k ->]. apply Z.mul_le_mono_nonneg_r; [lia|].
  assert ((n + d - 1) / d < k + 1); [|lia]. apply Z.div_lt_upper_bound; lia.
Qed.
Theorem C26_integral_argument : forall rnd n d, double_rounding rnd -> 0 <= n < 2 ^ 32 -> 1 <= d < 2 ^ 32 ->
  forall r, nearest_divide (quotient_integral rnd (IZR d)) n r <->
    r = (if next_multiple n d <? 2 ^ 32 then next_multiple n d else 0).
Proof.
  intros rnd n d Hr Hn Hd.
  assert (Ex : nearest_divide (quotient_integral rnd (IZR d)) n (if next_multiple n d <? 2 ^ 32 then next_multiple n d else 0)).
  { destruct (next_multiple_spec n d ltac:(lia) ltac:(lia)) as (A & B & C).
    destruct (next_multiple n d <? 2 ^ 32) eqn:E; [apply Z.ltb_lt in E|apply Z.ltb_ge in E].
    - apply nd_reach; [lia|lia| |].
      + intros k Hk. rewrite (integral_iff rnd d k Hr Hd) by lia. intros D. specialize (C k ltac:(lia) D). lia.
      + apply (integral_iff rnd d); auto; lia.
    - apply nd_wrap; [lia| |].
      + intros k Hk. rewrite (integral_iff rnd d k Hr Hd) by lia. intros D. specialize (C k ltac:(lia) D). lia.
      + apply (integral_iff rnd d); auto; [lia|]. now exists 0. }
  intros r. split; [intros H; now apply (nd_unique _ _ _ _ H)|intros ->; exact Ex].
Qed.
Theorem C26_least_multiple : forall n d, 0 <= n -> 1 <= d ->
  n <= next_multiple n d < n + d /\ (d | next_multiple n d) /\ forall m, n <= m -> (d | m) -> next_multiple n d <= m.
Proof.
  intros n d Hn Hd. destruct (next_multiple_spec n d Hn Hd) as (A & B & C). split; [|auto]. split; [exact A|].
  unfold next_multiple. pose proof (Z.div_mod (n + d - 1) d ltac:(lia)). pose proof (Z.mod_pos_bound (n + d - 1) d ltac:(lia)). lia.
Qed.
Example ex_C26 : double_rounding (fun x => x) /\ next_multiple 10000 384 = 10368.
Proof.
  split; [|reflexivity]. split; [|reflexivity]. intros x Hx. unfold Rminus. rewrite Rplus_opp_r, Rabs_R0, pow53. lra.
Qed.

(** The argument the code passes is r_size / dr * z_size / dz, which need not come out as a whole number: for
    an area of 0.1 x 0.1 m with 24 x 16 cells it is 384 + 2^-44 ... *)
Definition tenth : spec_float := S754_finite false 7205759403792794 (-56).
Definition f24 : spec_float := S754_finite false 6755399441055744 (-48).
Definition f16 : spec_float := S754_finite false 4503599627370496 (-48).
Theorem C26_argument_rounded : cells64 tenth tenth f24 f16 = S754_finite false (384 * 2 ^ 44 + 1) (-44).
Proof. vm_compute. reflexivity. Qed.
(** ... and then no number of macroparticles passes the test, and the function ends up at 0 for every argument *)
Theorem C26_no_multiple_refuted : forall rnd n, double_rounding rnd -> 0 <= n < 2 ^ 32 ->
  nearest_divide (quotient_integral rnd (384 + / 2 ^ 44)) n 0.
Proof.
  intros rnd n [Hr Hi] Hn.
  assert (P44 : (2 ^ 44 = 17592186044416)%R).
  { change 17592186044416%R with (IZR (2 ^ 44)). change 44%Z with (Z.of_nat 44). now rewrite <- pow_IZR. }
  assert (H0 : quotient_integral rnd (384 + / 2 ^ 44) 0).
  { exists 0. unfold Rdiv. rewrite Rmult_0_l. apply Hi. lia. }
  destruct (Z.eq_dec n 0) as [-> | Hn0]; [now apply nd_stop|].
  apply nd_wrap; auto. intros k Hk [m Hm].
  set (w := (384 + / 2 ^ 44)%R) in *. assert (Hw : w = (384 + / 17592186044416)%R) by (unfold w; now rewrite P44).
  assert (W : (384 < w < 385)%R) by lra.
  assert (K : (1 <= IZR k <= 4294967296)%R) by (split; apply IZR_le; lia).
  assert (Q0 : (0 <= IZR k / w)%R) by (apply Rmult_le_pos; [lra|left; apply Rinv_0_lt_compat; lra]).
  assert (QD : (IZR k / w * w = IZR k)%R) by (field; lra).
  specialize (Hr _ Q0). rewrite Hm, pow53 in Hr.
  assert (B : (Rabs (IZR m * w - IZR k) <= / 9007199254740992 * IZR k)%R).
  { replace (IZR m * w - IZR k)%R with ((IZR m - IZR k / w) * w)%R by (rewrite Rmult_minus_distr_r, QD; reflexivity).
    rewrite Rabs_mult, (Rabs_right w) by lra.
    apply Rle_trans with (/ 9007199254740992 * (IZR k / w) * w)%R; [apply Rmult_le_compat_r; lra|].
    rewrite Rmult_assoc, QD. lra. }
  assert (B' : (- (/ 9007199254740992 * IZR k) <= IZR m * w - IZR k <= / 9007199254740992 * IZR k)%R).
  { unfold Rabs in B. destruct (Rcase_abs (IZR m * w - IZR k)); lra. }
  assert (Mpos : (0 <= IZR m)%R).
  { destruct (Rle_lt_dec 0 (IZR m)) as [|Hneg]; auto. exfalso.
    assert (IZR m * w < 0)%R by (rewrite <- (Rmult_0_l w); apply Rmult_lt_compat_r; lra). lra. }
  assert (Mup : (IZR m <= 4294967296)%R).
  { apply Rmult_le_reg_r with w; [lra|]. apply Rle_trans with (2 * IZR k)%R; [lra|]. nra. }
  assert (Eq : k = 384 * m).
  { assert (C : (-1 < IZR (384 * m - k) < 1)%R) by (rewrite minus_IZR, mult_IZR; rewrite Hw in B'; lra).
    destruct C as [C1 C2]. apply (lt_IZR (-1)) in C1. apply lt_IZR in C2. lia. }
  rewrite Eq, mult_IZR, Hw in B'. assert (1 <= IZR m)%R by (apply IZR_le; lia). lra.
Qed.

(** * C27 *)
Theorem C27_option_value : forall args o v,
  get_cmd_option args o = Some v <-> exists before after, args = before ++ o :: v :: after /\ ~ In o before.
Proof.
  intros args o v. split.
  - unfold get_cmd_option. induction args as [|a args IH]; cbn [std_find]; [discriminate|].
    destruct (string_dec a o) as [-> | Ne].
    + destruct args as [|b args]; [discriminate|]. intros [= ->]. exists [], args. split; auto.
    + intros H. destruct (IH H) as (b & c & -> & Hb). exists (a :: b), c. split; [reflexivity|]. cbn. intros [Q|Q]; auto.
  - intros (b & c & -> & Hb). unfold get_cmd_option. induction b as [|x b IH]; cbn [std_find app].
    + destruct (string_dec o o); [reflexivity|congruence].
    + destruct (string_dec x o) as [-> | Ne]; [exfalso; apply Hb; now left|]. apply IH. intros Q; apply Hb; now right.
Qed.
Theorem C27_option_exists : forall args o, cmd_option_exists args o = true <-> In o args.
Proof.
  intros args o. unfold cmd_option_exists. induction args as [|a args IH]; cbn [std_find In]; [split; [discriminate|tauto]|].
  destruct (string_dec a o) as [-> | Ne]; [tauto|]. rewrite IH. split; [auto|]. intros [H|H]; [congruence|auto].
Qed.
(** the program itself: an option "-f" without a value ends in undefined behaviour *)
Theorem C27_missing_value_refuted : forall package before, ~ In "-h"%string before -> ~ In "--version"%string before ->
  ~ In "-f"%string before -> parse_argv package (before ++ ["-f"%string]) = UB.
Proof.
  intros package before H1 H2 H3. unfold parse_argv.
  assert (N : forall o, o <> "-f"%string -> ~ In o before -> cmd_option_exists (before ++ ["-f"%string]) o = false).
  { intros o Ho Hb. apply not_true_iff_false. rewrite C27_option_exists. rewrite in_app_iff. cbn. intros [Q|[Q|[]]]; congruence. }
  rewrite !N by (auto; discriminate).
  replace (cmd_option_exists (before ++ ["-f"%string]) "-f") with true
    by (symmetry; apply C27_option_exists, in_or_app; right; now left).
  destruct (get_cmd_option (before ++ ["-f"%string]) "-f") as [v|] eqn:E; [|reflexivity].
  apply C27_option_value in E as (b & c & E & Hb). exfalso.
  assert (X : exists l x, "-f"%string :: v :: c = "-f"%string :: l ++ [x]).
  { destruct (exists_last (l := v :: c)) as (l & x & Ex); [discriminate|]. exists l, x. now rewrite Ex. }
  destruct X as (l & x & X). rewrite X in E. rewrite app_comm_cons, app_assoc in E. apply app_inj_tail in E as [E _].
  apply H3. rewrite E. apply in_or_app. right. now left.
Qed.
(** otherwise the file name is the value of "-f", or the default name *)
Theorem C27_config_file : forall package args, ~ In "-h"%string args -> ~ In "--version"%string args ->
  (forall v, get_cmd_option args "-f" = Some v -> v <> ""%string -> parse_argv package args = Ok (Config v)) /\
  (~ In "-f"%string args -> parse_argv package args = Ok (Config (package ++ ".json"))).
Proof.
  intros package args H1 H2. unfold parse_argv.
  assert (N : forall o, ~ In o args -> cmd_option_exists args o = false).
  { intros o Ho. apply not_true_iff_false. now rewrite C27_option_exists. }
  rewrite !(N _ H1), !(N _ H2). split.
  - intros v Hv Hne. replace (cmd_option_exists args "-f") with true.
    + rewrite Hv. cbn [bind]. now destruct (string_dec v "").
    + symmetry. apply C27_option_exists. apply C27_option_value in Hv as (b & c & -> & _). apply in_or_app. right. now left.
  - intros H3. rewrite (N _ H3). cbn [bind]. destruct (string_dec (package ++ ".json") "") as [E|]; [|reflexivity].
    destruct package; discriminate.
Qed.
(** "-h" wins over everything else, "--version" over a configuration file; the two differ in the exit code *)
Theorem C27_help_version : forall package args,
  (In "-h"%string args -> parse_argv package args = Ok (Exit 1)) /\
  (~ In "-h"%string args -> In "--version"%string args -> parse_argv package args = Ok (Exit 0)).
Proof.
  intros package args. unfold parse_argv. split.
  - intros H. apply C27_option_exists in H. now rewrite H.
  - intros H1 H2. apply C27_option_exists in H2. rewrite H2.
    replace (cmd_option_exists args "-h") with false; [reflexivity|]. symmetry. apply not_true_iff_false. now rewrite C27_option_exists.
Qed.
Example ex_C27_help : parse_argv "PiCoPiC" ["picopic"; "--version"; "-h"]%string = Ok (Exit 1) /\
  parse_argv "PiCoPiC" ["picopic"; "-f"; "--version"]%string = Ok (Exit 0).
Proof. vm_compute. auto. Qed.
Example ex_C27 : parse_argv "PiCoPiC" ["picopic"; "-f"; "my.json"]%string = Ok (Config "my.json") /\
  parse_argv "PiCoPiC" ["picopic"]%string = Ok (Config "PiCoPiC.json") /\ parse_argv "PiCoPiC" ["picopic"; "-f"]%string = UB.
Proof. vm_compute. auto. Qed.

Print Assumptions C24_fields_lossless.
Print Assumptions C24_pieces_partial.
Print Assumptions C24_join_iff.
Print Assumptions C24_lossless_refuted.
Print Assumptions C25_make_directory.
Print Assumptions C25_trailing_slash_refuted.
Print Assumptions C26_integral_argument.
Print Assumptions C26_least_multiple.
Print Assumptions C26_argument_rounded.
Print Assumptions C26_no_multiple_refuted.
Print Assumptions C27_option_value.
Print Assumptions C27_option_exists.
Print Assumptions C27_missing_value_refuted.
Print Assumptions C27_config_file.
Print Assumptions C27_help_version.
