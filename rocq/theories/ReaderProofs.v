(** Lemmas about the reading of the results: paths, arrays, the dataset of a probe over the steps. *)
From Coq Require Import String Ascii DecimalString DecimalN DecimalPos ZifyBool.
From Verif Require Import Base GridModel DecompModel OutModel OutProofs ThmOut ProbeModel CfgJsonModel ReaderModel.
Open Scope Z_scope.

(** * Strings *)
Fixpoint lacks (c : ascii) (s : string) : bool :=
  match s with EmptyString => true | String a s => negb (Ascii.eqb a c) && lacks c s end.
Lemma lacks_app c a b : lacks c (a ++ b)%string = lacks c a && lacks c b.
Proof. induction a as [|x a IH]; cbn [append lacks]; [reflexivity|]. rewrite IH. now rewrite andb_assoc. Qed.
Lemma cut c a a' x x' : lacks c a = true -> lacks c a' = true -> (a ++ String c x = a' ++ String c x')%string -> a = a' /\ x = x'.
Proof.
  revert a'. induction a as [|y a IH]; intros [|y' a'] L L' E; cbn [append lacks] in *.
  - injection E as E. auto.
  - injection E as E _. subst y'. rewrite Ascii.eqb_refl in L'. discriminate.
  - injection E as E _. subst y. rewrite Ascii.eqb_refl in L. discriminate.
  - injection E as E1 E2. apply andb_prop in L as (_ & L). apply andb_prop in L' as (_ & L'). destruct (IH a' L L' E2) as (-> & ->). now subst.
Qed.
Lemma app_nil (s : string) : (s ++ "" = s)%string.
Proof. induction s as [|x s IH]; cbn [append]; [reflexivity|now rewrite IH]. Qed.
Lemma app_ass (a b c : string) : ((a ++ b) ++ c = a ++ b ++ c)%string.
Proof. induction a as [|x a IH]; cbn [append]; [reflexivity|now rewrite IH]. Qed.

Lemma digits c d : (48 <= Z.of_N (N_of_ascii c) <= 57 -> False) -> lacks c (NilEmpty.string_of_uint d) = true.
Proof.
  intros N. induction d; cbn [NilEmpty.string_of_uint lacks]; try reflexivity; rewrite IHd, andb_true_r; apply Bool.negb_true_iff, Ascii.eqb_neq; intros <-; apply N; vm_compute; split; discriminate.
Qed.
Lemma to_uint_nonnil n : N.to_uint n <> Decimal.Nil.
Proof. destruct n; cbn [N.to_uint]; [discriminate|apply DecimalPos.Unsigned.to_uint_nonnil]. Qed.
Lemma to_string_lacks c n : (48 <= Z.of_N (N_of_ascii c) <= 57 -> False) -> lacks c (to_string n) = true.
Proof.
  intros N. unfold to_string, NilZero.string_of_uint. pose proof (to_uint_nonnil (Z.to_N n)) as NN. destruct (N.to_uint (Z.to_N n)) eqn:E; [contradiction|..]; apply digits, N.
Qed.
Lemma to_string_inj m n : 0 <= m -> 0 <= n -> to_string m = to_string n -> m = n.
Proof.
  intros Hm Hn E. assert (X : N.to_uint (Z.to_N m) = N.to_uint (Z.to_N n)).
  { assert (Y : Some (N.to_uint (Z.to_N m)) = Some (N.to_uint (Z.to_N n))); [|congruence].
    rewrite <- (NilZero.usu _ (to_uint_nonnil (Z.to_N m))), <- (NilZero.usu _ (to_uint_nonnil (Z.to_N n))). unfold to_string in E. now rewrite E. }
  assert (Y : Z.to_N m = Z.to_N n) by (rewrite <- (DecimalN.Unsigned.of_to (Z.to_N m)), <- (DecimalN.Unsigned.of_to (Z.to_N n)); now rewrite X). lia.
Qed.
Lemma to_string_starts n : exists c s, to_string n = String c s /\ c <> "."%char.
Proof.
  unfold to_string, NilZero.string_of_uint. pose proof (to_uint_nonnil (Z.to_N n)) as NN. destruct (N.to_uint (Z.to_N n)) eqn:E; [contradiction|..]; cbn [NilEmpty.string_of_uint]; eexists; eexists; (split; [reflexivity|discriminate]).
Qed.

(** * Names of a path *)
Lemma split_slash a b : split (a ++ String "/" b) = (fst (split a), (snd (split a) ++ fst (split b) :: snd (split b))%list).
Proof.
  induction a as [|c a IH]; cbn [append split].
  - destruct (split b). reflexivity.
  - rewrite IH. destruct (split a) as [x l]. cbn [fst snd]. destruct (Ascii.eqb c "/"); reflexivity.
Qed.
Lemma names_eq s : names s = filter is_name (fst (split s) :: snd (split s)).
Proof. unfold names. destruct (split s). reflexivity. Qed.
Lemma names_slash a b : names (a ++ String "/" b) = (names a ++ names b)%list.
Proof. rewrite !names_eq, split_slash. cbn [fst snd]. rewrite <- filter_app. reflexivity. Qed.
Lemma split_plain s : lacks "/" s = true -> split s = (s, []).
Proof.
  induction s as [|c s IH]; cbn [lacks split]; intros L; [reflexivity|]. apply andb_prop in L as (A & B). rewrite (IH B).
  apply Bool.negb_true_iff in A. now rewrite A.
Qed.
Lemma names_plain s : lacks "/" s = true -> names s = if is_name s then [s] else [].
Proof. intros L. rewrite names_eq, split_plain by exact L. cbn [fst snd filter]. now destruct (is_name s). Qed.
Lemma names_starts c s : lacks "/" (String c s) = true -> c <> "."%char -> names (String c s) = [String c s].
Proof.
  intros L N. rewrite names_plain by exact L. unfold is_name. replace (String.eqb (String c s) "") with false by reflexivity. cbn [orb].
  destruct (String.eqb_spec (String c s) "."); [congruence|reflexivity].
Qed.

Definition extent_of (r0 z0 r1 z1 : Z) : string := (to_string r0 ++ "-" ++ to_string r1 ++ "_" ++ to_string z0 ++ "-" ++ to_string z1)%string.
Lemma extent_slash r0 z0 r1 z1 : lacks "/" (extent_of r0 z0 r1 z1) = true.
Proof. unfold extent_of. rewrite !lacks_app, !to_string_lacks by (vm_compute; intuition congruence). reflexivity. Qed.
Lemma extent_names r0 z0 r1 z1 : names (extent_of r0 z0 r1 z1) = [extent_of r0 z0 r1 z1].
Proof.
  pose proof (extent_slash r0 z0 r1 z1) as L. destruct (to_string_starts r0) as (c & s & E & N). unfold extent_of in *. rewrite E in *. cbn [append] in *.
  now apply names_starts.
Qed.
Lemma extent_inj a b c d a' b' c' d' : 0 <= a -> 0 <= b -> 0 <= c -> 0 <= d -> 0 <= a' -> 0 <= b' -> 0 <= c' -> 0 <= d' ->
  extent_of a b c d = extent_of a' b' c' d' -> a = a' /\ b = b' /\ c = c' /\ d = d'.
Proof.
  intros ? ? ? ? ? ? ? ? E. unfold extent_of in E. cbn [append] in E.
  assert (D : forall n, lacks "-" (to_string n) = true) by (intros; apply to_string_lacks; vm_compute; intuition congruence).
  assert (U : forall n, lacks "_" (to_string n) = true) by (intros; apply to_string_lacks; vm_compute; intuition congruence).
  apply cut in E as (E1 & E); auto. apply cut in E as (E2 & E); auto. apply cut in E as (E3 & E4); auto.
  repeat split; apply to_string_inj; auto.
Qed.
Lemma str_of_nonneg n : 0 <= n -> str_of n = to_string n.
Proof. intros H. unfold str_of. destruct (n <? 0) eqn:E; [lia|reflexivity]. Qed.

Lemma rec_names c r0 z0 r1 z1 : 0 <= r0 -> 0 <= z0 -> 0 <= r1 -> 0 <= z1 ->
  names (ds_path c PRec (r0, z0, r1, z1)) = (names c ++ ["rec"%string; extent_of r0 z0 r1 z1])%list.
Proof.
  intros. unfold ds_path. cbn [s0 s1 s2 s3]. rewrite !str_of_nonneg by auto. change (names ("" ++ String "/" (c ++ String "/" ("rec" ++ String "/" (extent_of r0 z0 r1 z1)))) = (names c ++ ["rec"%string; extent_of r0 z0 r1 z1])%list).
  rewrite !names_slash, extent_names. reflexivity.
Qed.
Lemma one_names (x : Z) : 0 <= x -> names (to_string x) = [to_string x].
Proof.
  intros. assert (L : lacks "/" (to_string x) = true) by (apply to_string_lacks; vm_compute; intuition congruence).
  destruct (to_string_starts x) as (c & s & E & N). rewrite E in *. now apply names_starts.
Qed.
Lemma col_names c q : 0 <= s3 q -> names (ds_path c PCol q) = (names c ++ ["col"%string; to_string (s3 q)])%list.
Proof.
  intros. unfold ds_path. rewrite !str_of_nonneg by auto. change (names ("" ++ String "/" (c ++ String "/" ("col" ++ String "/" (to_string (s3 q))))) = (names c ++ ["col"%string; to_string (s3 q)])%list).
  rewrite !names_slash, one_names by auto. reflexivity.
Qed.
Lemma row_names c q : 0 <= s2 q -> names (ds_path c PRow q) = (names c ++ ["row"%string; to_string (s2 q)])%list.
Proof.
  intros. unfold ds_path. rewrite !str_of_nonneg by auto. change (names ("" ++ String "/" (c ++ String "/" ("row" ++ String "/" (to_string (s2 q))))) = (names c ++ ["row"%string; to_string (s2 q)])%list).
  rewrite !names_slash, one_names by auto. reflexivity.
Qed.
Lemma dot_names c q : 0 <= s3 q -> 0 <= s2 q -> names (ds_path c PDot q) = (names c ++ ["dot"; to_string (s3 q) ++ "_" ++ to_string (s2 q)]%string)%list.
Proof.
  intros. unfold ds_path. rewrite !str_of_nonneg by auto. change (names ("" ++ String "/" (c ++ String "/" ("dot" ++ String "/" (to_string (s3 q) ++ "_" ++ to_string (s2 q))))) = (names c ++ ["dot"; to_string (s3 q) ++ "_" ++ to_string (s2 q)]%string)%list).
  assert (L : lacks "/" (to_string (s3 q) ++ "_" ++ to_string (s2 q)) = true) by (rewrite !lacks_app, !to_string_lacks by (vm_compute; intuition congruence); reflexivity).
  assert (N : names (to_string (s3 q) ++ "_" ++ to_string (s2 q)) = [to_string (s3 q) ++ "_" ++ to_string (s2 q)]%string).
  { destruct (to_string_starts (s3 q)) as (x & s & E & N). rewrite E in *. cbn [append] in *. now apply names_starts. }
  rewrite !names_slash, N. reflexivity.
Qed.

(** * Arrays *)
Section Arr.
Context {T : Type}.
Variable zero : T.
Implicit Types a v : nd T.
Lemma position_ok i n : 0 <= i < n -> position i n = Val i.
Proof. intros. unfold position. destruct (i <? 0) eqn:E; [lia|]. destruct ((0 <=? i) && (i <? n)) eqn:F; [reflexivity|lia]. Qed.
Lemma position_neg i n : - n <= i < 0 -> position i n = Val (i + n).
Proof. intros. unfold position. destruct (i <? 0) eqn:E; [|lia]. destruct ((0 <=? i + n) && (i + n <? n)) eqn:F; [reflexivity|lia]. Qed.
Lemma position_out i n : ~ (- n <= i < n) -> position i n = Raise IndexError.
Proof. intros. unfold position. destruct (i <? 0) eqn:E; destruct (_ && _) eqn:F; try reflexivity; lia. Qed.

Lemma zeros_ok d : Forall (fun n => 0 <= n) d -> zeros zero d = Val (mkNd d (fun _ => zero)).
Proof.
  intros F. unfold zeros. replace (forallb _ d) with true; [reflexivity|]. symmetry. apply forallb_forall. rewrite Forall_forall in F. intros x I. specialize (F x I). lia.
Qed.
Lemma broadcast_same d : broadcast d d = true.
Proof. induction d as [|n d IH]; cbn [broadcast]; [reflexivity|]. now rewrite Z.eqb_refl. Qed.
(** within the sizes *)
Definition within (l d : list Z) : Prop := Forall2 (fun i n => 0 <= i < n) l d.
Lemma pick_same d l : Forall2 (fun i n => 0 <= i < n) l d -> pick d l = l.
Proof. induction 1 as [|i n l d H F IH]; cbn [pick]; [reflexivity|]. rewrite IH. destruct (n =? 1) eqn:E; [|reflexivity]. f_equal. lia. Qed.
Lemma within_rev l d : within l d -> Forall2 (fun i n => 0 <= i < n) (rev l) (rev d).
Proof. induction 1 as [|i n l d H F IH]; cbn [rev]; [constructor|]. apply Forall2_app; [exact IH|]. constructor; [exact H|constructor]. Qed.

Lemma fill_ok (f : Z -> py (nd T)) (g : Z -> list Z -> T) d s e :
  (forall i, s <= i < e -> exists v, f i = Val v /\ dims v = d /\ forall l, within l d -> at_ v l = g i l) ->
  forall k i a, s <= i -> i + Z.of_nat k = e -> dims a = (e - s :: d) ->
  (forall x l, 0 <= x < i - s -> within l d -> at_ a (x :: l) = g (s + x) l) ->
  exists a', fill f s i k a = Val a' /\ dims a' = (e - s :: d) /\ forall x l, 0 <= x < e - s -> within l d -> at_ a' (x :: l) = g (s + x) l.
Proof.
  intros F. induction k as [|k IH]; intros i a Hs He D A; cbn [fill].
  - exists a. split; [reflexivity|]. split; [exact D|]. intros x l Hx. apply A. lia.
  - destruct (F i ltac:(lia)) as (v & E & Dv & V). rewrite E. cbn [pbind]. unfold store. rewrite D, Dv, position_ok by lia. cbn [pbind].
    rewrite broadcast_same. cbn [pbind]. apply IH; try lia; [reflexivity|].
    intros x l Hx W. cbn [at_]. destruct (x =? i - s) eqn:Ex.
    + rewrite pick_same by (now apply within_rev). rewrite rev_involutive, V by exact W. f_equal. lia.
    + apply A; [lia|exact W].
Qed.
Lemma collect_ok (f : Z -> py (nd T)) (g : Z -> list Z -> T) d s e : s <= e -> Forall (fun n => 0 <= n) d ->
  (forall i, s <= i < e -> exists v, f i = Val v /\ dims v = d /\ forall l, within l d -> at_ v l = g i l) ->
  exists a', pbind (zeros zero (e - s :: d)) (collect f s e) = Val a' /\ dims a' = (e - s :: d) /\
    forall x l, 0 <= x < e - s -> within l d -> at_ a' (x :: l) = g (s + x) l.
Proof.
  intros H P F. rewrite zeros_ok by (constructor; [lia|exact P]). cbn [pbind]. unfold collect.
  apply (fill_ok f g d s e F); try lia. reflexivity.
Qed.
(** a loop whose body fails *)
Lemma fill_raise (f : Z -> py (nd T)) s i k a e : f i = Raise e -> fill f s i (S k) a = Raise e.
Proof. intros H. cbn [fill]. now rewrite H. Qed.
End Arr.

(** * The dataset over the steps *)
Section Record.
Context {T : Type}.
Variable zero : T.
Variables NR NZ R C b0 b1 : Z.
Variable G : Z -> Z -> Z -> grid T.
Variables p0 p1 p2 p3 s : Z.
Hypothesis HG : forall n, 0 <= n -> divided NR NZ R C b0 b1 (G n).
Hypothesis HI : probe_inside NR NZ b0 b1 p0 p1 p2 p3.
Hypothesis HO : off_border NR R b0 p0 p2.
Hypothesis Hs : 1 <= s <= 65535.
(** the value of cell (i, j) of the area at step [n] *)
Definition held (n i j : Z) (v : T) : Prop :=
  forall r z, owns NR NZ R C b0 b1 r z i j -> v = cell (G n r z) (i - bound NR R b0 r + os (G n r z)) (j - bound NZ C b1 z + os (G n r z)).
Lemma record_ok k : exists ds, record_rec zero R C (bound NR R b0) (bound NZ C b1) G p0 p1 p2 p3 s k = Ok ds /\
  frames ds = Z.max 1 (multiples s k) /\ n0 ds = p2 - p0 /\ n1 ds = p3 - p1 /\
  forall f i j, 0 <= f -> f * s < Z.of_nat k -> p0 <= i < p2 -> p1 <= j < p3 -> held (f * s) i j (dat ds f (i - p0) (j - p1)).
Proof using HG HI HO Hs.
  induction k as [|k (ds & E & F & N0 & N1 & V)].
  - eexists. split; [reflexivity|]. unfold create_rec, create_frames. cbn [frames n0 n1 multiples]. repeat split; try lia.
  - cbn [record_rec]. rewrite E. cbn [bind]. unfold output_rec. rewrite u16_small by lia. destruct (s =? 0) eqn:S0; [lia|].
    set (n := Z.of_nat k) in *. assert (Hn : 0 <= n) by lia.
    pose proof (Z.div_mod n s ltac:(lia)) as DM. pose proof (Z.mod_pos_bound n s ltac:(lia)) as MB.
    assert (M : multiples s (S k) = n / s + 1) by reflexivity.
    assert (Q : 0 <= n / s) by (apply Z.div_pos; lia).
    assert (MK : n mod s = 0 -> multiples s k = n / s).
    { intros M0. destruct k as [|k']; cbn [multiples]; [subst n; reflexivity|].
      assert (n = Z.of_nat k' + 1) by lia. assert (X : Z.of_nat k' / s = n / s - 1); [|lia].
      symmetry. apply (Z.div_unique _ _ _ (s - 1)); [lia|]. nia. }
    assert (MN : n mod s <> 0 -> multiples s k = n / s + 1).
    { intros M0. destruct k as [|k']; cbn [multiples]; [subst n; rewrite Z.mod_0_l in M0 by lia; lia|].
      assert (n = Z.of_nat k' + 1) by lia. assert (X : Z.of_nat k' / s = n / s); [|lia].
      symmetry. apply (Z.div_unique _ _ _ (n mod s - 1)); [lia|]. nia. }
    destruct (n mod s =? 0) eqn:M0.
    + set (ds1 := extend_rec zero ds (n / s)).
      assert (F1 : frames ds1 = n / s + 1) by (unfold ds1, extend_rec, extend_frames; cbn [frames]; rewrite F, MK by lia; destruct (_ <? _) eqn:L; lia).
      destruct (C16_frame_written T zero NR NZ R C b0 b1 (G n) p0 p1 p2 p3 (n / s) ds1 (HG n Hn) HI) as (ds' & W & A1 & A2 & A3 & A4 & A5).
      { unfold probe_dataset. rewrite F1. unfold ds1, extend_rec. cbn [n0 n1]. lia. }
      { exact HO. }
      exists ds'. split; [exact W|]. split; [lia|]. split; [rewrite A2; exact N0|]. split; [rewrite A3; exact N1|].
      intros f i j Hf Hk Hi Hj. destruct (Z.eq_dec f (n / s)) as [-> |Nf].
      * replace (n / s * s) with n by nia. intros r z O. now apply A4.
      * assert (f * s < n) by nia. rewrite A5 by lia. unfold ds1, extend_rec. cbn [dat]. destruct (f <? frames ds) eqn:L; [apply V; lia|].
        exfalso. rewrite F, MK in L by lia. nia.
    + exists ds. split; [reflexivity|]. split; [rewrite F, MN by lia; lia|]. split; [exact N0|]. split; [exact N1|].
      intros f i j Hf Hk Hi Hj. apply V; try assumption. assert (f * s <> n); [|lia]. intros X. rewrite <- X, Z.mod_mul in M0 by lia. discriminate.
Qed.
End Record.
