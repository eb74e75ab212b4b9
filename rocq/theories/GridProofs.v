(** Proofs about the [Grid<T>] model. *)
From Verif Require Import Base GridModel.
From Coq Require Import ZifyBool.

Lemma u32_small' z : 0 <= z < 4294967296 -> u32 z = z.
Proof. intros; apply u32_small; lia. Qed.

Section G.
Context {T : Type}.
Implicit Types (g a b : grid T) (v : T).

Definition same_shape g g' : Prop :=
  xr g' = xr g /\ yr g' = yr g /\ xs g' = xs g /\ ys g' = ys g /\ os g' = os g.

Lemma same_shape_refl g : same_shape g g.
Proof. repeat split. Qed.
Lemma same_shape_trans g1 g2 g3 : same_shape g1 g2 -> same_shape g2 g3 -> same_shape g1 g3.
Proof. unfold same_shape; intuition congruence. Qed.
Lemma same_shape_wf g g' : same_shape g g' -> wf g -> wf g'.
Proof. unfold same_shape, wf; intros (-> & -> & -> & -> & ->); auto. Qed.

(** setting cells functionally *)
Definition setc g (c : Z -> Z -> T) : grid T := mkGrid (xr g) (yr g) (xs g) (ys g) (os g) c.

Lemma rd_in g i j : 0 <= i < xr g -> 0 <= j < yr g -> rd g i j = Ok (cell g i j).
Proof. intros; unfold rd, inb. now replace (_ && _) with true by lia. Qed.
Lemma wr_in g i j v : 0 <= i < xr g -> 0 <= j < yr g -> wr g i j v = Ok (setc g (upd (cell g) i j v)).
Proof. intros; unfold wr, inb. now replace (_ && _) with true by lia. Qed.
Lemma rd_out g i j : ~ (0 <= i < xr g /\ 0 <= j < yr g) -> rd g i j = UB.
Proof. intros; unfold rd, inb. now replace (_ && _) with false by lia. Qed.
Lemma wr_out g i j v : ~ (0 <= i < xr g /\ 0 <= j < yr g) -> wr g i j v = UB.
Proof. intros; unfold wr, inb. now replace (_ && _) with false by lia. Qed.

Lemma upd_eq (c : Z -> Z -> T) i j v : upd c i j v i j = v.
Proof. unfold upd. now rewrite !Z.eqb_refl. Qed.
Lemma upd_ne (c : Z -> Z -> T) i j v p q : ~ (p = i /\ q = j) -> upd c i j v p q = c p q.
Proof. intros; unfold upd. now replace ((p =? i) && (q =? j)) with false by lia. Qed.

(** ** single cell accesses *)

(** the raw index addressed by logical coordinate [x], -os <= x < size + os, stored as [unsigned] *)
Lemma raw_index g x n : wf g -> n < 2 ^ 32 -> - os g <= x -> x + os g < n -> u32 (u32 x + os g) = x + os g.
Proof.
  intros (_ & _ & Ho & _) Hn H1 H2. unfold u32. rewrite Zplus_mod_idemp_l. apply Z.mod_small; lia.
Qed.

Lemma set_spec g x y v :
  wf g -> - os g <= x < xs g + os g -> - os g <= y < ys g + os g ->
  exists g', set g (u32 x) (u32 y) v = Ok g' /\ same_shape g g' /\
    cell g' (x + os g) (y + os g) = v /\
    forall i j, ~ (i = x + os g /\ j = y + os g) -> cell g' i j = cell g i j.
Proof.
  intros W Hx Hy. pose proof W as W'. destruct W' as (? & ? & ? & Ex & Ey & Lx & Ly).
  unfold set. rewrite (raw_index g x (xr g)) by (auto; lia). rewrite (raw_index g y (yr g)) by (auto; lia).
  rewrite wr_in by lia. eexists; split; [reflexivity|]. split; [repeat split|].
  cbn [cell setc]. split; [apply upd_eq|]. intros; now apply upd_ne.
Qed.

Lemma op_assign_spec op g x y v :
  wf g -> - os g <= x < xs g + os g -> - os g <= y < ys g + os g ->
  exists g', op_assign op g (u32 x) (u32 y) v = Ok g' /\ same_shape g g' /\
    cell g' (x + os g) (y + os g) = op (cell g (x + os g) (y + os g)) v /\
    forall i j, ~ (i = x + os g /\ j = y + os g) -> cell g' i j = cell g i j.
Proof.
  intros W Hx Hy. pose proof W as W'. destruct W' as (? & ? & ? & Ex & Ey & Lx & Ly).
  unfold op_assign. rewrite (raw_index g x (xr g)) by (auto; lia). rewrite (raw_index g y (yr g)) by (auto; lia).
  rewrite rd_in by lia. cbn [bind]. rewrite wr_in by lia. eexists; split; [reflexivity|]. split; [repeat split|].
  cbn [cell setc]. split; [apply upd_eq|]. intros; now apply upd_ne.
Qed.

Lemma get_spec g x y :
  wf g -> - os g <= x < xs g + os g -> - os g <= y < ys g + os g ->
  get g (u32 x) (u32 y) = Ok (cell g (x + os g) (y + os g)).
Proof.
  intros W Hx Hy. pose proof W as W'. destruct W' as (? & ? & ? & Ex & Ey & Lx & Ly).
  unfold get. rewrite (raw_index g x (xr g)) by (auto; lia). rewrite (raw_index g y (yr g)) by (auto; lia).
  now rewrite rd_in by lia.
Qed.

(** any coordinate given as an [unsigned] outside the valid window is an out-of-bounds access *)
Lemma window_out g x n : wf g -> 0 <= n -> n + 2 * os g < 2 ^ 31 ->
  - 2 ^ 31 <= x < 2 ^ 31 -> ~ (- os g <= x < n + os g) ->
  ~ (0 <= u32 (u32 x + os g) < n + 2 * os g).
Proof.
  intros (_ & _ & Ho & _) Hn Hb Hx Hout. unfold u32. rewrite Zplus_mod_idemp_l.
  assert (C : x < - os g \/ n + os g <= x) by lia. destruct C as [C|C].
  - rewrite <- (Z_mod_plus_full (x + os g) 1 (2 ^ 32)). rewrite Z.mod_small by lia. lia.
  - rewrite Z.mod_small by lia. lia.
Qed.

Lemma access_out g x y v op :
  wf g -> xr g < 2 ^ 31 -> yr g < 2 ^ 31 -> - 2 ^ 31 <= x < 2 ^ 31 -> - 2 ^ 31 <= y < 2 ^ 31 ->
  ~ (- os g <= x < xs g + os g /\ - os g <= y < ys g + os g) ->
  set g (u32 x) (u32 y) v = UB /\ op_assign op g (u32 x) (u32 y) v = UB /\ get g (u32 x) (u32 y) = UB.
Proof.
  intros W Hbx Hby Hx Hy Hout. pose proof W as W'. destruct W' as (? & ? & ? & Ex & Ey & Lx & Ly).
  assert (N : ~ (0 <= u32 (u32 x + os g) < xr g /\ 0 <= u32 (u32 y + os g) < yr g)).
  { intros [Nx Ny]. destruct (Z_le_dec (- os g) x) as [Lx1|Lx1]; [destruct (Z_lt_dec x (xs g + os g)) as [Lx2|Lx2]|].
    - eapply (window_out g y (ys g)); try assumption; lia.
    - eapply (window_out g x (xs g)); try assumption; lia.
    - eapply (window_out g x (xs g)); try assumption; lia. }
  unfold set, op_assign, get. rewrite wr_out by exact N. rewrite rd_out by exact N. auto.
Qed.

(** ** full-grid loops *)

(** a nested loop writing each visited cell at most once *)
Lemma nested_write g (X Y : Z) (P : Z -> Z -> bool) (val : Z -> Z -> T)
      (body : Z -> Z -> grid T -> outcome (grid T)) (ri rj : Z -> Z) :
  0 <= X -> 0 <= Y ->
  (forall i i', 0 <= i < X -> 0 <= i' < X -> ri i = ri i' -> i = i') ->
  (forall j j', 0 <= j < Y -> 0 <= j' < Y -> rj j = rj j' -> j = j') ->
  (forall i j g', 0 <= i < X -> 0 <= j < Y -> same_shape g g' ->
      cell g' (ri i) (rj j) = cell g (ri i) (rj j) ->
      exists g'', body i j g' = Ok g'' /\ same_shape g g'' /\
        (forall p q, cell g'' p q =
           if P i j then (if (p =? ri i) && (q =? rj j) then val i j else cell g' p q) else cell g' p q)) ->
  exists g', for_to 0 X (fun i => for_to 0 Y (body i)) g = Ok g' /\ same_shape g g' /\
    (forall i j, 0 <= i < X -> 0 <= j < Y -> P i j = true -> cell g' (ri i) (rj j) = val i j) /\
    (forall p q, (forall i j, 0 <= i < X -> 0 <= j < Y -> P i j = true -> ~ (p = ri i /\ q = rj j)) ->
        cell g' p q = cell g p q).
Proof.
  intros HX HY Hi Hj Hb.
  set (done := fun (i0 j0 i j : Z) => i < i0 \/ (i = i0 /\ j < j0)).
  set (I := fun i0 j0 (g' : grid T) => same_shape g g' /\
     (forall i j, 0 <= i < X -> 0 <= j < Y -> P i j = true -> done i0 j0 i j -> cell g' (ri i) (rj j) = val i j) /\
     (forall p q, (forall i j, 0 <= i < X -> 0 <= j < Y -> P i j = true -> done i0 j0 i j -> ~ (p = ri i /\ q = rj j)) ->
        cell g' p q = cell g p q)).
  destruct (for_inv (fun i0 => I i0 0) 0 X (fun i => for_to 0 Y (body i)) g HX) as (g' & E & HI).
  - unfold I, done. split; [apply same_shape_refl|]. split; [lia|]. reflexivity.
  - intros i0 g0 Hi0 HI0.
    destruct (for_inv (fun j0 => I i0 j0) 0 Y (body i0) g0 HY HI0) as (g1 & E1 & HI1).
    + intros j0 g1 Hj0 (Hs & Hv & Hf).
      destruct (Hb i0 j0 g1 Hi0 Hj0 Hs) as (g2 & E2 & Hs2 & Hc2).
      { apply Hf. intros i j Hir Hjr _ Hd [Ei Ej]. apply Hi in Ei; auto. apply Hj in Ej; auto.
        unfold done in Hd. lia. }
      exists g2; split; [exact E2|]. split; [exact Hs2|]. split.
      * intros i j Hir Hjr HP Hd. rewrite Hc2.
        destruct (Z.eq_dec i i0) as [->|Ni]; [destruct (Z.eq_dec j j0) as [->|Nj]|].
        -- rewrite HP, !Z.eqb_refl. reflexivity.
        -- assert (Hne : ~ (rj j = rj j0)) by (intro Ej; apply Hj in Ej; auto; lia).
           replace ((ri i0 =? ri i0) && (rj j =? rj j0)) with false by lia.
           rewrite Hv by (auto; unfold done in *; lia). now destruct (P i0 j0).
        -- assert (Hne : ~ (ri i = ri i0)) by (intro Ei; apply Hi in Ei; auto; lia).
           replace ((ri i =? ri i0) && (rj j =? rj j0)) with false by lia.
           rewrite Hv by (auto; unfold done in *; lia). now destruct (P i0 j0).
      * intros p q Hn. rewrite Hc2. rewrite Hf.
        2:{ intros i j Hir Hjr HP Hd. apply Hn; auto. unfold done in *; lia. }
        destruct (P i0 j0) eqn:EP; [|reflexivity].
        specialize (Hn i0 j0 Hi0 Hj0 EP ltac:(unfold done; lia)).
        replace ((p =? ri i0) && (q =? rj j0)) with false by lia. reflexivity.
    + exists g1; split; [exact E1|]. destruct HI1 as (Hs & Hv & Hf). split; [exact Hs|]. split.
      * intros i j Hir Hjr HP Hd. apply Hv; auto. unfold done in *; lia.
      * intros p q Hn. apply Hf. intros i j Hir Hjr HP Hd. apply Hn; auto. unfold done in *; lia.
  - exists g'; split; [exact E|]. destruct HI as (Hs & Hv & Hf). split; [exact Hs|]. split.
    + intros i j Hir Hjr HP. apply Hv; auto. unfold done; lia.
    + intros p q Hn. apply Hf. intros i j Hir Hjr HP Hd. now apply Hn.
Qed.

Lemma overlay_set_spec v g :
  wf g ->
  exists g', overlay_set v g = Ok g' /\ same_shape g g' /\
    forall i j, 0 <= i < xr g -> 0 <= j < yr g ->
      cell g' i j = if (os g <=? i) && (i <? xr g - os g) && (os g <=? j) && (j <? yr g - os g)
                    then cell g i j else v.
Proof.
  intros W. pose proof W as (? & ? & ? & Ex & Ey & Lx & Ly). unfold overlay_set.
  destruct (nested_write g (xr g) (yr g)
     (fun i j => (i <? os g) || (j <? os g) || (u32 (xr g - os g) <=? i) || (u32 (yr g - os g) <=? j))
     (fun _ _ => v)
     (fun i j g' => if (i <? os g) || (j <? os g) || (u32 (xr g - os g) <=? i) || (u32 (yr g - os g) <=? j)
                    then wr g' i j v else Ok g') (fun i => i) (fun j => j))
    as (g' & E & Hs & Hv & Hf); try lia.
  - intros i j g1 Hi Hj Hs _. pose proof Hs as (S1 & S2 & S3 & S4 & S5).
    destruct (_ || _) eqn:B.
    + rewrite wr_in by lia. eexists; split; [reflexivity|]. split.
      * unfold same_shape, setc; cbn; auto.
      * intros; reflexivity.
    + eexists; split; [reflexivity|]. split; [exact Hs|reflexivity].
  - exists g'; split; [exact E|]. split; [exact Hs|].
    intros i j Hi Hj.
    rewrite (u32_small (xr g - os g)) in * by lia. rewrite (u32_small (yr g - os g)) in * by lia.
    destruct (_ && _) eqn:B.
    + apply Hf. intros i' j' _ _ HP [-> ->]. lia.
    + apply (Hv i j); auto; lia.
Qed.

Lemma assign_all_spec v g :
  wf g ->
  exists g', assign_all v g = Ok g' /\ same_shape g g' /\
    forall i j, 0 <= i < xr g -> 0 <= j < yr g ->
      cell g' i j = if (os g <=? i) && (i <? xr g - os g) && (os g <=? j) && (j <? yr g - os g)
                    then v else cell g i j.
Proof.
  intros W. pose proof W as (? & ? & ? & Ex & Ey & Lx & Ly). unfold assign_all.
  destruct (nested_write g (xs g) (ys g) (fun _ _ => true) (fun _ _ => v)
     (fun i j g' => wr g' (u32 (i + os g)) (u32 (j + os g)) v) (fun i => i + os g) (fun j => j + os g))
    as (g' & E & Hs & Hv & Hf); try lia.
  - intros i j g1 Hi Hj Hs _. pose proof Hs as (S1 & S2 & S3 & S4 & S5).
    rewrite !u32_small by lia. rewrite wr_in by lia.
    eexists; split; [reflexivity|]. split; [unfold same_shape, setc; cbn; auto|]. intros; reflexivity.
  - exists g'; split; [exact E|]. split; [exact Hs|].
    intros i j Hi Hj. destruct (_ && _) eqn:B.
    + replace i with (i - os g + os g) by lia. replace j with (j - os g + os g) by lia.
      apply Hv; auto; lia.
    + apply Hf. intros i' j' ? ? _ [-> ->]. lia.
Qed.

Lemma op_all_spec op v g :
  wf g ->
  exists g', op_all op v g = Ok g' /\ same_shape g g' /\
    forall i j, 0 <= i < xr g -> 0 <= j < yr g ->
      cell g' i j = if (os g <=? i) && (i <? xr g - os g) && (os g <=? j) && (j <? yr g - os g)
                    then op (cell g i j) v else cell g i j.
Proof.
  intros W. pose proof W as (? & ? & ? & Ex & Ey & Lx & Ly). unfold op_all.
  destruct (nested_write g (xs g) (ys g) (fun _ _ => true)
     (fun i j => op (cell g (i + os g) (j + os g)) v)
     (fun i j g' => do old <- rd g' (u32 (i + os g)) (u32 (j + os g));
        wr g' (u32 (i + os g)) (u32 (j + os g)) (op old v)) (fun i => i + os g) (fun j => j + os g))
    as (g' & E & Hs & Hv & Hf); try lia.
  - intros i j g1 Hi Hj Hs Hold. pose proof Hs as (S1 & S2 & S3 & S4 & S5).
    rewrite !u32_small by lia. rewrite rd_in by lia. cbn [bind]. rewrite wr_in by lia. rewrite Hold.
    eexists; split; [reflexivity|]. split; [unfold same_shape, setc; cbn; auto|]. intros; reflexivity.
  - exists g'; split; [exact E|]. split; [exact Hs|].
    intros i j Hi Hj. destruct (_ && _) eqn:B.
    + replace i with (i - os g + os g) by lia. replace j with (j - os g + os g) by lia.
      apply Hv; auto; lia.
    + apply Hf. intros i' j' ? ? _ [-> ->]. lia.
Qed.

Lemma copy_spec rhs g :
  wf g -> wf rhs -> xr g = xr rhs -> yr g = yr rhs ->
  exists g', copy rhs g = Ok g' /\ same_shape g g' /\
    forall i j, 0 <= i < xr g -> 0 <= j < yr g -> cell g' i j = cell rhs i j.
Proof.
  intros W Wr E1 E2. pose proof W as (? & ? & ? & Ex & Ey & Lx & Ly). unfold copy.
  replace (_ && _) with true by lia.
  destruct (nested_write g (xr g) (yr g) (fun _ _ => true) (fun i j => cell rhs i j)
     (fun i j g' => do v <- rd rhs i j; wr g' i j v) (fun i => i) (fun j => j))
    as (g' & E & Hs & Hv & Hf); try lia.
  - intros i j g1 Hi Hj Hs Hold. pose proof Hs as (S1 & S2 & S3 & S4 & S5).
    rewrite rd_in by lia. cbn [bind]. rewrite wr_in by lia.
    eexists; split; [reflexivity|]. split; [unfold same_shape, setc; cbn; auto|]. intros; reflexivity.
  - exists g'; split; [exact E|]. split; [exact Hs|]. intros; apply Hv; auto.
Qed.

Lemma copy_fatal rhs g : ~ (xr g = xr rhs /\ yr g = yr rhs) -> copy rhs g = Fatal.
Proof. intros; unfold copy. now replace (_ && _) with false by lia. Qed.

(** ** stitching *)
Variable add : T -> T -> T.

Lemma acc_in g i j v : 0 <= i < xr g -> 0 <= j < yr g ->
  acc add g i j v = Ok (setc g (upd (cell g) i j (add (cell g i j) v))).
Proof. intros; unfold acc. rewrite rd_in by lia; cbn [bind]. now rewrite wr_in by lia. Qed.

(** specification of the shared strip: the value both grids must hold in shared column [k] (0 <= k < 2 os)
    of row [i], given the columns [ca k] and [cb k] before; for the first half the code computes [a + b],
    for the second half [b + a]. *)
Definition strip_sum (o k : Z) (va vb : T) : T := if k <? o then add va vb else add vb va.

Lemma overlay_y_body_eq d i a b :
  0 <= os a -> 0 <= d < os a -> 2 * os a <= yr a < 2 ^ 32 -> 2 * os a <= yr b ->
  0 <= i < xr a -> 0 <= i < xr b ->
  overlay_y_body add d i (a, b) =
  let o := os a in
  let s1 := add (cell a i (yr a - 2 * o + d)) (cell b i d) in
  let s2 := add (cell b i (2 * o - 1 - d)) (cell a i (yr a - 1 - d)) in
  Ok (setc a (upd (upd (cell a) i (yr a - 2 * o + d) s1) i (yr a - 1 - d) s2),
      setc b (upd (upd (cell b) i (2 * o - 1 - d) s2) i d s1)).
Proof.
  intros Ho Hd Hya Hyb Hia Hib. unfold overlay_y_body. cbv zeta.
  rewrite !u32_small by lia.
  rewrite rd_in by lia; cbn [bind].
  replace (2 * os a - d - 1) with (2 * os a - 1 - d) by lia.
  rewrite acc_in by lia; cbn [bind].
  rewrite rd_in by (cbn [setc xr yr]; lia); cbn [bind setc cell].
  rewrite upd_ne by lia.
  rewrite acc_in by lia; cbn [bind].
  rewrite rd_in by (cbn [setc xr yr]; lia); cbn [bind setc cell]. rewrite upd_eq.
  rewrite wr_in by (cbn [setc xr yr]; lia); cbn [bind].
  rewrite rd_in by (cbn [setc xr yr]; lia); cbn [bind setc cell].
  rewrite upd_ne by lia. rewrite upd_eq.
  rewrite wr_in by (cbn [setc xr yr]; lia); cbn [bind].
  unfold setc; cbn [xr yr xs ys os cell]. reflexivity.
Qed.

Lemma overlay_x_body_eq d i a b :
  0 <= os a -> 0 <= d < os a -> 2 * os a <= xr a < 2 ^ 32 -> 2 * os a <= xr b ->
  0 <= i < yr a -> 0 <= i < yr b ->
  overlay_x_body add d i (a, b) =
  let o := os a in
  let s1 := add (cell a (xr a - 2 * o + d) i) (cell b d i) in
  let s2 := add (cell b (2 * o - 1 - d) i) (cell a (xr a - 1 - d) i) in
  Ok (setc a (upd (upd (cell a) (xr a - 2 * o + d) i s1) (xr a - 1 - d) i s2),
      setc b (upd (upd (cell b) (2 * o - 1 - d) i s2) d i s1)).
Proof.
  intros Ho Hd Hya Hyb Hia Hib. unfold overlay_x_body. cbv zeta.
  rewrite !u32_small by lia.
  rewrite rd_in by lia; cbn [bind].
  replace (2 * os a - d - 1) with (2 * os a - 1 - d) by lia.
  rewrite acc_in by lia; cbn [bind].
  rewrite rd_in by (cbn [setc xr yr]; lia); cbn [bind setc cell].
  rewrite upd_ne by lia.
  rewrite acc_in by lia; cbn [bind].
  rewrite rd_in by (cbn [setc xr yr]; lia); cbn [bind setc cell]. rewrite upd_eq.
  rewrite wr_in by (cbn [setc xr yr]; lia); cbn [bind].
  rewrite rd_in by (cbn [setc xr yr]; lia); cbn [bind setc cell].
  rewrite upd_ne by lia. rewrite upd_eq.
  rewrite wr_in by (cbn [setc xr yr]; lia); cbn [bind].
  unfold setc; cbn [xr yr xs ys os cell]. reflexivity.
Qed.

(** which loop counter [d] treats strip column [k] *)
Definition dd (o k : Z) : Z := if k <? o then k else 2 * o - 1 - k.

Lemma overlay_y_spec a b :
  wf a -> wf b -> os b = os a -> xr a = xr b ->
  exists a' b', overlay_y add a b = Ok (a', b') /\ same_shape a a' /\ same_shape b b' /\
    (forall i k, os a <= i < xr a - os a -> 0 <= k < 2 * os a ->
        cell a' i (yr a - 2 * os a + k) =
          strip_sum (os a) k (cell a i (yr a - 2 * os a + k)) (cell b i k) /\
        cell b' i k = strip_sum (os a) k (cell a i (yr a - 2 * os a + k)) (cell b i k)) /\
    (forall i j, ~ (os a <= i < xr a - os a /\ yr a - 2 * os a <= j < yr a) -> cell a' i j = cell a i j) /\
    (forall i j, ~ (os a <= i < xr a - os a /\ 0 <= j < 2 * os a) -> cell b' i j = cell b i j).
Proof.
  intros Wa Wb Eo Ex.
  pose proof Wa as (? & ? & ? & Exa & Eya & Lxa & Lya).
  pose proof Wb as (? & ? & ? & Exb & Eyb & Lxb & Lyb).
  unfold overlay_y. rewrite Ex, Z.eqb_refl. rewrite <- Ex.
  rewrite (u32_small (xr a - os a)) by lia.
  set (o := os a) in *. set (X := xr a) in *. set (Y := yr a) in *.
  set (SS := fun i k => strip_sum o k (cell a i (Y - 2 * o + k)) (cell b i k)).
  set (pr := fun d i0 i k => o <= i < X - o /\ 0 <= k < 2 * o /\ (dd o k < d \/ (dd o k = d /\ i < i0))).
  set (I := fun d i0 (s : grid T * grid T) =>
     same_shape a (fst s) /\ same_shape b (snd s) /\
     (forall i k, pr d i0 i k -> cell (fst s) i (Y - 2 * o + k) = SS i k /\ cell (snd s) i k = SS i k) /\
     (forall i j, ~ pr d i0 i (j - (Y - 2 * o)) -> cell (fst s) i j = cell a i j) /\
     (forall i k, ~ pr d i0 i k -> cell (snd s) i k = cell b i k)).
  assert (HI : exists s', for_to 0 o (fun d => for_to o (X - o) (overlay_y_body add d)) (a, b) = Ok s' /\ I o o s').
  { apply (for_inv (fun d => I d o)); [lia| |].
    - unfold I, pr, dd; cbn [fst snd]. repeat split; try reflexivity; intros;
        exfalso; destruct (Z.ltb_spec k o); lia.
    - intros d s Hd HI0.
      destruct (for_inv (fun i0 => I d i0) o (X - o) (overlay_y_body add d) s ltac:(lia) HI0)
        as (s1 & E1 & HI1).
      + intros i0 [p q] Hi0 (Sa & Sb & Hv & Hfa & Hfb). cbn [fst snd] in *.
        pose proof Sa as (A1 & A2 & A3 & A4 & A5). pose proof Sb as (B1 & B2 & B3 & B4 & B5).
        fold o in A5. fold X in A1. fold Y in A2.
        rewrite overlay_y_body_eq by lia. cbv zeta. rewrite A5, A2.
        rewrite (Hfa i0 (Y - 2 * o + d)), (Hfa i0 (Y - 1 - d)), (Hfb i0 d), (Hfb i0 (2 * o - 1 - d)).
        2-5: unfold pr, dd; intros (_ & _ & [Hx|Hx]); revert Hx;
             match goal with |- context [Z.ltb ?u ?v] => destruct (Z.ltb_spec u v) end; lia.
        eexists; split; [reflexivity|]. unfold I; cbn [fst snd setc].
        split; [unfold same_shape, setc in *; cbn [xr yr xs ys os] in *; tauto|].
        split; [unfold same_shape, setc in *; cbn [xr yr xs ys os] in *; tauto|].
        unfold setc; cbn [cell].
        assert (S1 : add (cell a i0 (Y - 2 * o + d)) (cell b i0 d) = SS i0 d).
        { unfold SS, strip_sum. now replace (d <? o) with true by lia. }
        assert (S2 : add (cell b i0 (2 * o - 1 - d)) (cell a i0 (Y - 1 - d)) = SS i0 (2 * o - 1 - d)).
        { unfold SS, strip_sum. replace (2 * o - 1 - d <? o) with false by lia.
          now replace (Y - 2 * o + (2 * o - 1 - d)) with (Y - 1 - d) by lia. }
        rewrite S1, S2. clear S1 S2. clearbody SS.
        split; [|split].
        * intros i k Hp. split.
          -- unfold upd. destruct ((i =? i0) && (Y - 2 * o + k =? Y - 1 - d)) eqn:C1.
             ++ replace i0 with i by lia. f_equal; lia.
             ++ destruct ((i =? i0) && (Y - 2 * o + k =? Y - 2 * o + d)) eqn:C2.
                ** replace i0 with i by lia. f_equal; lia.
                ** apply Hv. unfold pr, dd in *. destruct (Z.ltb_spec k o); lia.
          -- unfold upd. destruct ((i =? i0) && (k =? d)) eqn:C1.
             ++ replace i0 with i by lia. f_equal; lia.
             ++ destruct ((i =? i0) && (k =? 2 * o - 1 - d)) eqn:C2.
                ** replace i0 with i by lia. f_equal; lia.
                ** apply Hv. unfold pr, dd in *. destruct (Z.ltb_spec k o); lia.
        * intros i j Hp. rewrite !upd_ne.
          -- apply Hfa. unfold pr in *. lia.
          -- intros [-> ->]. apply Hp. unfold pr, dd. destruct (Z.ltb_spec (Y - 2 * o + d - (Y - 2 * o)) o); lia.
          -- intros [-> ->]. apply Hp. unfold pr, dd. destruct (Z.ltb_spec (Y - 1 - d - (Y - 2 * o)) o); lia.
        * intros i k Hp. rewrite !upd_ne.
          -- apply Hfb. unfold pr in *. lia.
          -- intros [-> ->]. apply Hp. unfold pr, dd. destruct (Z.ltb_spec (2 * o - 1 - d) o); lia.
          -- intros [-> ->]. apply Hp. unfold pr, dd. destruct (Z.ltb_spec d o); lia.
      + exists s1; split; [exact E1|]. destruct HI1 as (Sa & Sb & Hv & Hfa & Hfb).
        split; [exact Sa|]. split; [exact Sb|]. split; [|split].
        * intros i k Hp. apply Hv. unfold pr in *; lia.
        * intros i j Hp. apply Hfa. unfold pr in *; lia.
        * intros i k Hp. apply Hfb. unfold pr in *; lia. }
  destruct HI as ([a' b'] & E & Sa & Sb & Hv & Hfa & Hfb). cbn [fst snd] in *.
  exists a', b'. split; [exact E|]. split; [exact Sa|]. split; [exact Sb|]. split; [|split].
  - intros i k Hi Hk. apply Hv. unfold pr, dd. destruct (Z.ltb_spec k o); lia.
  - intros i j Hn. apply Hfa. unfold pr. lia.
  - intros i j Hn. apply Hfb. unfold pr. lia.
Qed.

Lemma overlay_x_spec a b :
  wf a -> wf b -> os b = os a -> yr a = yr b ->
  exists a' b', overlay_x add a b = Ok (a', b') /\ same_shape a a' /\ same_shape b b' /\
    (forall i k, os a <= i < yr a - os a -> 0 <= k < 2 * os a ->
        cell a' (xr a - 2 * os a + k) i =
          strip_sum (os a) k (cell a (xr a - 2 * os a + k) i) (cell b k i) /\
        cell b' k i = strip_sum (os a) k (cell a (xr a - 2 * os a + k) i) (cell b k i)) /\
    (forall i j, ~ (os a <= i < yr a - os a /\ xr a - 2 * os a <= j < xr a) -> cell a' j i = cell a j i) /\
    (forall i j, ~ (os a <= i < yr a - os a /\ 0 <= j < 2 * os a) -> cell b' j i = cell b j i).
Proof.
  intros Wa Wb Eo Ex.
  pose proof Wa as (? & ? & ? & Exa & Eya & Lxa & Lya).
  pose proof Wb as (? & ? & ? & Exb & Eyb & Lxb & Lyb).
  unfold overlay_x. rewrite Ex, Z.eqb_refl. rewrite <- Ex.
  rewrite (u32_small (yr a - os a)) by lia.
  set (o := os a) in *. set (X := yr a) in *. set (Y := xr a) in *.
  set (SS := fun i k => strip_sum o k (cell a (Y - 2 * o + k) i) (cell b k i)).
  set (pr := fun d i0 i k => o <= i < X - o /\ 0 <= k < 2 * o /\ (dd o k < d \/ (dd o k = d /\ i < i0))).
  set (I := fun d i0 (s : grid T * grid T) =>
     same_shape a (fst s) /\ same_shape b (snd s) /\
     (forall i k, pr d i0 i k -> cell (fst s) (Y - 2 * o + k) i = SS i k /\ cell (snd s) k i = SS i k) /\
     (forall i j, ~ pr d i0 i (j - (Y - 2 * o)) -> cell (fst s) j i = cell a j i) /\
     (forall i k, ~ pr d i0 i k -> cell (snd s) k i = cell b k i)).
  assert (HI : exists s', for_to 0 o (fun d => for_to o (X - o) (overlay_x_body add d)) (a, b) = Ok s' /\ I o o s').
  { apply (for_inv (fun d => I d o)); [lia| |].
    - unfold I, pr, dd; cbn [fst snd]. repeat split; try reflexivity; intros;
        exfalso; destruct (Z.ltb_spec k o); lia.
    - intros d s Hd HI0.
      destruct (for_inv (fun i0 => I d i0) o (X - o) (overlay_x_body add d) s ltac:(lia) HI0)
        as (s1 & E1 & HI1).
      + intros i0 [p q] Hi0 (Sa & Sb & Hv & Hfa & Hfb). cbn [fst snd] in *.
        pose proof Sa as (A1 & A2 & A3 & A4 & A5). pose proof Sb as (B1 & B2 & B3 & B4 & B5).
        fold o in A5. fold Y in A1. fold X in A2.
        rewrite overlay_x_body_eq by lia. cbv zeta. rewrite A5, A1.
        rewrite (Hfa i0 (Y - 2 * o + d)), (Hfa i0 (Y - 1 - d)), (Hfb i0 d), (Hfb i0 (2 * o - 1 - d)).
        2-5: unfold pr, dd; intros (_ & _ & [Hx|Hx]); revert Hx;
             match goal with |- context [Z.ltb ?u ?v] => destruct (Z.ltb_spec u v) end; lia.
        eexists; split; [reflexivity|]. unfold I; cbn [fst snd setc].
        split; [unfold same_shape, setc in *; cbn [xr yr xs ys os] in *; tauto|].
        split; [unfold same_shape, setc in *; cbn [xr yr xs ys os] in *; tauto|].
        unfold setc; cbn [cell].
        assert (S1 : add (cell a (Y - 2 * o + d) i0) (cell b d i0) = SS i0 d).
        { unfold SS, strip_sum. now replace (d <? o) with true by lia. }
        assert (S2 : add (cell b (2 * o - 1 - d) i0) (cell a (Y - 1 - d) i0) = SS i0 (2 * o - 1 - d)).
        { unfold SS, strip_sum. replace (2 * o - 1 - d <? o) with false by lia.
          now replace (Y - 2 * o + (2 * o - 1 - d)) with (Y - 1 - d) by lia. }
        rewrite S1, S2. clear S1 S2. clearbody SS.
        split; [|split].
        * intros i k Hp. split.
          -- unfold upd. destruct ((Y - 2 * o + k =? Y - 1 - d) && (i =? i0)) eqn:C1.
             ++ replace i0 with i by lia. f_equal; lia.
             ++ destruct ((Y - 2 * o + k =? Y - 2 * o + d) && (i =? i0)) eqn:C2.
                ** replace i0 with i by lia. f_equal; lia.
                ** apply Hv. unfold pr, dd in *. destruct (Z.ltb_spec k o); lia.
          -- unfold upd. destruct ((k =? d) && (i =? i0)) eqn:C1.
             ++ replace i0 with i by lia. f_equal; lia.
             ++ destruct ((k =? 2 * o - 1 - d) && (i =? i0)) eqn:C2.
                ** replace i0 with i by lia. f_equal; lia.
                ** apply Hv. unfold pr, dd in *. destruct (Z.ltb_spec k o); lia.
        * intros i j Hp. rewrite !upd_ne.
          -- apply Hfa. unfold pr in *. lia.
          -- intros [-> ->]. apply Hp. unfold pr, dd. destruct (Z.ltb_spec (Y - 2 * o + d - (Y - 2 * o)) o); lia.
          -- intros [-> ->]. apply Hp. unfold pr, dd. destruct (Z.ltb_spec (Y - 1 - d - (Y - 2 * o)) o); lia.
        * intros i k Hp. rewrite !upd_ne.
          -- apply Hfb. unfold pr in *. lia.
          -- intros [-> ->]. apply Hp. unfold pr, dd. destruct (Z.ltb_spec (2 * o - 1 - d) o); lia.
          -- intros [-> ->]. apply Hp. unfold pr, dd. destruct (Z.ltb_spec d o); lia.
      + exists s1; split; [exact E1|]. destruct HI1 as (Sa & Sb & Hv & Hfa & Hfb).
        split; [exact Sa|]. split; [exact Sb|]. split; [|split].
        * intros i k Hp. apply Hv. unfold pr in *; lia.
        * intros i j Hp. apply Hfa. unfold pr in *; lia.
        * intros i k Hp. apply Hfb. unfold pr in *; lia. }
  destruct HI as ([a' b'] & E & Sa & Sb & Hv & Hfa & Hfb). cbn [fst snd] in *.
  exists a', b'. split; [exact E|]. split; [exact Sa|]. split; [exact Sb|]. split; [|split].
  - intros i k Hi Hk. apply Hv. unfold pr, dd. destruct (Z.ltb_spec k o); lia.
  - intros i j Hn. apply Hfa. unfold pr. lia.
  - intros i j Hn. apply Hfb. unfold pr. lia.
Qed.

Lemma overlay_y_mismatch a b : xr a <> xr b -> overlay_y add a b = Fatal.
Proof. intros; unfold overlay_y. now replace (xr a =? xr b) with false by lia. Qed.
Lemma overlay_x_mismatch a b : yr a <> yr b -> overlay_x add a b = Fatal.
Proof. intros; unfold overlay_x. now replace (yr a =? yr b) with false by lia. Qed.
Lemma overlay_xy_mismatch a b : ~ (xr a = xr b /\ yr a = yr b) -> overlay_xy add a b = Fatal.
Proof. intros; unfold overlay_xy. now replace (_ && _) with false by lia. Qed.

Lemma overlay_xy_body_eq d e a b :
  0 <= os a -> 0 <= d < os a -> 0 <= e < os a -> 2 * os a <= xr a < 2 ^ 32 -> yr a = xr a ->
  2 * os a <= xr b -> 2 * os a <= yr b ->
  overlay_xy_body add d e (a, b) =
  let o := os a in let X := xr a in
  let s1 := add (cell a (X - 2 * o + d) (X - 2 * o + e)) (cell b d e) in
  let s2 := add (cell b (2 * o - 1 - d) (2 * o - 1 - e)) (cell a (X - 1 - d) (X - 1 - e)) in
  Ok (setc a (upd (upd (cell a) (X - 2 * o + d) (X - 2 * o + e) s1) (X - 1 - d) (X - 1 - e) s2),
      setc b (upd (upd (cell b) (2 * o - 1 - d) (2 * o - 1 - e) s2) d e s1)).
Proof.
  intros Ho Hd He Hxa Hsq Hxb Hyb. unfold overlay_xy_body. cbv zeta. rewrite Hsq.
  rewrite !u32_small by lia.
  rewrite rd_in by lia; cbn [bind].
  replace (2 * os a - d - 1) with (2 * os a - 1 - d) by lia.
  replace (2 * os a - e - 1) with (2 * os a - 1 - e) by lia.
  rewrite acc_in by lia; cbn [bind].
  rewrite rd_in by (cbn [setc xr yr]; lia); cbn [bind setc cell].
  rewrite upd_ne by lia.
  rewrite acc_in by lia; cbn [bind].
  rewrite rd_in by (cbn [setc xr yr]; lia); cbn [bind setc cell]. rewrite upd_eq.
  rewrite wr_in by (cbn [setc xr yr]; lia); cbn [bind].
  rewrite rd_in by (cbn [setc xr yr]; lia); cbn [bind setc cell].
  rewrite upd_ne by lia. rewrite upd_eq.
  rewrite wr_in by (cbn [setc xr yr]; lia); cbn [bind].
  unfold setc; cbn [xr yr xs ys os cell]. reflexivity.
Qed.

(** the two diagonal quarters of the shared 2o x 2o corner block *)
Definition diag_block (o k l : Z) : Prop :=
  (0 <= k < o /\ 0 <= l < o) \/ (o <= k < 2 * o /\ o <= l < 2 * o).

Lemma overlay_xy_square a b :
  wf a -> wf b -> os b = os a -> yr a = xr a -> xr b = xr a -> yr b = yr a ->
  let sh := xr a - 2 * os a in
  exists a' b', overlay_xy add a b = Ok (a', b') /\ same_shape a a' /\ same_shape b b' /\
    (forall k l, diag_block (os a) k l ->
        cell a' (sh + k) (sh + l) = strip_sum (os a) k (cell a (sh + k) (sh + l)) (cell b k l) /\
        cell b' k l = strip_sum (os a) k (cell a (sh + k) (sh + l)) (cell b k l)) /\
    (forall i j, ~ diag_block (os a) (i - sh) (j - sh) -> cell a' i j = cell a i j) /\
    (forall k l, ~ diag_block (os a) k l -> cell b' k l = cell b k l).
Proof.
  intros Wa Wb Eo Esq Exb Eyb sh. subst sh.
  pose proof Wa as (? & ? & ? & Exa & Eya & Lxa & Lya).
  pose proof Wb as (? & ? & ? & Exb' & Eyb' & Lxb & Lyb).
  unfold overlay_xy. replace (_ && _) with true by lia.
  set (o := os a) in *. set (X := xr a) in *.
  set (SS := fun k l => strip_sum o k (cell a (X - 2 * o + k) (X - 2 * o + l)) (cell b k l)).
  set (pr := fun d e0 k l => diag_block o k l /\ (dd o k < d \/ (dd o k = d /\ dd o l < e0))).
  set (I := fun d e0 (s : grid T * grid T) =>
     same_shape a (fst s) /\ same_shape b (snd s) /\
     (forall k l, pr d e0 k l -> cell (fst s) (X - 2 * o + k) (X - 2 * o + l) = SS k l /\ cell (snd s) k l = SS k l) /\
     (forall i j, ~ pr d e0 (i - (X - 2 * o)) (j - (X - 2 * o)) -> cell (fst s) i j = cell a i j) /\
     (forall k l, ~ pr d e0 k l -> cell (snd s) k l = cell b k l)).
  assert (Hdd : forall k, (k < o -> dd o k = k) /\ (o <= k -> dd o k = 2 * o - 1 - k)).
  { intro k; unfold dd; destruct (Z.ltb_spec k o); split; lia. }
  assert (HI : exists s', for_to 0 o (fun d => for_to 0 o (overlay_xy_body add d)) (a, b) = Ok s' /\ I o 0 s').
  { apply (for_inv (fun d => I d 0)); [lia| |].
    - unfold I; cbn [fst snd]. split; [apply same_shape_refl|]. split; [apply same_shape_refl|].
      split; [|split; reflexivity].
      intros k l. pose proof (Hdd k); pose proof (Hdd l). unfold pr, diag_block. lia.
    - intros d s Hd HI0.
      destruct (for_inv (fun i0 => I d i0) 0 o (overlay_xy_body add d) s ltac:(lia) HI0)
        as (s1 & E1 & HI1).
      + intros e [p q] He (Sa & Sb & Hv & Hfa & Hfb). cbn [fst snd] in *.
        pose proof Sa as (A1 & A2 & A3 & A4 & A5). pose proof Sb as (B1 & B2 & B3 & B4 & B5).
        fold o in A5. fold X in A1.
        rewrite overlay_xy_body_eq by lia. cbv zeta. rewrite A5, A1.
        assert (Dd1 : dd o d = d) by (apply Hdd; lia). assert (De1 : dd o e = e) by (apply Hdd; lia).
        assert (Dd2 : dd o (2 * o - 1 - d) = d) by (rewrite (proj2 (Hdd _)); lia).
        assert (De2 : dd o (2 * o - 1 - e) = e) by (rewrite (proj2 (Hdd _)); lia).
        rewrite (Hfa (X - 2 * o + d) (X - 2 * o + e)), (Hfa (X - 1 - d) (X - 1 - e)), (Hfb d e),
          (Hfb (2 * o - 1 - d) (2 * o - 1 - e)).
        2: unfold pr; lia.
        2: unfold pr; lia.
        2: { replace (X - 1 - d - (X - 2 * o)) with (2 * o - 1 - d) by lia.
             replace (X - 1 - e - (X - 2 * o)) with (2 * o - 1 - e) by lia. unfold pr; lia. }
        2: { replace (X - 2 * o + d - (X - 2 * o)) with d by lia.
             replace (X - 2 * o + e - (X - 2 * o)) with e by lia. unfold pr; lia. }
        eexists; split; [reflexivity|]. unfold I; cbn [fst snd].
        split; [unfold same_shape, setc in *; cbn [xr yr xs ys os] in *; tauto|].
        split; [unfold same_shape, setc in *; cbn [xr yr xs ys os] in *; tauto|].
        unfold setc; cbn [cell].
        assert (S1 : add (cell a (X - 2 * o + d) (X - 2 * o + e)) (cell b d e) = SS d e).
        { unfold SS, strip_sum. now replace (d <? o) with true by lia. }
        assert (S2 : add (cell b (2 * o - 1 - d) (2 * o - 1 - e)) (cell a (X - 1 - d) (X - 1 - e))
                     = SS (2 * o - 1 - d) (2 * o - 1 - e)).
        { unfold SS, strip_sum. replace (2 * o - 1 - d <? o) with false by lia.
          replace (X - 2 * o + (2 * o - 1 - d)) with (X - 1 - d) by lia.
          now replace (X - 2 * o + (2 * o - 1 - e)) with (X - 1 - e) by lia. }
        rewrite S1, S2. clear S1 S2. clearbody SS.
        split; [|split].
        * intros k l Hp. split.
          -- unfold upd. destruct ((X - 2 * o + k =? X - 1 - d) && (X - 2 * o + l =? X - 1 - e)) eqn:C1.
             ++ f_equal; lia.
             ++ destruct ((X - 2 * o + k =? X - 2 * o + d) && (X - 2 * o + l =? X - 2 * o + e)) eqn:C2.
                ** f_equal; lia.
                ** apply Hv. pose proof (Hdd k); pose proof (Hdd l). unfold pr, diag_block in *. lia.
          -- unfold upd. destruct ((k =? d) && (l =? e)) eqn:C1.
             ++ f_equal; lia.
             ++ destruct ((k =? 2 * o - 1 - d) && (l =? 2 * o - 1 - e)) eqn:C2.
                ** f_equal; lia.
                ** apply Hv. pose proof (Hdd k); pose proof (Hdd l). unfold pr, diag_block in *. lia.
        * intros i j Hp. rewrite !upd_ne.
          -- apply Hfa. intros [Hq1 Hq2]. apply Hp. split; [exact Hq1|lia].
          -- intros [-> ->]. apply Hp. unfold pr, diag_block.
             replace (X - 2 * o + d - (X - 2 * o)) with d by lia.
             replace (X - 2 * o + e - (X - 2 * o)) with e by lia. lia.
          -- intros [-> ->]. apply Hp. unfold pr, diag_block.
             replace (X - 1 - d - (X - 2 * o)) with (2 * o - 1 - d) by lia.
             replace (X - 1 - e - (X - 2 * o)) with (2 * o - 1 - e) by lia. lia.
        * intros k l Hp. rewrite !upd_ne.
          -- apply Hfb. intros [Hq1 Hq2]. apply Hp. split; [exact Hq1|lia].
          -- intros [-> ->]. apply Hp. unfold pr, diag_block. lia.
          -- intros [-> ->]. apply Hp. unfold pr, diag_block. lia.
      + exists s1; split; [exact E1|]. destruct HI1 as (Sa & Sb & Hv & Hfa & Hfb).
        assert (Heq : forall k l, pr (d + 1) 0 k l <-> pr d o k l).
        { intros k l. pose proof (Hdd k); pose proof (Hdd l). unfold pr, diag_block. split; lia. }
        split; [exact Sa|]. split; [exact Sb|]. split; [|split].
        * intros k l Hp. apply Hv. now apply Heq.
        * intros i j Hp. apply Hfa. now rewrite <- Heq.
        * intros k l Hp. apply Hfb. now rewrite <- Heq. }
  destruct HI as ([a' b'] & E & Sa & Sb & Hv & Hfa & Hfb). cbn [fst snd] in *.
  assert (Heq : forall k l, pr o 0 k l <-> diag_block o k l).
  { intros k l. pose proof (Hdd k); pose proof (Hdd l). unfold pr, diag_block. split; lia. }
  exists a', b'. split; [exact E|]. split; [exact Sa|]. split; [exact Sb|]. split; [|split].
  - intros k l Hk. apply Hv. now apply Heq.
  - intros i j Hn. apply Hfa. now rewrite Heq.
  - intros k l Hn. apply Hfb. now rewrite Heq.
Qed.

Lemma rd_inv g i j v : rd g i j = Ok v -> 0 <= i < xr g /\ 0 <= j < yr g /\ v = cell g i j.
Proof.
  unfold rd, inb. destruct (_ && _) eqn:E; [|discriminate]. intros [= <-]. repeat split; lia.
Qed.
Lemma wr_inv g i j v g' : wr g i j v = Ok g' ->
  0 <= i < xr g /\ 0 <= j < yr g /\ g' = setc g (upd (cell g) i j v).
Proof.
  unfold wr, inb. destruct (_ && _) eqn:E; [|discriminate]. intros [= <-]. repeat split; lia.
Qed.

(** On a non-square pair the call either runs out of the allocated memory or leaves the outermost corner
    cell of the first grid as it was. *)
Lemma overlay_xy_nonsquare a b :
  wf a -> wf b -> os b = os a -> 1 <= os a -> xr b = xr a -> yr b = yr a -> xr a <> yr a ->
  overlay_xy add a b = UB \/
  exists a' b', overlay_xy add a b = Ok (a', b') /\ same_shape a a' /\
    cell a' (xr a - 1) (yr a - 1) = cell a (xr a - 1) (yr a - 1).
Proof.
  intros Wa Wb Eo Ho Exb Eyb Hne.
  pose proof Wa as (? & ? & ? & Exa & Eya & Lxa & Lya).
  pose proof Wb as (? & ? & ? & Exb' & Eyb' & Lxb & Lyb).
  unfold overlay_xy. replace (_ && _) with true by lia.
  set (J := fun s : grid T * grid T => same_shape a (fst s) /\ same_shape b (snd s) /\
     (xr a < yr a -> cell (fst s) (xr a - 1) (yr a - 1) = cell a (xr a - 1) (yr a - 1))).
  assert (Step : forall d e s, 0 <= d < os a -> 0 <= e < os a -> J s ->
     (exists s', overlay_xy_body add d e s = Ok s' /\ J s') \/ overlay_xy_body add d e s = UB).
  { intros d e [p q] Hd He (Sp & Sq & Hc). cbn [fst snd] in *.
    pose proof Sp as (A1 & A2 & A3 & A4 & A5). pose proof Sq as (B1 & B2 & B3 & B4 & B5).
    unfold overlay_xy_body, acc. rewrite !A1, !A2, !A5.
    rewrite !u32_small by lia.
    destruct (Z_lt_dec (xr a - 1 - e) (yr a)) as [L|L].
    2:{ right. rewrite rd_out by lia. reflexivity. }
    rewrite rd_in by lia; cbn [bind]. rewrite rd_in by lia; cbn [bind]. rewrite wr_in by lia; cbn [bind].
    rewrite rd_in by (unfold setc; cbn [xr yr]; lia); cbn [bind]. rewrite rd_in by lia; cbn [bind].
    rewrite wr_in by lia; cbn [bind].
    destruct (Z_lt_dec (yr a - 2 * os a + d) (xr a)) as [L2|L2].
    2:{ right. rewrite rd_out by (unfold setc; cbn [xr yr]; lia). reflexivity. }
    rewrite rd_in by (unfold setc; cbn [xr yr]; lia); cbn [bind].
    rewrite wr_in by (unfold setc; cbn [xr yr]; lia); cbn [bind].
    rewrite rd_in by (unfold setc; cbn [xr yr]; lia); cbn [bind].
    rewrite wr_in by (unfold setc; cbn [xr yr]; lia); cbn [bind].
    left. eexists; split; [reflexivity|]. unfold J, setc, same_shape in *; cbn [fst snd xr yr xs ys os cell].
    split; [tauto|]. split; [tauto|].
    intro Hlt. rewrite !upd_ne by lia. auto. }
  assert (R : forall n i s, J s -> 0 <= i -> i + Z.of_nat n <= os a ->
     loop n i (fun d => for_to 0 (os a) (overlay_xy_body add d)) s = UB \/
     exists s', loop n i (fun d => for_to 0 (os a) (overlay_xy_body add d)) s = Ok s' /\ J s').
  { induction n as [|n IH]; intros i s HJ Hi Hn; cbn [loop]; [right; eauto|].
    assert (R2 : forall m k t, J t -> 0 <= k -> k + Z.of_nat m <= os a ->
       loop m k (overlay_xy_body add i) t = UB \/ exists t', loop m k (overlay_xy_body add i) t = Ok t' /\ J t').
    { induction m as [|m IHm]; intros k t HJt Hk Hm; cbn [loop]; [right; eauto|].
      destruct (Step i k t ltac:(lia) ltac:(lia) HJt) as [(t' & E & HJ')|E]; rewrite E; cbn [bind]; [|now left].
      apply IHm; auto; lia. }
    unfold for_to at 1 3. destruct (R2 (Z.to_nat (os a - 0)) 0 s HJ) as [E|(t & E & HJt)]; try lia;
      rewrite E; cbn [bind]; [now left|]. apply IH; auto; lia. }
  assert (HJ0 : J (a, b)) by (unfold J; cbn [fst snd]; split; [apply same_shape_refl|split; [apply same_shape_refl|auto]]).
  destruct (Z_lt_dec (xr a) (yr a)) as [L|L].
  - unfold for_to at 1 3. destruct (R (Z.to_nat (os a - 0)) 0 (a, b) HJ0) as [E|([p q] & E & HJ)]; try lia.
    + left; exact E.
    + right. exists p, q. split; [exact E|]. destruct HJ as (Sp & _ & Hc). cbn [fst snd] in *. auto.
  - left. apply (for_ub (fun _ s => s = (a, b)) 0 (os a) 0); try lia; try reflexivity.
    intros s ->. apply (for_ub (fun _ s => s = (a, b)) 0 (os a) 0); try lia; try reflexivity.
    intros s ->. unfold overlay_xy_body. rewrite rd_out; [reflexivity|].
    rewrite !u32_small by lia. lia.
Qed.

End G.
