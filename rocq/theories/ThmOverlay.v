(** Theorems about the stitching pass over the domains: properties C10 - C12 and C61. *)
From Verif Require Import Base ListUtil GridModel GridProofs CollectorModel OverlayModel Interleave OverlayConc OverlaySum OverlayPass.
From Coq Require Import ZifyBool Permutation.

(** Test domains: 2 x 2 domains of 4 x 4 cells with overlay 2 (8 x 8 cells stored). *)
Definition tdom (f : Z -> Z -> Z -> Z -> Z) : doms (grid Z) := fun p => new_grid 4 4 2 (f (fst p) (snd p)).
Definition tdom3 (f : Z -> Z -> Z -> Z -> Z) : doms (grid3 Z) := fun p =>
  mkGrid3 (tdom f p) (tdom f p) (tdom f p).
Lemma tdom_uniform R C f : uniform R C 8 2 (tdom f).
Proof.
  intros i j _ _. unfold tdom. split; [apply new_grid_wf; lia|]. repeat split.
Qed.
Definition tval (i j r c : Z) : Z := 10000 * i + 1000 * j + 10 * r + c.

Lemma pass1_run1 T (add : T -> T -> T) R C m : pass1 add R C m = run1 add (pass_ops R C) m.
Proof. reflexivity. Qed.

(** * C10 *)

(** two iterations of one colour have no domain in common *)
Theorem C10_disjoint_footprints : forall R C idx idy p q,
  idx = 0 \/ idx = 1 -> idy = 0 \/ idy = 1 -> 0 <= R -> 0 <= C ->
  In p (colour (area2 R C) idx idy) -> In q (colour (area2 R C) idx idy) -> p <> q ->
  forall a b, In a (block_ops R C p) -> In b (block_ops R C q) ->
    src a <> src b /\ src a <> dst b /\ dst a <> src b /\ dst a <> dst b.
Proof.
  intros R C idx idy p q Hx Hy HR HC Hp Hq Hne a b Ha Hb.
  apply block_ops_foot in Ha as [A1 A2]. apply block_ops_foot in Hb as [B1 B2].
  pose proof (foot_disjoint R C idx idy p q Hx Hy HR HC Hp Hq Hne) as D.
  repeat split; intros E; rewrite E in *; (apply D in A1 || idtac); (apply D in A2 || idtac); congruence.
Qed.

(** the four colours together visit every domain *)
Theorem C10_colours_cover : forall R C i j, 0 <= R -> 0 <= C ->
  (In (i, j) (code_order (area2 R C)) <-> 0 <= i < R /\ 0 <= j < C).
Proof. intros. apply (CollectorProofs.code_order_In (area2 R C)); cbn; lia. Qed.

(** one colour: every interleaving of the assignments of its iterations succeeds exactly when the serial
    execution does, with the same grids.  The addition is arbitrary (in particular floating point). *)
Theorem C10_one_colour : forall T (add : T -> T -> T) R C idx idy (m : doms (grid3 T)) l,
  idx = 0 \/ idx = 1 -> idy = 0 \/ idy = 1 -> 0 <= R -> 0 <= C ->
  interleave (iterations add R C m idx idy) l ->
  (forall n, run3 add (colour_ops R C idx idy) m = Ok n -> exists m', run l m = Ok m' /\ forall p, m' p = n p) /\
  (forall m', run l m = Ok m' -> exists n, run3 add (colour_ops R C idx idy) m = Ok n /\ forall p, n p = m' p).
Proof. exact @colour_any_schedule. Qed.

(** the whole pass, the threads of each colour interleaved arbitrarily *)
Theorem C10_whole_pass : forall T (add : T -> T -> T) R C (m m' : doms (grid3 T)), 0 <= R -> 0 <= C ->
  pass_sched add R C m m' -> exists n, pass3 add R C m = Ok n /\ forall p, m' p = n p.
Proof. exact @pass_any_schedule. Qed.

Example C10_ex_two_iterations :
  colour (area2 3 3) 0 0 = [(0, 0); (0, 2); (2, 0); (2, 2)] /\
  block_ops 3 3 (0, 0) = [mkOp KX 0 0; mkOp KY 0 0; mkOp KXY 0 0].
Proof. split; reflexivity. Qed.
Example C10_ex_runs :
  match pass3 Z.add 3 3 (tdom3 tval) with
  | Ok n => cell (c_r (n (0, 0))) 3 7 = cell (c_r (n (0, 1))) 3 3
  | _ => False end.
Proof. vm_compute. reflexivity. Qed.

(** * C11 *)
Theorem C11_row_of_domains : forall T (add : T -> T -> T) C X o (Y : Z -> Z) (m : doms (grid T)),
  1 <= C -> 0 <= o -> (forall j, 0 <= j < C -> 4 * o <= Y j) -> row_of C X o Y m ->
  exists m', pass1 add 1 C m = Ok m' /\ shape_of m m' /\
    (forall j i k, 0 <= j < C - 1 -> o <= i < X - o -> 0 <= k < 2 * o ->
       let va := cell (m (0, j)) i (Y j - 2 * o + k) in let vb := cell (m (0, j + 1)) i k in
       let v := if k <? o then add va vb else add vb va in
       cell (m' (0, j)) i (Y j - 2 * o + k) = v /\ cell (m' (0, j + 1)) i k = v) /\
    (forall j i c, 0 <= j < C -> (0 < j -> 2 * o <= c) -> (j < C - 1 -> c < Y j - 2 * o) ->
       cell (m' (0, j)) i c = cell (m (0, j)) i c) /\
    (forall j i c, 0 <= j < C -> ~ o <= i < X - o -> cell (m' (0, j)) i c = cell (m (0, j)) i c).
Proof. intros T add C X o Y m HC Ho HY HM. exact (row_pass add C X o Y HC HY m (pass_ops 1 C) HM (Permutation_refl _)). Qed.
Theorem C11_column_of_domains : forall T (add : T -> T -> T) R Y o (X : Z -> Z) (m : doms (grid T)),
  1 <= R -> 0 <= o -> (forall i, 0 <= i < R -> 4 * o <= X i) -> column_of R Y o X m ->
  exists m', pass1 add R 1 m = Ok m' /\ shape_of m m' /\
    (forall i k j, 0 <= i < R - 1 -> o <= j < Y - o -> 0 <= k < 2 * o ->
       let va := cell (m (i, 0)) (X i - 2 * o + k) j in let vb := cell (m (i + 1, 0)) k j in
       let v := if k <? o then add va vb else add vb va in
       cell (m' (i, 0)) (X i - 2 * o + k) j = v /\ cell (m' (i + 1, 0)) k j = v) /\
    (forall i r c, 0 <= i < R -> (0 < i -> 2 * o <= r) -> (i < R - 1 -> r < X i - 2 * o) ->
       cell (m' (i, 0)) r c = cell (m (i, 0)) r c) /\
    (forall i r c, 0 <= i < R -> ~ o <= c < Y - o -> cell (m' (i, 0)) r c = cell (m (i, 0)) r c).
Proof. intros T add R Y o X m HR Ho HX HM. exact (column_pass add R Y o X HR HX m (pass_ops R 1) HM (Permutation_refl _)). Qed.
(** domains narrower than the shared strip: the middle one of three domains, two cells wide, shares columns
    with both neighbours and the first domain misses the deposit of the third *)
Definition narrow : doms (grid Z) := fun p => new_grid 4 2 2 (fun _ _ => if snd p =? 2 then 1 else 0).
Theorem C11_narrow_refuted : exists m' : doms (grid Z),
  pass1 Z.add 1 3 narrow = Ok m' /\
  cell (m' (0, 0)) 3 5 = 0 /\ cell (m' (0, 1)) 3 3 = 1.
Proof.
  destruct (pass1 Z.add 1 3 narrow) as [m'| |] eqn:E.
  - exists m'. split; [reflexivity|].
    assert (H : match pass1 Z.add 1 3 narrow with Ok m' => cell (m' (0, 0)) 3 5 = 0 /\ cell (m' (0, 1)) 3 3 = 1 | _ => False end)
      by (vm_compute; split; reflexivity).
    now rewrite E in H.
  - exfalso. assert (H : match pass1 Z.add 1 3 narrow with Fatal => False | _ => True end) by (vm_compute; exact I). now rewrite E in H.
  - exfalso. assert (H : match pass1 Z.add 1 3 narrow with UB => False | _ => True end) by (vm_compute; exact I). now rewrite E in H.
Qed.
Example C11_ex_hyps : row_of 3 8 2 (fun _ => 8) (tdom tval) /\ (forall j, 0 <= j < 3 -> 4 * 2 <= 8).
Proof. split; [|lia]. intros j _. unfold tdom. split; [apply new_grid_wf; lia|]. repeat split. Qed.
Example C11_ex :
  match pass1 Z.add 1 3 (tdom tval) with
  | Ok m' => cell (m' (0, 1)) 3 5 = tval 0 1 3 5 + tval 0 2 3 1 /\ cell (m' (0, 2)) 3 1 = cell (m' (0, 1)) 3 5
  | _ => False end.
Proof. vm_compute. repeat split; reflexivity. Qed.

(** * C12 *)

(** Specification: everything the domains stored for the physical cell that is the interior cell (r, c) (raw
    row and column) of domain (i, j) before the pass.  [rowdir]/[coldir] say on which side another domain
    stores the same row / column; [nb] is the value it stores. *)
Definition all_deposits {T} (add : T -> T -> T) (zero : T) R C n o (m : doms (grid T)) i j r c : T :=
  let di := rowdir R n o i r in let dj := coldir C n o j c in
  add (cell (m (i, j)) r c)
      (add (add (when zero (negb (di =? 0)) (nb n o m i j di 0 r c))
                (when zero (negb (dj =? 0)) (nb n o m i j 0 dj r c)))
           (when zero (negb (di =? 0) && negb (dj =? 0)) (nb n o m i j di dj r c))).
Definition antidiagonal_empty {T} (zero : T) R C n o (m : doms (grid T)) : Prop :=
  forall i j r c, 0 <= i < R -> 0 <= j < C -> interior n o r c ->
    let di := rowdir R n o i r in let dj := coldir C n o j c in
    di * dj = -1 -> nb n o m i j di dj r c = zero.

(** Exact description of one pass, calls executed in any order: every interior cell gets its own deposit, those
    of the row neighbour and of the column neighbour, and that of the diagonal neighbour only when it lies on
    the main diagonal direction. *)
Theorem C12_interior_after_pass_partial : forall T (add : T -> T -> T) (zero : T) R C n o (m : doms (grid T)) l,
  (forall x y, add x y = add y x) -> (forall x y z, add x (add y z) = add (add x y) z) -> (forall x, add x zero = x) ->
  0 <= R -> 0 <= C -> 0 <= o -> 4 * o <= n -> n < 2 ^ 32 ->
  uniform R C n o m -> Permutation l (pass_ops R C) ->
  exists m', run1 add l m = Ok m' /\ shape_of m m' /\
    forall i j r c, 0 <= i < R -> 0 <= j < C -> interior n o r c ->
      let di := rowdir R n o i r in let dj := coldir C n o j c in
      cell (m' (i, j)) r c =
      add (cell (m (i, j)) r c)
        (add (add (when zero (negb (di =? 0)) (nb n o m i j di 0 r c))
                  (when zero (negb (dj =? 0)) (nb n o m i j 0 dj r c)))
             (when zero (negb (di =? 0) && (di =? dj)) (nb n o m i j di dj r c))).
Proof.
  intros T add zero R C n o m l H1 H2 H3 HR HC Ho Hn4 Hn U Pl.
  exact (pass_interior add zero H1 H2 H3 R C n o HR HC Hn4 m l U Pl).
Qed.

(** hence the pass delivers everything when the anti-diagonal ghost corners hold no deposit; for the
    three-component grids of the program, in the order of the code *)
Theorem C12_all_delivered_partial : forall T (add : T -> T -> T) (zero : T) R C n o (m : doms (grid3 T)),
  (forall x y, add x y = add y x) -> (forall x y z, add x (add y z) = add (add x y) z) -> (forall x, add x zero = x) ->
  0 <= R -> 0 <= C -> 0 <= o -> 4 * o <= n -> n < 2 ^ 32 ->
  (forall c, uniform R C n o (comp_of c m)) ->
  (forall c, antidiagonal_empty zero R C n o (comp_of c m)) ->
  exists m', pass3 add R C m = Ok m' /\
    forall k i j r c, 0 <= i < R -> 0 <= j < C -> interior n o r c ->
      cell (getc k (m' (i, j))) r c = all_deposits add zero R C n o (comp_of k m) i j r c.
Proof.
  intros T add zero R C n o m H1 H2 H3 HR HC Ho Hn4 Hn U A.
  destruct (run3_comps add (pass_ops R C) m) as (m' & E & Hc).
  { intros c q Hq. apply In_pass_ops in Hq; auto. now apply (valid_fits R C n o). }
  exists m'. split; [exact E|]. intros k i j r c Hi Hj I. destruct (Hc k) as (mc & Ec & Hp).
  destruct (pass_interior add zero H1 H2 H3 R C n o HR HC Hn4 (comp_of k m) (pass_ops R C) (U k) (Permutation_refl _))
    as (mc' & Ec' & _ & V).
  rewrite Ec in Ec'. injection Ec' as <-.
  change (getc k (m' (i, j))) with (comp_of k m' (i, j)). rewrite <- Hp, V by assumption.
  unfold all_deposits. f_equal. f_equal.
  specialize (A k i j r c Hi Hj I). cbv zeta in A.
  assert (RD : rowdir R n o i r = -1 \/ rowdir R n o i r = 0 \/ rowdir R n o i r = 1)
    by (unfold rowdir; repeat match goal with |- context [if ?b then _ else _] => destruct b end; auto).
  assert (CD : coldir C n o j c = -1 \/ coldir C n o j c = 0 \/ coldir C n o j c = 1)
    by (unfold coldir; repeat match goal with |- context [if ?b then _ else _] => destruct b end; auto).
  revert A. destruct RD as [-> | [-> | ->]], CD as [-> | [-> | ->]]; cbn [negb andb Z.eqb Pos.eqb when]; intros A; try reflexivity;
    symmetry; apply A; reflexivity.
Qed.

(** the deposit that is lost: domain (1, 0) has one unit in a ghost corner that belongs to cell (3, 0) of
    domain (0, 1); after the pass that domain holds nothing *)
Definition lost : doms (grid Z) := tdom (fun i j r c => if (i =? 1) && (j =? 0) && (r =? 1) && (c =? 6) then 1 else 0).
Theorem C12_antidiagonal_refuted : exists m' : doms (grid Z),
  uniform 2 2 8 2 lost /\ pass1 Z.add 2 2 lost = Ok m' /\ interior 8 2 5 2 /\
  all_deposits Z.add 0 2 2 8 2 lost 0 1 5 2 = 1 /\ cell (m' (0, 1)) 5 2 = 0.
Proof.
  destruct (pass_interior Z.add 0 Z.add_comm Z.add_assoc Z.add_0_r 2 2 8 2 ltac:(lia) ltac:(lia) ltac:(lia) lost
    (pass_ops 2 2) (tdom_uniform 2 2 _) (Permutation_refl _)) as (m' & E & _ & V).
  exists m'. split; [apply tdom_uniform|]. split; [rewrite pass1_run1; exact E|]. split; [unfold interior; lia|]. split; [vm_compute; reflexivity|].
  rewrite V; [vm_compute; reflexivity|lia|lia|unfold interior; lia].
Qed.
Example C12_ex_hyps : forall c, uniform 2 3 8 2 (comp_of c (tdom3 tval)) /\
  antidiagonal_empty 0 2 2 8 2 (tdom (fun i j r c => if (r =? 7) && (c =? 7) then 1 else 0)).
Proof.
  intros c. split; [destruct c; apply tdom_uniform|].
  intros i j r c' Hi Hj [I1 I2]. unfold rowdir, coldir, nb, tdom, new_grid; cbn [cell fst snd].
  repeat match goal with |- context [if ?b then _ else _] => destruct b eqn:? end; lia.
Qed.
(** the main-diagonal corner does arrive *)
Example C12_ex_diagonal :
  match pass1 Z.add 2 2 (tdom (fun i j r c => if (i =? 0) && (j =? 0) && (r =? 6) && (c =? 7) then 1 else 0)) with
  | Ok m' => cell (m' (1, 1)) 2 3 = 1 | _ => False end.
Proof. vm_compute. reflexivity. Qed.

(** * C61 *)
Theorem C61_halo_refresh : forall T (add : T -> T -> T) (zero : T) R C n o (m : doms (grid T)) l,
  (forall x y, add x y = add y x) -> (forall x y z, add x (add y z) = add (add x y) z) -> (forall x, add x zero = x) ->
  0 <= R -> 0 <= C -> 0 <= o -> 4 * o <= n -> n < 2 ^ 32 ->
  uniform R C n o m -> ghosts_zero zero R C n o m -> Permutation l (pass_ops R C) ->
  exists m', run1 add l m = Ok m' /\ shape_of m m' /\
    (forall i j r c, 0 <= i < R -> 0 <= j < C -> interior n o r c -> cell (m' (i, j)) r c = cell (m (i, j)) r c) /\
    (forall i j g c, 0 <= i < R - 1 -> 0 <= j < C -> o <= c < n - o -> 0 <= g < o ->
       cell (m' (i, j)) (n - o + g) c = cell (m (i + 1, j)) (o + g) c /\
       cell (m' (i + 1, j)) g c = cell (m (i, j)) (n - 2 * o + g) c) /\
    (forall i j r g, 0 <= i < R -> 0 <= j < C - 1 -> o <= r < n - o -> 0 <= g < o ->
       cell (m' (i, j)) r (n - o + g) = cell (m (i, j + 1)) r (o + g) /\
       cell (m' (i, j + 1)) r g = cell (m (i, j)) r (n - 2 * o + g)).
Proof.
  intros T add zero R C n o m l H1 H2 H3 HR HC Ho Hn4 Hn U G Pl.
  eapply halo_refresh; eauto.
Qed.
(** [overlay_set(0)], run on every domain before the field update, establishes the hypothesis *)
Theorem C61_overlay_set_establishes : forall T (zero : T) R C n o (m m0 : doms (grid T)),
  uniform R C n o m -> (forall i j, 0 <= i < R -> 0 <= j < C -> overlay_set zero (m (i, j)) = Ok (m0 (i, j))) ->
  uniform R C n o m0 /\ ghosts_zero zero R C n o m0 /\
  forall i j r c, 0 <= i < R -> 0 <= j < C -> interior n o r c -> cell (m0 (i, j)) r c = cell (m (i, j)) r c.
Proof.
  intros T zero R C n o m m0 U H.
  assert (K : forall i j, 0 <= i < R -> 0 <= j < C ->
    (wf (m0 (i, j)) /\ os (m0 (i, j)) = o /\ xr (m0 (i, j)) = n /\ yr (m0 (i, j)) = n) /\
    forall r c, 0 <= r < n -> 0 <= c < n ->
      cell (m0 (i, j)) r c = if (o <=? r) && (r <? n - o) && (o <=? c) && (c <? n - o) then cell (m (i, j)) r c else zero).
  { intros i j Hi Hj. destruct (U i j Hi Hj) as (W & Eo & Ex & Ey).
    destruct (overlay_set_spec zero (m (i, j)) W) as (g & E & S & V). rewrite (H i j Hi Hj) in E. injection E as ->.
    pose proof S as (S1 & S2 & S3 & S4 & S5). split.
    - split; [eapply same_shape_wf; eauto|]. split; [congruence|]. split; congruence.
    - intros r c Hr Hc. rewrite V by lia. rewrite Eo, Ex, Ey. reflexivity. }
  split; [intros i j Hi Hj; apply (K i j Hi Hj)|]. split.
  - intros i j r c Hi Hj Hr Hc NI. destruct (K i j Hi Hj) as [_ K2]. rewrite K2 by assumption.
    unfold interior in NI. now replace (_ && _) with false by lia.
  - intros i j r c Hi Hj [I1 I2]. destruct (K i j Hi Hj) as [(W & Eo & Ex & Ey) K2].
    destruct W as (? & ? & ? & ? & ? & ? & ?).
    rewrite K2 by lia. now replace (_ && _) with true by lia.
Qed.
Definition inner (i j r c : Z) : Z := if (2 <=? r) && (r <? 6) && (2 <=? c) && (c <? 6) then tval i j r c else 0.
Example C61_ex_hyps : uniform 2 2 8 2 (tdom inner) /\ ghosts_zero 0 2 2 8 2 (tdom inner).
Proof.
  split; [apply tdom_uniform|]. intros i j r c _ _ _ _ NI. unfold tdom, new_grid, inner; cbn [cell fst snd].
  unfold interior in NI. now replace (_ && _) with false by lia.
Qed.
Example C61_ex_run :
  match pass1 Z.add 2 2 (tdom inner) with
  | Ok m' => cell (m' (0, 1)) 6 3 = tval 1 1 2 3 /\ cell (m' (0, 1)) 3 3 = tval 0 1 3 3 /\ cell (m' (1, 0)) 1 6 = 0
  | _ => False end.
Proof. vm_compute. repeat split; reflexivity. Qed.

Print Assumptions C10_disjoint_footprints.
Print Assumptions C10_one_colour.
Print Assumptions C10_whole_pass.
Print Assumptions C11_row_of_domains.
Print Assumptions C11_column_of_domains.
Print Assumptions C11_narrow_refuted.
Print Assumptions C12_interior_after_pass_partial.
Print Assumptions C12_all_delivered_partial.
Print Assumptions C12_antidiagonal_refuted.
Print Assumptions C61_halo_refresh.
Print Assumptions C61_overlay_set_establishes.
