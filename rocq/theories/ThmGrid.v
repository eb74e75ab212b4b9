(** Theorems about [Grid<T>]: properties C01 - C04.  Each theorem is followed by an example showing that its
    hypotheses can be met by a non-trivial grid. *)
From Verif Require Import Base GridModel GridProofs GridExtra.
From Coq Require Import ZifyBool.

(** Test grid: 3 x 4 interior cells, overlay 2, cell (i, j) holds 100 i + j. *)
Definition tg (c : Z) : grid Z := new_grid 3 4 2 (fun i j => c + 100 * i + j).
Example tg_wf c : wf (tg c).
Proof. apply new_grid_wf; lia. Qed.

(** * C01 *)
Theorem C01_set_frame : forall T (g : grid T) x y v,
  wf g -> - os g <= x < xs g + os g -> - os g <= y < ys g + os g ->
  exists g', set g (u32 x) (u32 y) v = Ok g' /\ same_shape g g' /\
    get g' (u32 x) (u32 y) = Ok v /\
    forall x' y', - os g <= x' < xs g + os g -> - os g <= y' < ys g + os g -> (x', y') <> (x, y) ->
      get g' (u32 x') (u32 y') = get g (u32 x') (u32 y').
Proof.
  intros T g x y v W Hx Hy. destruct (set_spec g x y v W Hx Hy) as (g' & E & Hs & Hv & Hf).
  exists g'. split; [exact E|]. split; [exact Hs|].
  assert (W' : wf g') by (eapply same_shape_wf; eauto). pose proof Hs as (S1 & S2 & S3 & S4 & S5).
  split.
  - rewrite get_spec by (auto; lia). rewrite S5. now f_equal.
  - intros x' y' Hx' Hy' Hne. rewrite !get_spec by (auto; lia). rewrite S5. f_equal. apply Hf.
    intros [? ?]. apply Hne. f_equal; lia.
Qed.
Theorem C01_op_assign_frame : forall T (op : T -> T -> T) (g : grid T) x y v,
  wf g -> - os g <= x < xs g + os g -> - os g <= y < ys g + os g ->
  exists g' old, get g (u32 x) (u32 y) = Ok old /\ op_assign op g (u32 x) (u32 y) v = Ok g' /\ same_shape g g' /\
    get g' (u32 x) (u32 y) = Ok (op old v) /\
    forall x' y', - os g <= x' < xs g + os g -> - os g <= y' < ys g + os g -> (x', y') <> (x, y) ->
      get g' (u32 x') (u32 y') = get g (u32 x') (u32 y').
Proof.
  intros T op g x y v W Hx Hy. destruct (op_assign_spec op g x y v W Hx Hy) as (g' & E & Hs & Hv & Hf).
  exists g', (cell g (x + os g) (y + os g)). split; [now apply get_spec|]. split; [exact E|]. split; [exact Hs|].
  assert (W' : wf g') by (eapply same_shape_wf; eauto). pose proof Hs as (S1 & S2 & S3 & S4 & S5).
  split.
  - rewrite get_spec by (auto; lia). rewrite S5. now f_equal.
  - intros x' y' Hx' Hy' Hne. rewrite !get_spec by (auto; lia). rewrite S5. f_equal. apply Hf.
    intros [? ?]. apply Hne. f_equal; lia.
Qed.
(** coordinates outside the window: out-of-bounds access (sizes representable in [int]) *)
Theorem C01_out_of_window_is_ub : forall T (op : T -> T -> T) (g : grid T) x y v,
  wf g -> xr g < 2 ^ 31 -> yr g < 2 ^ 31 -> - 2 ^ 31 <= x < 2 ^ 31 -> - 2 ^ 31 <= y < 2 ^ 31 ->
  ~ (- os g <= x < xs g + os g /\ - os g <= y < ys g + os g) ->
  set g (u32 x) (u32 y) v = UB /\ op_assign op g (u32 x) (u32 y) v = UB /\ get g (u32 x) (u32 y) = UB.
Proof. intros; now apply access_out. Qed.
(** any history of writes *)
Theorem C01_history : forall T (l : list (access T)) (g : grid T),
  wf g -> Forall (fun c => in_window g (ax c) (ay c)) l ->
  exists g', run_accesses l g = Ok g' /\
    forall x y, in_window g x y -> exists v0, get g (u32 x) (u32 y) = Ok v0 /\
      get g' (u32 x) (u32 y) = Ok (replay l x y v0).
Proof.
  intros T l g W Hl. destruct (run_accesses_spec l g W Hl) as (g' & E & Hs & Hc). exists g'. split; [exact E|].
  intros x y [Hx Hy]. assert (W' : wf g') by (eapply same_shape_wf; eauto). pose proof Hs as (S1 & S2 & S3 & S4 & S5).
  exists (cell g (x + os g) (y + os g)). split; [now apply get_spec|].
  rewrite get_spec by (auto; lia). rewrite S5. f_equal. apply Hc.
Qed.
Example C01_ex_ghost :
  match set (tg 0) (u32 (-2)) (u32 5) 7 with Ok g' => cell g' 0 7 = 7 /\ cell g' 0 6 = 6 | _ => False end.
Proof. vm_compute. split; reflexivity. Qed.
Example C01_ex_ub : set (tg 0) (u32 (-3)) (u32 0) 7 = UB.
Proof. vm_compute. reflexivity. Qed.

(** * C02 *)
Theorem C02_overlay_y : forall T (add : T -> T -> T) (a b : grid T),
  wf a -> wf b -> os b = os a -> xr a = xr b ->
  exists a' b', overlay_y add a b = Ok (a', b') /\ same_shape a a' /\ same_shape b b' /\
    (forall i k, os a <= i < xr a - os a -> 0 <= k < 2 * os a ->
        let va := cell a i (yr a - 2 * os a + k) in let vb := cell b i k in
        cell a' i (yr a - 2 * os a + k) = cell b' i k /\
        cell b' i k = if k <? os a then add va vb else add vb va) /\
    (forall i j, ~ (os a <= i < xr a - os a /\ yr a - 2 * os a <= j < yr a) -> cell a' i j = cell a i j) /\
    (forall i j, ~ (os a <= i < xr a - os a /\ 0 <= j < 2 * os a) -> cell b' i j = cell b i j).
Proof.
  intros T add a b Wa Wb Ho Hx. destruct (overlay_y_spec add a b Wa Wb Ho Hx) as (a' & b' & E & Sa & Sb & Hv & Fa & Fb).
  exists a', b'. repeat (split; [assumption|]). split; [|now split].
  intros i k Hi Hk. destruct (Hv i k Hi Hk) as [H1 H2]. split; [congruence|exact H2].
Qed.
Theorem C02_overlay_x : forall T (add : T -> T -> T) (a b : grid T),
  wf a -> wf b -> os b = os a -> yr a = yr b ->
  exists a' b', overlay_x add a b = Ok (a', b') /\ same_shape a a' /\ same_shape b b' /\
    (forall i k, os a <= i < yr a - os a -> 0 <= k < 2 * os a ->
        let va := cell a (xr a - 2 * os a + k) i in let vb := cell b k i in
        cell a' (xr a - 2 * os a + k) i = cell b' k i /\
        cell b' k i = if k <? os a then add va vb else add vb va) /\
    (forall i j, ~ (os a <= i < yr a - os a /\ xr a - 2 * os a <= j < xr a) -> cell a' j i = cell a j i) /\
    (forall i j, ~ (os a <= i < yr a - os a /\ 0 <= j < 2 * os a) -> cell b' j i = cell b j i).
Proof.
  intros T add a b Wa Wb Ho Hx. destruct (overlay_x_spec add a b Wa Wb Ho Hx) as (a' & b' & E & Sa & Sb & Hv & Fa & Fb).
  exists a', b'. repeat (split; [assumption|]). split; [|now split].
  intros i k Hi Hk. destruct (Hv i k Hi Hk) as [H1 H2]. split; [congruence|exact H2].
Qed.
Theorem C02_mismatch_fatal : forall T (add : T -> T -> T) (a b : grid T),
  (xr a <> xr b -> overlay_y add a b = Fatal) /\ (yr a <> yr b -> overlay_x add a b = Fatal) /\
  (~ (xr a = xr b /\ yr a = yr b) -> overlay_xy add a b = Fatal).
Proof.
  intros; split; [apply overlay_y_mismatch|]. split; [apply overlay_x_mismatch|apply overlay_xy_mismatch].
Qed.
(** the guard looks at one extent only: grids of different length are accepted by overlay_y when their row
    counts agree (hypotheses of [C02_overlay_y] do not mention [yr]) *)
Theorem C02_overlay_y_length_unchecked : forall T (add : T -> T -> T) (a b : grid T),
  wf a -> wf b -> os b = os a -> xr a = xr b -> yr a <> yr b -> overlay_y add a b <> Fatal.
Proof.
  intros T add a b Wa Wb Ho Hx _. destruct (overlay_y_spec add a b Wa Wb Ho Hx) as (a' & b' & E & _).
  rewrite E; discriminate.
Qed.
Example C02_ex :
  match overlay_y Z.add (tg 0) (tg 10000) with
  | Ok (a', b') => cell a' 3 5 = 10606 /\ cell b' 3 1 = 10606 /\ cell a' 3 3 = 303 /\ cell a' 1 5 = 105
  | _ => False end.
Proof. vm_compute. repeat split; reflexivity. Qed.

(** * C03 *)
Theorem C03_overlay_xy_square_partial : forall T (add : T -> T -> T) (a b : grid T),
  wf a -> wf b -> os b = os a -> xr b = xr a -> yr b = yr a ->
  yr a = xr a ->           (* the part of "every grid size" for which the property holds *)
  let o := os a in let sh := xr a - 2 * o in
  exists a' b', overlay_xy add a b = Ok (a', b') /\ same_shape a a' /\ same_shape b b' /\
    (forall k l, (0 <= k < o /\ 0 <= l < o) \/ (o <= k < 2 * o /\ o <= l < 2 * o) ->
        let va := cell a (sh + k) (sh + l) in let vb := cell b k l in
        cell a' (sh + k) (sh + l) = cell b' k l /\
        cell b' k l = if k <? o then add va vb else add vb va) /\
    (forall i j, ~ diag_block o (i - sh) (j - sh) -> cell a' i j = cell a i j) /\
    (forall k l, ~ diag_block o k l -> cell b' k l = cell b k l).
Proof.
  intros T add a b Wa Wb Ho Hx Hy Hsq o sh.
  destruct (overlay_xy_square add a b Wa Wb Ho Hsq Hx Hy) as (a' & b' & E & Sa & Sb & Hv & Fa & Fb).
  exists a', b'. repeat (split; [assumption|]). split; [|now split].
  intros k l Hkl. destruct (Hv k l Hkl) as [H1 H2]. split; [unfold sh, o; congruence|exact H2].
Qed.
Theorem C03_overlay_xy_refuted : exists a b : grid Z,
  wf a /\ wf b /\ os b = os a /\ xr b = xr a /\ yr b = yr a /\ overlay_xy Z.add a b = UB.
Proof.
  exists (new_grid 4 3 2 (fun i j => 1)), (new_grid 4 3 2 (fun i j => 2)).
  split; [apply new_grid_wf; lia|]. split; [apply new_grid_wf; lia|]. repeat split; vm_compute; reflexivity.
Qed.
(** in fact no non-square pair is handled as specified: out-of-bounds access, or the outermost corner cell of
    [a] is not updated at all *)
Theorem C03_nonsquare_never_right : forall T (add : T -> T -> T) (a b : grid T),
  wf a -> wf b -> os b = os a -> 1 <= os a -> xr b = xr a -> yr b = yr a -> xr a <> yr a ->
  overlay_xy add a b = UB \/
  exists a' b', overlay_xy add a b = Ok (a', b') /\ same_shape a a' /\
    cell a' (xr a - 1) (yr a - 1) = cell a (xr a - 1) (yr a - 1).
Proof. intros; now apply overlay_xy_nonsquare. Qed.
Example C03_ex_square :
  match overlay_xy Z.add (new_grid 3 3 2 (fun i j => 10 * i + j)) (new_grid 3 3 2 (fun i j => 1000 + 10 * i + j)) with
  | Ok (a', b') => cell a' 3 4 = 34 + 1001 /\ cell b' 0 1 = 34 + 1001 /\ cell a' 3 5 = 35
  | _ => False end.
Proof. vm_compute. repeat split; reflexivity. Qed.
Example C03_ex_silent :
  match overlay_xy Z.add (new_grid 3 4 2 (fun i j => 10 * i + j)) (new_grid 3 4 2 (fun i j => 1000)) with
  | Ok (a', b') => cell a' 6 7 = 67
  | _ => False end.
Proof. vm_compute. reflexivity. Qed.

(** * C04 *)
Theorem C04_reset_clears_everything : forall T (v : T) (g : grid T),
  wf g ->
  exists g' g'', assign_all v g = Ok g' /\ overlay_set v g' = Ok g'' /\ same_shape g g'' /\
    (forall i j, 0 <= i < xr g -> 0 <= j < yr g -> cell g'' i j = v).
Proof.
  intros T v g W. destruct (assign_all_spec v g W) as (g' & E & Hs & Hc).
  assert (W' : wf g') by (eapply same_shape_wf; eauto). pose proof Hs as (S1 & S2 & S3 & S4 & S5).
  destruct (overlay_set_spec v g' W') as (g'' & E2 & Hs2 & Hc2).
  exists g', g''. split; [exact E|]. split; [exact E2|]. split; [eapply same_shape_trans; eauto|].
  intros i j Hi Hj. rewrite Hc2 by lia. rewrite S1, S2, S5. destruct (_ && _) eqn:B; [|reflexivity].
  rewrite Hc by lia. now rewrite B.
Qed.
Theorem C04_assign_interior_only : forall T (v : T) (g : grid T),
  wf g ->
  exists g', assign_all v g = Ok g' /\ same_shape g g' /\
    forall i j, 0 <= i < xr g -> 0 <= j < yr g ->
     (os g <= i < xr g - os g /\ os g <= j < yr g - os g -> cell g' i j = v) /\
     (~ (os g <= i < xr g - os g /\ os g <= j < yr g - os g) -> cell g' i j = cell g i j).
Proof.
  intros T v g W. destruct (assign_all_spec v g W) as (g' & E & Hs & Hc). exists g'. do 2 (split; [assumption|]).
  intros i j Hi Hj. rewrite Hc by lia. destruct (_ && _) eqn:B; split; intros; try reflexivity; exfalso; lia.
Qed.
Theorem C04_overlay_set_ghosts_only : forall T (v : T) (g : grid T),
  wf g ->
  exists g', overlay_set v g = Ok g' /\ same_shape g g' /\
    forall i j, 0 <= i < xr g -> 0 <= j < yr g ->
     (os g <= i < xr g - os g /\ os g <= j < yr g - os g -> cell g' i j = cell g i j) /\
     (~ (os g <= i < xr g - os g /\ os g <= j < yr g - os g) -> cell g' i j = v).
Proof.
  intros T v g W. destruct (overlay_set_spec v g W) as (g' & E & Hs & Hc). exists g'. do 2 (split; [assumption|]).
  intros i j Hi Hj. rewrite Hc by lia. destruct (_ && _) eqn:B; split; intros; try reflexivity; exfalso; lia.
Qed.
Theorem C04_op_all_interior_only : forall T (op : T -> T -> T) (v : T) (g : grid T),
  wf g ->
  exists g', op_all op v g = Ok g' /\ same_shape g g' /\
    forall i j, 0 <= i < xr g -> 0 <= j < yr g ->
     (os g <= i < xr g - os g /\ os g <= j < yr g - os g -> cell g' i j = op (cell g i j) v) /\
     (~ (os g <= i < xr g - os g /\ os g <= j < yr g - os g) -> cell g' i j = cell g i j).
Proof.
  intros T op v g W. destruct (op_all_spec op v g W) as (g' & E & Hs & Hc). exists g'. do 2 (split; [assumption|]).
  intros i j Hi Hj. rewrite Hc by lia. destruct (_ && _) eqn:B; split; intros; try reflexivity; exfalso; lia.
Qed.
Theorem C04_copy_whole_storage : forall T (rhs g : grid T),
  wf g -> wf rhs ->
  (xr g = xr rhs /\ yr g = yr rhs ->
    exists g', copy rhs g = Ok g' /\ same_shape g g' /\
      forall i j, 0 <= i < xr g -> 0 <= j < yr g -> cell g' i j = cell rhs i j) /\
  (~ (xr g = xr rhs /\ yr g = yr rhs) -> copy rhs g = Fatal).
Proof. intros T rhs g Wg Wr. split; [intros [? ?]; now apply copy_spec|apply copy_fatal]. Qed.
Example C04_ex :
  match assign_all 0 (tg 5) with
  | Ok g' => cell g' 1 1 = 106 /\ cell g' 2 2 = 0 /\
      match overlay_set 0 g' with Ok g'' => cell g'' 1 1 = 0 /\ cell g'' 6 7 = 0 | _ => False end
  | _ => False end.
Proof. vm_compute. repeat split; reflexivity. Qed.

Print Assumptions C01_set_frame.
Print Assumptions C01_op_assign_frame.
Print Assumptions C01_out_of_window_is_ub.
Print Assumptions C01_history.
Print Assumptions C02_overlay_y.
Print Assumptions C02_overlay_x.
Print Assumptions C02_mismatch_fatal.
Print Assumptions C02_overlay_y_length_unchecked.
Print Assumptions C03_overlay_xy_square_partial.
Print Assumptions C03_overlay_xy_refuted.
Print Assumptions C03_nonsquare_never_right.
Print Assumptions C04_reset_clears_everything.
Print Assumptions C04_assign_interior_only.
Print Assumptions C04_overlay_set_ghosts_only.
Print Assumptions C04_op_all_interior_only.
Print Assumptions C04_copy_whole_storage.
