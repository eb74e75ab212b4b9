(** Domain decomposition and the runaway-particle collector: properties C05 - C09. *)
From Verif Require Import Base ListUtil GridModel GridProofs DecompModel DecompProofs CollectorModel CollectorProofs
  CollectorHist HashModel HashProofs.
From Coq Require Import ZifyBool Permutation.

(** * C05 *)
Theorem C05_tiling : forall ar az dr dz br bz r z,
  sane ar dr br -> sane az dz bz ->
  (br <= r < br + ar /\ bz <= z < bz + az <->
   exists i j, 0 <= i < dr /\ 0 <= j < dz /\
     bound ar dr br i <= r < bound ar dr br (i + 1) /\ bound az dz bz j <= z < bound az dz bz (j + 1)) /\
  (forall i j i' j', 0 <= i < dr -> 0 <= j < dz -> 0 <= i' < dr -> 0 <= j' < dz ->
     bound ar dr br i <= r < bound ar dr br (i + 1) -> bound az dz bz j <= z < bound az dz bz (j + 1) ->
     bound ar dr br i' <= r < bound ar dr br (i' + 1) -> bound az dz bz j' <= z < bound az dz bz (j' + 1) ->
     i = i' /\ j = j').
Proof.
  intros ar az dr dz br bz r z Hr Hz. split; [split|].
  - intros [H1 H2]. destruct (bound_owner ar dr br r Hr H1) as (i & Hi & Bi).
    destruct (bound_owner az dz bz z Hz H2) as (j & Hj & Bj). exists i, j. auto.
  - intros (i & j & Hi & Hj & Bi & Bj).
    pose proof (bound_range ar dr br i Hr ltac:(lia)). pose proof (bound_range ar dr br (i + 1) Hr ltac:(lia)).
    pose proof (bound_range az dz bz j Hz ltac:(lia)). pose proof (bound_range az dz bz (j + 1) Hz ltac:(lia)). lia.
  - intros i j i' j' Hi Hj Hi' Hj' B1 B2 B3 B4. split.
    + now apply (bound_owner_unique ar dr br r).
    + now apply (bound_owner_unique az dz bz z).
Qed.
(** the outer borders are those of the area and the sizes add up without wrap-around *)
Theorem C05_borders : forall amount n base, sane amount n base ->
  bound amount n base 0 = base /\ bound amount n base n = base + amount /\
  forall i, 0 <= i < n -> bound amount n base i <= bound amount n base (i + 1) /\
    local_amount amount n base i = bound amount n base (i + 1) - bound amount n base i.
Proof.
  intros amount n base H. split; [now apply bound_0|]. split; [now apply bound_n|].
  intros i Hi. split; [apply bound_mono; auto; lia|now apply local_amount_eq].
Qed.
Example C05_ex : sane 10 4 3 /\ map (bound 10 4 3) [0; 1; 2; 3; 4] = [3; 5; 8; 10; 13].
Proof. split; [unfold sane; lia|vm_compute; reflexivity]. Qed.

(** * C06 *)
Theorem C06_equal_sizes_iff_divisible : forall amount n base, sane amount n base ->
  ((forall i j, 0 <= i < n -> 0 <= j < n -> local_amount amount n base i = local_amount amount n base j) <->
   (n | amount)).
Proof.
  intros amount n base H. split.
  - intros He. apply (equal_sizes_div amount n base H). intros i Hi Hl. apply He; lia.
  - intros D i j Hi Hj. now rewrite !local_div.
Qed.
(** the grids of domain (i, j): cell_amount x cell_amount with overlay 2 (current.hpp, maxwellSolver.hpp) *)
Definition domain_grid {T} (c : Z -> Z -> Z -> Z -> T) (ar az dr dz i j : Z) : grid T :=
  new_grid (local_amount ar dr 0 i) (local_amount az dz 0 j) 2 (c i j).
(** the three stitches of one iteration never stop with a size mismatch exactly when the counts divide
    (decompositions with at least two domains in each direction) *)
Theorem C06_stitching_fatal_iff : forall T (add : T -> T -> T) (c : Z -> Z -> Z -> Z -> T) ar az dr dz,
  sane ar dr 0 -> sane az dz 0 -> ar < 2 ^ 31 -> az < 2 ^ 31 -> 2 <= dr -> 2 <= dz ->
  ((forall i j, 0 <= i -> i + 1 < dr -> 0 <= j -> j + 1 < dz ->
      let g := domain_grid c ar az dr dz in
      overlay_xy add (g i j) (g (i + 1) (j + 1)) <> Fatal) <->
   (dr | ar) /\ (dz | az)).
Proof.
  intros T add c ar az dr dz Hr Hz Lr Lz Dr Dz.
  assert (Hsz : forall i j, 0 <= i < dr -> 0 <= j < dz ->
     xr (domain_grid c ar az dr dz i j) = local_amount ar dr 0 i + 4 /\
     yr (domain_grid c ar az dr dz i j) = local_amount az dz 0 j + 4).
  { intros i j Hi Hj. unfold domain_grid, new_grid; cbn [xr yr]. rewrite !local_amount_eq by auto.
    pose proof (bound_range ar dr 0 i Hr ltac:(lia)). pose proof (bound_range ar dr 0 (i + 1) Hr ltac:(lia)).
    pose proof (bound_range az dz 0 j Hz ltac:(lia)). pose proof (bound_range az dz 0 (j + 1) Hz ltac:(lia)).
    pose proof (bound_mono ar dr 0 i (i + 1) Hr ltac:(lia) ltac:(lia)).
    pose proof (bound_mono az dz 0 j (j + 1) Hz ltac:(lia) ltac:(lia)).
    rewrite !u32_small by lia. lia. }
  split.
  - intros Hf. split.
    + destruct (Znumtheory.Zdivide_dec dr ar) as [D|D]; [exact D|].
      destruct (exists_differing_neighbours ar dr 0 Hr D) as (i & Hi & Hi1 & Hne).
      exfalso. apply (Hf i 0); try lia. apply overlay_xy_mismatch.
      destruct (Hsz i 0) as [E1 _]; try lia. destruct (Hsz (i + 1) (0 + 1)) as [E2 _]; try lia.
    + destruct (Znumtheory.Zdivide_dec dz az) as [D|D]; [exact D|].
      destruct (exists_differing_neighbours az dz 0 Hz D) as (j & Hj & Hj1 & Hne).
      exfalso. apply (Hf 0 j); try lia. apply overlay_xy_mismatch.
      destruct (Hsz 0 j) as [_ E1]; try lia. destruct (Hsz (0 + 1) (j + 1)) as [_ E2]; try lia.
  - intros [D1 D2] i j Hi Hi1 Hj Hj1. cbv zeta. unfold overlay_xy.
    destruct (Hsz i j) as [E1 E2]; try lia. destruct (Hsz (i + 1) (j + 1)) as [E3 E4]; try lia.
    rewrite E1, E2, E3, E4. rewrite !local_div by (auto; lia). rewrite !Z.eqb_refl. cbn [andb].
    set (ga := domain_grid c ar az dr dz i j). set (gb := domain_grid c ar az dr dz (i + 1) (j + 1)).
    (* a loop whose body is never [Fatal] is never [Fatal] *)
    assert (NF : forall n k (body : Z -> grid T * grid T -> outcome (grid T * grid T)) s,
       (forall x t, body x t <> Fatal) -> loop n k body s <> Fatal).
    { induction n as [|n IH]; intros k body s Hb; cbn [loop]; [discriminate|].
      destruct (body k s) eqn:E; cbn [bind]; [now apply IH|exfalso; now apply (Hb k s)|discriminate]. }
    unfold for_to at 1. apply NF. intros d t. apply NF. intros e [p q]. unfold overlay_xy_body, acc, rd, wr.
    repeat (match goal with |- context [if ?b then _ else _] => destruct b end; cbn [bind]; try discriminate).
Qed.
(** configurations accepted by the program for which the sizes differ, and the run stops *)
Theorem C06_accepted_config_refuted : exists ar dr,
  accepted_domains dr = true /\ sane ar dr 0 /\
  (exists i j, 0 <= i < dr /\ 0 <= j < dr /\ local_amount ar dr 0 i <> local_amount ar dr 0 j) /\
  overlay_xy Z.add (domain_grid (fun _ _ _ _ => 0) ar ar dr dr 0 0) (domain_grid (fun _ _ _ _ => 0) ar ar dr dr 1 1) = Fatal.
Proof.
  exists 10, 4. split; [reflexivity|]. split; [unfold sane; lia|]. split.
  - exists 0, 1. repeat split; vm_compute; congruence.
  - vm_compute. reflexivity.
Qed.
Example C06_ex : sane 12 4 0 /\ map (local_amount 12 4 0) [0; 1; 2; 3] = [3; 3; 3; 3] /\
  map (local_amount 10 4 0) [0; 1; 2; 3] = [2; 3; 2; 3].
Proof. split; [unfold sane; lia|split; vm_compute; reflexivity]. Qed.

(** * C07 *)
Theorem C07_runaway_reaches_owner : forall amount n base c i k,
  sane amount n base -> (n | amount) -> 0 < amount -> 0 <= i < n -> base <= c < base + amount ->
  (dst_index (local_amount amount n base i) base c = Ok k <->
   0 <= k < n /\ bound amount n base k <= c < bound amount n base (k + 1)).
Proof.
  intros amount n base c i k H D Hp Hi Hc.
  destruct (bound_owner amount n base c H Hc) as (o & Ho & Bo).
  assert (E : dst_index (local_amount amount n base i) base c = Ok o) by (now apply (dst_index_owner amount n base c i o)).
  rewrite E. split.
  - intros [= <-]. auto.
  - intros [Hk Bk]. f_equal. now apply (bound_owner_unique amount n base c).
Qed.
(** accepted configuration, non-divisible: wrong domain, and an index outside the domain grid *)
Theorem C07_nondivisible_refuted : exists amount n c c' i i' k k',
  accepted_domains n = true /\ sane amount n 0 /\ 0 <= i < n /\ 0 <= c < amount /\ 0 <= c' < amount /\
  dst_index (local_amount amount n 0 i) 0 c = Ok k /\ 0 <= k < n /\ ~ (bound amount n 0 k <= c < bound amount n 0 (k + 1)) /\
  dst_index (local_amount amount n 0 i') 0 c' = Ok k' /\ ~ (0 <= k' < n).
Proof.
  exists 10, 4, 4, 9, 0, 0, 2, 4. split; [reflexivity|]. split; [unfold sane; lia|].
  repeat (split; [first [lia | vm_compute; reflexivity | vm_compute; intuition congruence]|]). lia.
Qed.
(** more domains than cells: division by zero *)
Theorem C07_empty_domain_ub : forall amount n base i c, sane amount n base -> 0 <= i < n ->
  bound amount n base i = bound amount n base (i + 1) -> dst_index (local_amount amount n base i) base c = UB.
Proof.
  intros amount n base i c H Hi E. rewrite local_amount_eq by auto. rewrite E, Z.sub_diag. reflexivity.
Qed.
Example C07_ex : dst_index (local_amount 12 4 0 0) 0 11 = Ok 3.
Proof. reflexivity. Qed.

(** * C08 *)
Theorem C08_collector_conserves : forall (P : Type) (eq_dec : forall x y : P, {x = y} + {x <> y})
  (cr cz : P -> Z) (a : area) (ids : list Z) (st : smb P),
  good_area a -> (forall p, int_cells cr cz p) -> ids_ok a ids st ->
  exists st', collect P cr cz a (code_order a) st = Ok st' /\ ids_ok a ids st' /\
    (forall sid, Permutation (particles_of a sid st') (filter (alive cr cz a) (particles_of a sid st))) /\
    (forall i j s l p, 0 <= i < rd_ a -> 0 <= j < zd_ a -> In (s, l) (st' i j) -> In p l -> home cr cz a i j p).
Proof.
  intros P eq_dec cr cz a ids st HA Hint Hids.
  assert (Hp : 0 <= rd_ a /\ 0 <= zd_ a) by (destruct HA as (H1 & H2 & _); unfold sane in *; lia).
  destruct (collect_total cr cz a HA ids (code_order a) st Hids) as (st' & E & A1 & A2 & A3 & A4).
  - intros ? ? ? ? ? ? ? ? ?. apply Hint.
  - intros i j. apply code_order_In; tauto.
  - exists st'. split; [exact E|]. split; [exact A1|]. split.
    + intros sid. apply (cntl_permutation eq_dec). intros f. apply A4.
    + intros i j s l p Hi Hj Hin Hq. now apply (A3 i j Hi Hj s l p).
Qed.
(** the same for every order in which the domains are visited *)
Theorem C08_any_order : forall (P : Type) (eq_dec : forall x y : P, {x = y} + {x <> y})
  (cr cz : P -> Z) (a : area) (ids : list Z) (st : smb P) (order : list (Z * Z)),
  good_area a -> (forall p, int_cells cr cz p) -> ids_ok a ids st ->
  (forall i j, In (i, j) order <-> 0 <= i < rd_ a /\ 0 <= j < zd_ a) ->
  exists st', collect P cr cz a order st = Ok st' /\ ids_ok a ids st' /\
    (forall sid, Permutation (particles_of a sid st') (filter (alive cr cz a) (particles_of a sid st))) /\
    (forall i j s l p, 0 <= i < rd_ a -> 0 <= j < zd_ a -> In (s, l) (st' i j) -> In p l -> home cr cz a i j p).
Proof.
  intros P eq_dec cr cz a ids st order HA Hint Hids Hord.
  destruct (collect_total cr cz a HA ids order st Hids) as (st' & E & A1 & A2 & A3 & A4); [|exact Hord|].
  - intros ? ? ? ? ? ? ? ? ?. apply Hint.
  - exists st'. split; [exact E|]. split; [exact A1|]. split.
    + intros sid. apply (cntl_permutation eq_dec). intros f. apply A4.
    + intros i j s l p Hi Hj Hin Hq. now apply (A3 i j Hi Hj s l p).
Qed.
(** any number of steps with arbitrary motion in between *)
Theorem C08_many_steps : forall (P : Type) (eq_dec : forall x y : P, {x = y} + {x <> y})
  (cr cz : P -> Z) (a : area) (ids : list Z) (moves : list (P -> P)) (st : smb P),
  good_area a -> (forall p, int_cells cr cz p) -> ids_ok a ids st ->
  exists st', run_steps cr cz a moves st = Ok st' /\ ids_ok a ids st' /\
    forall sid, Permutation (particles_of a sid st') (survivors cr cz a moves (particles_of a sid st)).
Proof.
  intros P eq_dec cr cz a ids moves st HA Hint Hids.
  destruct (run_steps_spec cr cz a HA Hint ids moves st Hids) as (st' & E & A1 & A2 & A3).
  exists st'. split; [exact E|]. split; [exact A1|]. intros sid. apply (cntl_permutation eq_dec). intros f. apply A3.
Qed.
(** Example: 2 x 2 domains of 4 x 4 cells, two species; particles are triples (number, cell_r, cell_z). *)
Definition ex_area : area := {| nr := 8; nz := 8; rd_ := 2; zd_ := 2 |}.
Definition expart : Type := (Z * Z * Z)%type.
Definition ex_cr (p : expart) : Z := s32 (snd (fst p)).
Definition ex_cz (p : expart) : Z := s32 (snd p).
Definition ex_st (i j : Z) : domain expart :=
  if (i =? 0) && (j =? 0) then [(1, [(10, 0, 0); (11, 7, 7); (12, 5, 0)]); (2, [(20, 0, 9); (21, 1, 5)])]
  else [(1, []); (2, [])].
Example C08_ex_hyps : good_area ex_area /\ (forall p, int_cells ex_cr ex_cz p) /\ ids_ok ex_area [1; 2] ex_st.
Proof.
  split; [|split].
  - unfold good_area, sane; cbn. repeat split; try lia; exists 4; reflexivity.
  - intros [[n r] z]. unfold int_cells, ex_cr, ex_cz, s32; cbn [fst snd].
    pose proof (Z.mod_pos_bound (r + 2 ^ 31) (2 ^ 32) ltac:(lia)).
    pose proof (Z.mod_pos_bound (z + 2 ^ 31) (2 ^ 32) ltac:(lia)). lia.
  - split; [repeat constructor; cbn; lia|]. intros i j _ _. unfold ex_st. now destruct (_ && _).
Qed.
Example C08_ex_run :
  match collect expart ex_cr ex_cz ex_area (code_order ex_area) ex_st with
  | Ok st => st 0 0 = [(1, [(10, 0, 0)]); (2, [])] /\ st 1 1 = [(1, [(11, 7, 7)]); (2, [])] /\
             st 1 0 = [(1, [(12, 5, 0)]); (2, [])] /\ st 0 1 = [(1, []); (2, [(21, 1, 5)])]
  | _ => False end.
Proof. vm_compute. repeat split; reflexivity. Qed.

(** * C09 *)
(** Two physically plausible names with the same identifier, both accepted (names differ, so the uniqueness
    check passes). *)
Theorem C09_ids_distinct_refuted : exists n1 n2 : string, n1 <> n2 /\ specie_id n1 = specie_id n2.
Proof. exists "Ni18+"%string, "Pb25+"%string. split; [discriminate|vm_compute; reflexivity]. Qed.
Theorem C09_specie_beam_clash_refuted : exists n1 n2 : string, specie_id n1 = beam_id n2.
Proof. exists "argon"%string, "beam5460"%string. vm_compute. reflexivity. Qed.
(** among any 65537 differently named species two share an identifier *)
Theorem C09_pigeonhole_refuted : forall names : list string, NoDup names -> 65536 < Z.of_nat (List.length names) ->
  exists x y, In x names /\ In y names /\ x <> y /\ specie_id x = specie_id y.
Proof. intros names. unfold specie_id. apply hash_pigeonhole. unfold SPECIE_HASH_SALT; lia. Qed.
(** what does hold: identifiers are 16-bit, and names that differ only in the last character never clash *)
Theorem C09_last_char_partial : forall (p : string) (c d : ascii), c <> d ->
  specie_id (append p (String c EmptyString)) <> specie_id (append p (String d EmptyString)) /\
  beam_id (append p (String c EmptyString)) <> beam_id (append p (String d EmptyString)).
Proof.
  intros p c d Hne. split; intros H; apply Hne.
  - apply (hash_last_char p c d SPECIE_HASH_SALT); [unfold SPECIE_HASH_SALT; lia|exact H].
  - unfold beam_id in H. 
    assert (Ea : forall x y z : string, append x (append y z) = append (append x y) z).
    { induction x as [|u x IH]; intros y z; cbn [append]; [reflexivity|now rewrite IH]. }
    rewrite !Ea in H. apply (hash_last_char (append "beam_" p) c d BEAM_HASH_SALT); [unfold BEAM_HASH_SALT; lia|exact H].
Qed.
(** the consequence: a migrating particle is duplicated when two species share the identifier *)
Theorem C09_duplicate_ids_duplicate_particles_refuted : exists (st st' : smb expart),
  collect expart ex_cr ex_cz ex_area (code_order ex_area) st = Ok st' /\
  particles_of ex_area 1 st = [(7, 5, 0)] /\ particles_of ex_area 1 st' = [(7, 5, 0); (7, 5, 0)].
Proof.
  set (st := fun i j : Z => if (i =? 0) && (j =? 0) then [(1, [(7, 5, 0)]); (1, [])] else [(1, []); (1, [])] : domain expart).
  exists st. destruct (collect expart ex_cr ex_cz ex_area (code_order ex_area) st) as [st'| |] eqn:E.
  - exists st'. split; [reflexivity|].
    assert (H : match collect expart ex_cr ex_cz ex_area (code_order ex_area) st with
                | Ok s => particles_of ex_area 1 st = [(7, 5, 0)] /\ particles_of ex_area 1 s = [(7, 5, 0); (7, 5, 0)]
                | _ => False end) by (vm_compute; split; reflexivity).
    rewrite E in H. exact H.
  - exfalso. vm_compute in E. discriminate.
  - exfalso. vm_compute in E. discriminate.
Qed.
Example C09_ex : specie_id "electrons" <> specie_id "ions" /\ specie_id "electrons" = 23938.
Proof. split; vm_compute; congruence. Qed.

Print Assumptions C05_tiling.
Print Assumptions C05_borders.
Print Assumptions C06_equal_sizes_iff_divisible.
Print Assumptions C06_stitching_fatal_iff.
Print Assumptions C06_accepted_config_refuted.
Print Assumptions C07_runaway_reaches_owner.
Print Assumptions C07_nondivisible_refuted.
Print Assumptions C07_empty_domain_ub.
Print Assumptions C08_collector_conserves.
Print Assumptions C08_any_order.
Print Assumptions C08_many_steps.
Print Assumptions C09_ids_distinct_refuted.
Print Assumptions C09_specie_beam_clash_refuted.
Print Assumptions C09_pigeonhole_refuted.
Print Assumptions C09_last_char_partial.
Print Assumptions C09_duplicate_ids_duplicate_particles_refuted.
