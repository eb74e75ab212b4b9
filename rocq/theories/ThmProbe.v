(** Theorems about column, row and dot probes and about the set-up of the output: properties C131 - C133. *)
From Coq Require Import String.
From Verif Require Import Base GridModel GridProofs DecompModel DecompProofs OutModel OutProofs ProbeModel ProbeProofs ThmOut.
From Coq Require Import ZifyBool.
Open Scope Z_scope.

(** * C131: columns, rows and dots *)
(** the area starts at cell (0, 0); every grid has at least one layer of ghost cells *)
Definition area_ok {T} NR NZ R C (G : Z -> Z -> grid T) : Prop :=
  divided NR NZ R C 0 0 G /\ forall r z, 0 <= r < R -> 0 <= z < C -> 1 <= os (G r z).
(** the value of cell (i, j) of the area in the domain (r, z) *)
Definition value_in {T} NR NZ R C (G : Z -> Z -> grid T) r z i j : T :=
  cell (G r z) (i - bound NR R 0 r + os (G r z)) (j - bound NZ C 0 z + os (G r z)).

Lemma area_hyps {T} NR NZ R C (G : Z -> Z -> grid T) : area_ok NR NZ R C G ->
  sane NR R 0 /\ sane NZ C 0 /\ bound NR R 0 0 = 0 /\ bound NZ C 0 0 = 0 /\ bound NR R 0 R = NR /\ bound NZ C 0 C = NZ /\
  (forall r, 0 <= r < R -> bound NR R 0 r <= bound NR R 0 (r + 1) < bound NR R 0 r + 2 ^ 15) /\
  (forall z, 0 <= z < C -> bound NZ C 0 z <= bound NZ C 0 (z + 1) < bound NZ C 0 z + 2 ^ 15) /\
  bound NR R 0 R < 2 ^ 64 /\ bound NZ C 0 C < 2 ^ 64 /\
  (forall r z, 0 <= r < R -> 0 <= z < C ->
     wf (G r z) /\ 1 <= os (G r z) /\ xs (G r z) = bound NR R 0 (r + 1) - bound NR R 0 r /\ ys (G r z) = bound NZ C 0 (z + 1) - bound NZ C 0 z).
Proof.
  intros [D O]. destruct (divided_hyps _ _ _ _ _ _ _ D) as (A1 & A2 & A3 & A4 & A5 & A6 & A7). destruct D as (S1 & S2 & _).
  split; [exact S1|]. split; [exact S2|]. rewrite !bound_0 by assumption. split; [reflexivity|]. split; [reflexivity|].
  split; [rewrite bound_n; auto; lia|]. split; [rewrite bound_n; auto; lia|]. split; [exact A3|]. split; [exact A4|]. split; [exact A5|]. split; [exact A6|].
  intros r z Hr Hz. destruct (A7 r z Hr Hz) as (W & E1 & E2). split; [exact W|]. split; [now apply O|]. now split.
Qed.
(** the owner writes last *)
Lemma owner_last N n p q : sane N n 0 -> 0 <= q < n -> bound N n 0 q <= p < bound N n 0 (q + 1) -> last_of (bound N n 0) n p q.
Proof.
  intros S Hq Hp. split; [exact Hq|]. split; [lia|]. intros z' Hz'. pose proof (bound_mono N n 0 (q + 1) z' S ltac:(lia) ltac:(lia)). lia.
Qed.
Lemma edge_last N n : sane N n 0 -> last_of (bound N n 0) n N (n - 1).
Proof.
  intros S. pose proof S as (? & ? & ? & ? & ?). split; [lia|]. replace (n - 1 + 1) with n by lia. rewrite bound_n by exact S.
  pose proof (bound_mono N n 0 (n - 1) n S ltac:(lia) ltac:(lia)) as M. rewrite bound_n in M by exact S. split; [lia|]. intros; lia.
Qed.

Theorem C131_column : forall T (zero : T) NR NZ R C G j num ds,
  area_ok NR NZ R C G -> 0 <= j < NZ -> 0 <= num < v_frames ds -> v_n ds = NR ->
  exists ds', write_line zero Col R C (bound NR R 0) (bound NZ C 0) G 0 j num ds = Ok ds' /\
    v_frames ds' = v_frames ds /\ v_n ds' = v_n ds /\
    (forall i r z, owns NR NZ R C 0 0 r z i j -> v_dat ds' num i = value_in NR NZ R C G r z i j) /\
    (forall f a, ~ (f = num /\ 0 <= a < NR) -> v_dat ds' f a = v_dat ds f a).
Proof.
  intros T zero NR NZ R C G j num ds A Hj Hn En. destruct (area_hyps _ _ _ _ _ A) as (S1 & S2 & A0 & A1 & A2 & A2' & A3 & A4 & A5 & A6 & A7).
  pose proof S1 as (? & ? & ? & ? & ?). pose proof S2 as (? & ? & ? & ? & ?).
  destruct (find_cell (bound NZ C 0) C j) as (zl & Hz & Hb); [lia|intros q Hq; specialize (A4 q Hq); lia|lia|].
  destruct (cols_written zero R C (bound NR R 0) (bound NZ C 0) G ltac:(lia) ltac:(lia) A0 ltac:(lia) A3 A4 A5 A7 0 j num zl ds Hn ltac:(lia) (owner_last NZ C j zl S2 Hz Hb))
    as (ds' & E & F1 & F2 & F3 & F4).
  exists ds'. split; [exact E|]. split; [exact F1|]. split; [exact F2|]. split.
  - intros i r z (O1 & O2 & O3 & O4). assert (z = zl) as ->.
    { destruct (Z_lt_ge_dec z zl) as [L|L]; [pose proof (bound_mono NZ C 0 (z + 1) zl S2 ltac:(lia) ltac:(lia)); lia|].
      destruct (Z_lt_ge_dec zl z) as [L'|L']; [pose proof (bound_mono NZ C 0 (zl + 1) z S2 ltac:(lia) ltac:(lia)); lia|lia]. }
    apply F3; lia.
  - intros f a N. apply F4. now rewrite A2.
Qed.
Theorem C131_row : forall T (zero : T) NR NZ R C G i num ds,
  area_ok NR NZ R C G -> 0 <= i < NR -> 0 <= num < v_frames ds -> v_n ds = NZ ->
  exists ds', write_line zero Row R C (bound NR R 0) (bound NZ C 0) G i 0 num ds = Ok ds' /\
    v_frames ds' = v_frames ds /\ v_n ds' = v_n ds /\
    (forall j r z, owns NR NZ R C 0 0 r z i j -> v_dat ds' num j = value_in NR NZ R C G r z i j) /\
    (forall f a, ~ (f = num /\ 0 <= a < NZ) -> v_dat ds' f a = v_dat ds f a).
Proof.
  intros T zero NR NZ R C G i num ds A Hj Hn En. destruct (area_hyps _ _ _ _ _ A) as (S1 & S2 & A0 & A1 & A2 & A2' & A3 & A4 & A5 & A6 & A7).
  pose proof S1 as (? & ? & ? & ? & ?). pose proof S2 as (? & ? & ? & ? & ?).
  destruct (find_cell (bound NR R 0) R i) as (rl & Hr & Hb); [lia|intros q Hq; specialize (A3 q Hq); lia|lia|].
  destruct (rows_written zero R C (bound NR R 0) (bound NZ C 0) G ltac:(lia) ltac:(lia) A0 ltac:(lia) A3 A4 A6 A7 i 0 num rl ds Hn ltac:(lia) (owner_last NR R i rl S1 Hr Hb))
    as (ds' & E & F1 & F2 & F3 & F4).
  exists ds'. split; [exact E|]. split; [exact F1|]. split; [exact F2|]. split.
  - intros j r z (O1 & O2 & O3 & O4). assert (r = rl) as ->.
    { destruct (Z_lt_ge_dec r rl) as [L|L]; [pose proof (bound_mono NR R 0 (r + 1) rl S1 ltac:(lia) ltac:(lia)); lia|].
      destruct (Z_lt_ge_dec rl r) as [L'|L']; [pose proof (bound_mono NR R 0 (rl + 1) r S1 ltac:(lia) ltac:(lia)); lia|lia]. }
    apply F3; lia.
  - intros f a N. apply F4. now rewrite A2'.
Qed.
Theorem C131_dot : forall T (zero : T) NR NZ R C G i j num ds r z,
  area_ok NR NZ R C G -> owns NR NZ R C 0 0 r z i j -> 0 <= num < v_frames ds -> v_n ds = 1 ->
  exists ds', write_line zero Dot R C (bound NR R 0) (bound NZ C 0) G i j num ds = Ok ds' /\
    v_frames ds' = v_frames ds /\ v_n ds' = v_n ds /\ v_dat ds' num 0 = value_in NR NZ R C G r z i j /\
    (forall f a, ~ (f = num /\ a = 0) -> v_dat ds' f a = v_dat ds f a).
Proof.
  intros T zero NR NZ R C G i j num ds r z A (O1 & O2 & O3 & O4) Hn En. destruct (area_hyps _ _ _ _ _ A) as (S1 & S2 & A0 & A1 & A2 & A2' & A3 & A4 & A5 & A6 & A7).
  pose proof S1 as (? & ? & ? & ? & ?). pose proof S2 as (? & ? & ? & ? & ?).
  exact (dot_written zero R C (bound NR R 0) (bound NZ C 0) G ltac:(lia) ltac:(lia) A0 ltac:(lia) A3 A4 A7 i j num r z ds Hn En (owner_last NR R i r S1 O1 O3) (owner_last NZ C j z S2 O2 O4)).
Qed.
(** the configuration accepts the number of cells as number of the column: no column of the area has it.  The ghost
    column behind the last domain is written *)
Theorem C131_edge_refuted : forall T (zero : T) NR NZ R C G num ds,
  area_ok NR NZ R C G -> 0 <= num < v_frames ds -> v_n ds = NR ->
  (forall i r z, ~ owns NR NZ R C 0 0 r z i NZ) /\
  exists ds', write_line zero Col R C (bound NR R 0) (bound NZ C 0) G 0 NZ num ds = Ok ds' /\
    forall i r, 0 <= r < R -> bound NR R 0 r <= i < bound NR R 0 (r + 1) ->
    v_dat ds' num i = cell (G r (C - 1)) (i - bound NR R 0 r + os (G r (C - 1))) (ys (G r (C - 1)) + os (G r (C - 1))).
Proof.
  intros T zero NR NZ R C G num ds A Hn En. destruct (area_hyps _ _ _ _ _ A) as (S1 & S2 & A0 & A1 & A2 & A2' & A3 & A4 & A5 & A6 & A7).
  pose proof S1 as (? & ? & ? & ? & ?). pose proof S2 as (? & ? & ? & ? & ?). split.
  - intros i r z (O1 & O2 & O3 & O4). pose proof (bound_mono NZ C 0 (z + 1) C S2 ltac:(lia) ltac:(lia)). lia.
  - destruct (cols_written zero R C (bound NR R 0) (bound NZ C 0) G ltac:(lia) ltac:(lia) A0 ltac:(lia) A3 A4 A5 A7 0 NZ num (C - 1) ds Hn ltac:(lia) (edge_last NZ C S2))
      as (ds' & E & F1 & F2 & F3 & F4).
    exists ds'. split; [exact E|]. intros i r Hr Hi. rewrite (F3 r i Hr Hi). destruct (A7 r (C - 1) Hr ltac:(lia)) as (_ & _ & _ & Ey).
    rewrite Ey. replace (C - 1 + 1) with C by lia. now rewrite A2'.
Qed.
(** a 6 x 6 area of 2 x 3 domains; cell (i, j) holds 10 i + j *)
Definition ex_grid (r z : Z) : grid Z := new_grid 3 2 2 (fun a b => 10 * (3 * r + a - 2) + (2 * z + b - 2)).
Lemma ex_area : area_ok 6 6 2 3 ex_grid.
Proof.
  assert (B : forall q, 0 <= q < 2 -> q = 0 \/ q = 1) by (intros; lia). assert (B' : forall q, 0 <= q < 3 -> q = 0 \/ q = 1 \/ q = 2) by (intros; lia).
  split; [|intros; cbn; lia]. split; [unfold sane; lia|]. split; [unfold sane; lia|].
  split; [intros r Hr; destruct (B r Hr) as [->| ->]; now vm_compute|].
  split; [intros z Hz; destruct (B' z Hz) as [->|[->| ->]]; now vm_compute|].
  intros r z Hr Hz. split; [apply new_grid_wf; lia|]. 
  destruct (B r Hr) as [->| ->], (B' z Hz) as [->|[->| ->]]; split; reflexivity.
Qed.
Example C131_ex : exists ds' dr dd,
  write_line 0 Col 2 3 (bound 6 2 0) (bound 6 3 0) ex_grid 0 4 1 (mkV 2 6 (fun _ _ => 0)) = Ok ds' /\ map (v_dat ds' 1) [0; 1; 2; 3; 4; 5] = [4; 14; 24; 34; 44; 54] /\
  write_line 0 Row 2 3 (bound 6 2 0) (bound 6 3 0) ex_grid 3 0 0 (mkV 2 6 (fun _ _ => 0)) = Ok dr /\ map (v_dat dr 0) [0; 1; 2; 3; 4; 5] = [30; 31; 32; 33; 34; 35] /\
  write_line 0 Dot 2 3 (bound 6 2 0) (bound 6 3 0) ex_grid 3 2 0 (mkV 1 1 (fun _ _ => 0)) = Ok dd /\ v_dat dd 0 0 = 32 /\
  owns 6 6 2 3 0 0 1 2 3 4.
Proof.
  do 3 eexists. split; [vm_compute; reflexivity|]. split; [vm_compute; reflexivity|]. split; [vm_compute; reflexivity|]. split; [vm_compute; reflexivity|].
  split; [vm_compute; reflexivity|]. split; [vm_compute; reflexivity|]. unfold owns. vm_compute. repeat split; discriminate.
Qed.

(** * C132: every probe gets a dataset *)
Local Open Scope list_scope.
(** ** Specification: paths of probes, cfg.cpp:222-297 *)
Inductive probed : Type :=
| Field (f axis : string)            (* "E/r" and so on *)
| Quant (q specie : string)          (* "density" and so on *)
| Moment (axis specie : string).     (* "momentum/r" and so on *)
Definition known (c : probed) : Prop :=
  match c with
  | Field f _ => In f ["E"; "H"; "J"]%string
  | Quant q _ => In q ["temperature"; "density"; "energy"]%string
  | Moment _ _ => True
  end.
Record prb : Type := Prb { what : probed; form : string; extent : string }.
Definition group_of (p : prb) : path :=
  match what p with Field f a => [f; a; form p] | Quant q s => [q; s; form p] | Moment a s => ["momentum"%string; a; s; form p] end.
Definition path_of (p : prb) : path := (group_of p ++ [extent p])%list.

Lemma group_path p : removelast (path_of p) = group_of p.
Proof. unfold path_of. now rewrite removelast_last. Qed.
Lemma has_in l p : has l p = true <-> In p l.
Proof.
  unfold has. rewrite existsb_exists. unfold path_eqb. split.
  - intros (x & J & E). destruct (list_eq_dec string_dec p x) as [->|]; [exact J|discriminate].
  - intros J. exists p. split; [exact J|]. now destruct (list_eq_dec string_dec p p).
Qed.
Lemma beginnings_in p q : In q (beginnings p) <-> q <> [] /\ exists r, p = q ++ r.
Proof.
  revert q. induction p as [|a p IH]; intros q; cbn [beginnings].
  - split; [intros []|]. intros [N [r E]]. symmetry in E. apply app_eq_nil in E. now destruct N.
  - cbn [In]. rewrite in_map_iff. split.
    + intros [<-|(x & <- & J)]; [split; [discriminate|now exists p]|]. apply IH in J as [_ [r ->]]. split; [discriminate|now exists r].
    + intros [N [r E]]. destruct q as [|b q]; [now destruct N|]. cbn in E. injection E as -> ->. destruct q as [|b' q]; [now left|].
      right. eexists. split; [reflexivity|]. apply IH. split; [discriminate|now exists r].
Qed.
Lemma own_beginning p : p <> [] -> In p (beginnings p).
Proof. intros N. apply beginnings_in. split; [exact N|]. exists []. now rewrite app_nil_r. Qed.
Lemma group_nil p : group_of p <> [].
Proof. unfold group_of. destruct (what p); discriminate. Qed.
Ltac names := repeat match goal with H : _ \/ _ |- _ => destruct H | H : False |- _ => destruct H end; subst; cbn in *; try discriminate.
(** names of groups do not lie inside of each other *)
Lemma groups_apart p q : known (what p) -> known (what q) -> In (group_of q) (beginnings (group_of p)) -> group_of q = group_of p.
Proof.
  intros Kp Kq H. apply beginnings_in in H as [_ [r E]]. destruct r as [|x r]; [now rewrite app_nil_r in E|].
  exfalso. unfold group_of in E. destruct p as [wp fp ep], q as [wq fq eq]. cbn [what form] in *.
  destruct wp as [f a|k s|a s], wq as [f' a'|k' s'|a' s']; cbn in E; try discriminate; injection E; intros; subst; cbn in Kp, Kq; names.
Qed.
Lemma group_not_path p q : known (what p) -> known (what q) -> group_of q <> path_of p.
Proof.
  intros Kp Kq E. unfold path_of, group_of in E. destruct p as [wp fp ep], q as [wq fq eq]. cbn [what form extent] in *.
  destruct wp as [f a|k s|a s], wq as [f' a'|k' s'|a' s']; cbn in E; try discriminate; injection E; intros; subst; cbn in Kp, Kq; names.
Qed.
Lemma path_not_group p q : known (what p) -> known (what q) -> ~ In (path_of q) (beginnings (group_of p)).
Proof.
  intros Kp Kq H. apply beginnings_in in H as [_ [r E]]. unfold path_of, group_of in E. destruct p as [wp fp ep], q as [wq fq eq]. cbn [what form extent] in *.
  destruct wp as [f a|k s|a s], wq as [f' a'|k' s'|a' s']; cbn in E; try discriminate; injection E; intros; subst; cbn in Kp, Kq; names.
Qed.
Definition file_of (ps : list prb) : h5 := mkH5 (flat_map (fun p => beginnings (group_of p)) ps) (map path_of ps).
Lemma create_one ps p : Forall (fun p => known (what p)) (p :: ps) -> 
  create_dataset (path_of p) (file_of ps) = if in_dec (list_eq_dec string_dec) (group_of p) (map group_of ps) then Fatal else Ok (file_of (ps ++ [p])).
Proof.
  intros K. inversion K as [|x l Kp Ks]; subst. clear K. rewrite Forall_forall in Ks. unfold create_dataset, create_group. rewrite group_path. cbn [groups datasets file_of].
  destruct (in_dec _ _ _) as [J|N].
  - assert (H : has (flat_map (fun p => beginnings (group_of p)) ps) (group_of p) = true).
    { apply has_in, in_flat_map. apply in_map_iff in J as (q & E & Jq). exists q. split; [exact Jq|]. rewrite <- E. apply own_beginning, group_nil. }
    now rewrite H.
  - destruct (has (flat_map (fun p => beginnings (group_of p)) ps) (group_of p)) eqn:H1.
    { exfalso. apply has_in, in_flat_map in H1 as (q & Jq & B). apply groups_apart in B; try assumption; [|now apply Ks]. apply N, in_map_iff. exists q. now split. }
    destruct (has (map path_of ps) (group_of p)) eqn:H2.
    { exfalso. apply has_in, in_map_iff in H2 as (q & E & Jq). symmetry in E. revert E. apply group_not_path; [now apply Ks|assumption]. }
    cbn [orb groups datasets].
    destruct (has (flat_map (fun p => beginnings (group_of p)) ps ++ beginnings (group_of p)) (path_of p)) eqn:H3.
    { exfalso. apply has_in in H3. apply in_app_or in H3 as [H3|H3]; [apply in_flat_map in H3 as (q & Jq & B)|].
      - revert B. apply path_not_group; [now apply Ks|assumption].
      - revert H3. now apply path_not_group. }
    destruct (has (map path_of ps) (path_of p)) eqn:H4.
    { exfalso. apply has_in, in_map_iff in H4 as (q & E & Jq). apply N, in_map_iff. exists q. split; [|exact Jq].
      rewrite <- !group_path. now rewrite E. }
    cbn [orb]. unfold file_of. rewrite flat_map_app, map_app. cbn [flat_map map]. now rewrite app_nil_r.
Qed.
Lemma create_rest ps done : Forall (fun p => known (what p)) (done ++ ps) ->
  create_all (map path_of ps) (file_of done) =
  if (fix go d l := match l with [] => true | p :: l => if in_dec (list_eq_dec string_dec) (group_of p) (map group_of d) then false else go (d ++ [p]) l end) done ps
  then Ok (file_of (done ++ ps)) else Fatal.
Proof.
  revert done. induction ps as [|p ps IH]; intros done K; cbn [map create_all].
  - now rewrite app_nil_r.
  - rewrite create_one. 2: { apply Forall_app in K as [K1 K2]. inversion K2; subst. now constructor. }
    destruct (in_dec _ _ _); [reflexivity|]. cbn [bind].
    rewrite IH; rewrite <- app_assoc; cbn [app]; [reflexivity|exact K].
Qed.
Lemma NoDup_app_cons {A} (l : list A) x : NoDup l -> ~ In x l -> NoDup (l ++ [x]).
Proof.
  intros N J. apply (NoDup_Add (a := x) (l := l)); [|now split]. rewrite <- (app_nil_r l) at 1. apply Add_app.
Qed.
Lemma go_nodup ps : forall done, NoDup (map group_of done) ->
  (fix go d l := match l with [] => true | p :: l => if in_dec (list_eq_dec string_dec) (group_of p) (map group_of d) then false else go (d ++ [p]) l end) done ps = true <->
  NoDup (map group_of (done ++ ps)).
Proof.
  induction ps as [|p ps IH]; intros done N.
  - rewrite app_nil_r. tauto.
  - destruct (in_dec _ _ _) as [J|J].
    + split; [discriminate|]. intros H. exfalso. rewrite map_app in H. cbn [map] in H. apply NoDup_remove_2 in H. apply H, in_or_app. now left.
    + rewrite IH. { rewrite <- app_assoc. reflexivity. }
      rewrite map_app. cbn [map]. apply NoDup_app_cons; assumption.
Qed.

(** Every probe of an accepted list gets its dataset, provided that no two probes share component, species and shape.
    Missing for the full claim: probes that differ in the extent only, and the empty list (see below). *)
Theorem C132_datasets_partial : forall ps, ps <> [] -> Forall (fun p => known (what p)) ps -> NoDup (map group_of ps) ->
  exists f, controller (map path_of ps) = Ok f /\ datasets f = map path_of ps.
Proof.
  intros ps N K D. exists (file_of ps). split; [|reflexivity].
  assert (E : controller (map path_of ps) = create_all (map path_of ps) (file_of [])) by (destruct ps; [now destruct N|reflexivity]).
  rewrite E, create_rest by exact K. cbn [app]. destruct (go_nodup ps [] (NoDup_nil _)) as [_ H]. cbn [app] in H. now rewrite (H D).
Qed.
(** Two probes of the same component, species and shape, whatever their extents and places in the list, end the program. *)
Theorem C132_same_group_refuted : forall ps, Forall (fun p => known (what p)) ps -> ~ NoDup (map group_of ps) -> controller (map path_of ps) = Fatal.
Proof.
  intros ps K D.
  assert (E : controller (map path_of ps) = create_all (map path_of ps) (file_of [])) by (destruct ps; [destruct D; constructor|reflexivity]).
  rewrite E, create_rest by exact K. cbn [app].
  destruct (go_nodup ps [] (NoDup_nil _)) as [H _]. cbn [app] in H.
  match goal with |- (if ?b then _ else _) = _ => destruct b eqn:B end; [|reflexivity]. destruct D. now apply H.
Qed.
(** A configuration without probes reads the first element of an empty vector. *)
Theorem C132_none_refuted : controller [] = UB.
Proof. reflexivity. Qed.

Definition er (s x : string) : prb := Prb (Field "E" "r") s x.
Example C132_ex :
  let ps := [er "rec" "0-10_0-20"; er "col" "5"; Prb (Quant "density" "electrons") "rec" "0-10_0-20"; Prb (Quant "density" "ions") "rec" "0-10_0-20"; Prb (Moment "z" "electrons") "rec" "0-10_0-20"] in
  (Forall (fun p => known (what p)) ps /\ NoDup (map group_of ps)) /\
  ~ NoDup (map group_of (ps ++ [er "rec" "0-10_20-40"])) /\
  controller (map path_of (ps ++ [er "rec" "0-10_20-40"])) = Fatal.
Proof.
  cbn zeta. split; [split|split].
  - repeat constructor; cbn; tauto.
  - unfold er, group_of. cbn. repeat constructor; cbn; intuition discriminate.
  - unfold er, group_of. cbn. intros H. inversion H as [|x l N _]; subst. apply N. cbn. tauto.
  - vm_compute. reflexivity.
Qed.

(** * C133: what a writer writes *)
(** ** Specification: the grids of the components *)
Definition fields : list (string * source) :=
  [("E/r", SrcE 0); ("E/phi", SrcE 1); ("E/z", SrcE 2); ("H/r", SrcH 0); ("H/phi", SrcH 1); ("H/z", SrcH 2);
   ("J/r", SrcJ 0); ("J/phi", SrcJ 1); ("J/z", SrcJ 2)]%string.
Definition quantities : list (string * quantity) :=
  [("temperature", QTemperature); ("density", QDensity); ("energy", QEnergy);
   ("momentum/r", QMomentum 0); ("momentum/phi", QMomentum 1); ("momentum/z", QMomentum 2)]%string.

Lemma find_spec name : forall l n acc,
  (In name l -> exists k, find_specie name l n acc = Some (n + k)%nat /\ nth_error l k = Some name /\ forall k', (k < k')%nat -> nth_error l k' <> Some name) /\
  (~ In name l -> find_specie name l n acc = acc).
Proof.
  induction l as [|a l IH]; intros n acc; cbn [find_specie In]; split.
  - intros [].
  - reflexivity.
  - intros J. destruct (in_dec string_dec name l) as [I|I].
    + destruct (proj1 (IH (S n) (if (name =? a)%string then Some n else acc)) I) as (k & E & X & L).
      exists (S k). split; [rewrite E; f_equal; lia|]. split; [exact X|]. intros [|k'] ?; [lia|]. cbn [nth_error]. apply L. lia.
    + destruct J as [->|J]; [|contradiction]. rewrite (proj2 (IH _ _) I), String.eqb_refl.
      exists 0%nat. split; [f_equal; lia|]. split; [reflexivity|]. intros [|k'] ?; [lia|]. cbn [nth_error]. intros E. apply I. now apply nth_error_In in E.
  - intros N. destruct (String.eqb_spec name a) as [->|]; [destruct N; now left|]. apply IH. tauto.
Qed.

(** A writer of a field or current component writes the grid of that component. *)
Theorem C133_fields : forall c s, In (c, s) fields -> forall specie l, choose c specie l = Writes s.
Proof. intros c s H specie l. cbn in H. repeat (destruct H as [H|H]; [injection H as <- <-; reflexivity|]). destruct H. Qed.
(** A writer of a quantity of a species writes the map of that species of the domain;
    without such a species in the list the probe gets no writer. *)
Theorem C133_quantities : forall c q, In (c, q) quantities -> forall specie l, 
  (forall k, nth_error l k = Some specie -> NoDup l -> choose c specie l = Writes (SrcMap q k)) /\
  (~ In specie l -> choose c specie l = Skipped).
Proof.
  intros c q H specie l.
  assert (E : choose c specie l = of_specie q specie l).
  { cbn in H. repeat (destruct H as [H|H]; [injection H as <- <-; reflexivity|]). destruct H. }
  rewrite E. unfold of_specie. split.
  - intros k K N. destruct (proj1 (find_spec specie l 0 None) (nth_error_In _ _ K)) as (k' & -> & K' & _). cbn [Nat.add].
    do 2 f_equal. apply (proj1 (NoDup_nth_error l) N).
    + apply nth_error_Some. now rewrite K'.
    + now rewrite K, K'.
  - intros N. now rewrite (proj2 (find_spec specie l 0 None) N).
Qed.
(** With a repeated name the last species of the list is written. *)
Theorem C133_last : forall c q, In (c, q) quantities -> forall specie l k,
  nth_error l k = Some specie -> (forall k', (k < k')%nat -> nth_error l k' <> Some specie) -> choose c specie l = Writes (SrcMap q k).
Proof.
  intros c q H specie l k K L.
  assert (E : choose c specie l = of_specie q specie l).
  { cbn in H. repeat (destruct H as [H|H]; [injection H as <- <-; reflexivity|]). destruct H. }
  rewrite E. unfold of_specie. destruct (proj1 (find_spec specie l 0 None) (nth_error_In _ _ K)) as (k' & -> & K' & L'). cbn [Nat.add].
  do 2 f_equal. destruct (Nat.lt_trichotomy k k') as [X|[X|X]]; [now destruct (L k' X)|easy|now destruct (L' k X)].
Qed.
(** Any other component leaves the pointer to the values without an initial value. *)
Theorem C133_unknown_refuted : forall c specie l, ~ In c (map fst fields) -> ~ In c (map fst quantities) -> choose c specie l = Uninitialised.
Proof.
  intros c specie l F Q. unfold choose.
  repeat match goal with |- context [(c =? ?s)%string] => destruct (String.eqb_spec c s) as [->|]; [exfalso; cbn in F, Q; tauto|] end.
  reflexivity.
Qed.
Example C133_ex :
  choose "density" "ions" ["electrons"; "ions"; "beam_electrons"] = Writes (SrcMap QDensity 1) /\
  choose "density" "electrons" ["electrons"; "ions"; "electrons"] = Writes (SrcMap QDensity 2) /\
  choose "density" "protons" ["electrons"; "ions"] = Skipped /\
  choose "E/x" "unknown" ["electrons"; "ions"] = Uninitialised.
Proof. repeat split; reflexivity. Qed.

Print Assumptions C131_column.
Print Assumptions C131_row.
Print Assumptions C131_dot.
Print Assumptions C131_edge_refuted.
Print Assumptions C132_datasets_partial.
Print Assumptions C132_same_group_refuted.
Print Assumptions C132_none_refuted.
Print Assumptions C133_fields.
Print Assumptions C133_quantities.
Print Assumptions C133_last.
Print Assumptions C133_unknown_refuted.
