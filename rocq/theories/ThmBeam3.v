(** C145: the collisions of freshly injected beam particles.  The collisions of a step come after the injection and before the next
    [bind_cell_numbers] (SMB.cpp:1288-1303), so that they use the cell numbers stored by [inject]. *)
From Coq Require Import Reals Lra String Psatz.
From Verif Require Import Base RndUtil ParticleModel ParticleProofs BeamModel ThmBeam ThmBeam2.
From Verif Require Import PushModel CollModel CollOpModel CollPhaseModel CollPhaseProofs ThmPhase.
Open Scope Z_scope.

(** ** Specification *)
(** the particle at [p] was injected at (r, z) into the domain [d] and has not been moved *)
Definition fresh (b : beam) (d : bdom) (dz dt : Rdefinitions.R) (h : heap) (p : nat) (r z : Rdefinitions.R) : Prop :=
  exists u v i k, injected_particle b d dz dt u v = (r, z, i, k) /\ cp_cell (h p) = (i, k).
(** the cell of a position *)
Definition cell_of (dx x : Rdefinitions.R) (i : Z) : Prop := (IZR i * dx <= x < (IZR i + 1) * dx)%R.

Lemma cell_of_number dx x i : (0 < dx)%R -> (cell_of dx x i <-> cell_number x dx = i).
Proof.
  intros H. unfold cell_of, cell_number. split.
  - intros [A B]. apply Int_part_unique. split.
    + apply (Rmult_le_reg_r dx); [lra|]. replace (x / dx * dx)%R with x by (field; lra). lra.
    + apply (Rmult_lt_reg_r dx); [lra|]. replace (x / dx * dx)%R with x by (field; lra). lra.
  - intros <-. destruct (Int_part_bounds (x / dx)) as [A B]. replace x with (x / dx * dx)%R at 2 3 by (field; lra). split.
    + apply Rmult_le_compat_r; lra.
    + apply Rmult_lt_compat_r; lra.
Qed.
Lemma fresh_cell b d dz dt h p r z : fresh b d dz dt h p r z -> cp_cell (h p) = (cell_number r (d_dr d), cell_number r dz).
Proof. intros (u & v & i & k & E & ->). unfold injected_particle in E. injection E as <- <- <- <-. reflexivity. Qed.

(** a particle gets into the list of the cell it is in exactly if its radius, too, is in the longitudinal range of that cell *)
Theorem C145_own_cell_partial : forall b d dz dt nr nz d1 h sp m0 m p s r z i j, (0 < d_dr d)%R -> (0 < dz)%R ->
  sort_to_cells nr nz (d_bot d) d1 h sp (clear nr nz m0) = Ok m -> In s sp -> In p (sp_ptrs s) -> fresh b d dz dt h p r z ->
  inner nr nz i j = true -> cell_of (d_dr d) r (i + d_bot d) -> cell_of dz z (j + d1) ->
  (In p (m (kind_of s) i j) <-> cell_of dz r (j + d1)).
Proof.
  intros b d dz dt nr nz d1 h sp m0 m p s r z i j Hr Hz E Hs Hp F I Ci Cj. rewrite (sort_spec _ _ _ _ _ _ _ _ E), (clear_inner nr nz m0 _ i j I). cbn [app].
  rewrite filter_In. unfold in_cell. rewrite (fresh_cell _ _ _ _ _ _ _ _ F). cbn [fst snd].
  apply (cell_of_number _ _ _ Hr) in Ci. rewrite (cell_of_number _ _ _ Hz). split.
  - intros [_ Q]. lia.
  - intros Q. split; [|lia]. unfold ptrs_of. apply in_flat_map. exists s. split; [|exact Hp]. apply filter_In. split; [exact Hs|].
    now apply kind_eqb_eq.
Qed.
(** the radius decides on the list; when it is more than two cells beyond the right border of the domain, measured in dz, the
    push leaves the grid *)
Theorem C145_undefined_refuted : forall b d dz dt nr nz d1 h sp m0 p r z, (0 < d_dr d)%R -> (0 < dz)%R ->
  In p (all_ptrs sp) -> fresh b d dz dt h p r z -> (IZR (d1 + nz + 2) * dz <= r)%R ->
  sort_to_cells nr nz (d_bot d) d1 h sp (clear nr nz m0) = UB.
Proof.
  intros b d dz dt nr nz d1 h sp m0 p r z Hr Hz Hp F L.
  destruct (sort_to_cells _ _ _ _ _ _ _) as [m| |] eqn:E; [exfalso|now destruct (sort_died nr nz (d_bot d) d1 h sp _ E)|reflexivity].
  destruct (sort_near _ _ _ _ _ _ _ _ E p Hp) as [_ [_ Q]]. rewrite (fresh_cell _ _ _ _ _ _ _ _ F) in Q. cbn [snd] in Q.
  assert (C : cell_of dz r (cell_number r dz)) by now apply cell_of_number. unfold cell_of in C.
  assert (IZR (cell_number r dz) + 1 <= IZR (d1 + nz + 2))%R by (rewrite <- plus_IZR; apply IZR_le; lia). nra.
Qed.
(** both happen: a beam of radius 4 in a domain of 4 x 2 cells.  With dz = 1/2 the sorting is undefined, with dz = 1 the particle,
    which is in cell (2, 0), is in the list of no cell of the domain *)
Definition d_col : bdom := {| d_bot := 0; d_left := 0; d_top := 4; d_size := 4; d_dr := 1 |}.
Lemma col_particle dz : injected_particle (b_ex 2 3) d_col dz (1 / 4) (1 / 2) 0 = ((5 / 2)%R, (dz / 2)%R, 2, cell_number (5 / 2) dz).
Proof.
  assert (RD : domain_radius (b_ex 2 3) d_col = 4%R).
  { unfold domain_radius, b_ex, d_col. cbn [d_left d_top d_bot d_dr d_size b_radius Z.ltb Z.compare].
    rewrite (proj2 (Rltb_false _ _)) by lra. rewrite (proj2 (Rltb_true _ _)) by lra. lra. }
  unfold injected_particle. cbv zeta. rewrite RD. unfold d_col, b_ex. cbn [d_dr d_bot b_velocity].
  replace (4 * (1 / 2) + 1 / 2 + 0 * 1)%R with (5 / 2)%R by lra.
  replace (1 * (1 / 4) * 0 + dz / 2)%R with (dz / 2)%R by lra. do 2 f_equal. apply Int_part_unique. lra.
Qed.
Theorem C145_refuted : exists b d h p r z, sane b /\ reaches b d /\ d_bot d = 0 /\ d_top d = 4 /\ fresh b d (1 / 2) (1 / 4) h p r z /\
  cell_of 1 r 2 /\ cell_of (1 / 2) z 0 /\
  forall m0, sort_to_cells 4 2 0 0 h [Specie "beam_electrons" 1 (-1) [p]] (clear 4 2 m0) = UB.
Proof.
  exists (b_ex 2 3), d_col, (fun _ => CPart (2, 5) (Part 1 (V3 0 0 1))), O, (5 / 2)%R, (1 / 2 / 2)%R.
  split; [unfold sane, b_ex; cbn; repeat split; lra || lia|]. split; [unfold reaches, b_ex, d_col; cbn; repeat split; lra|].
  split; [reflexivity|]. split; [reflexivity|]. split.
  { exists (1 / 2)%R, 0%R, 2, 5. split; [|reflexivity]. rewrite col_particle. f_equal. apply Int_part_unique. lra. }
  split; [unfold cell_of; lra|]. split; [unfold cell_of; lra|]. reflexivity.
Qed.
Theorem C145_skipped_refuted : exists b d h p r z, sane b /\ reaches b d /\ d_bot d = 0 /\ d_top d = 4 /\ fresh b d 1 (1 / 4) h p r z /\
  cell_of 1 r 2 /\ cell_of 1 z 0 /\
  forall m0, exists m, sort_to_cells 4 2 0 0 h [Specie "beam_electrons" 1 (-1) [p]] (clear 4 2 m0) = Ok m /\
    forall k i j, inner 4 2 i j = true -> ~ In p (m k i j).
Proof.
  exists (b_ex 2 3), d_col, (fun _ => CPart (2, 2) (Part 1 (V3 0 0 1))), O, (5 / 2)%R, (1 / 2)%R.
  split; [unfold sane, b_ex; cbn; repeat split; lra || lia|]. split; [unfold reaches, b_ex, d_col; cbn; repeat split; lra|].
  split; [reflexivity|]. split; [reflexivity|]. split.
  { exists (1 / 2)%R, 0%R, 2, 2. split; [|reflexivity]. rewrite col_particle. f_equal. apply Int_part_unique. lra. }
  split; [unfold cell_of; lra|]. split; [unfold cell_of; lra|]. intros m0.
  destruct (sort_to_cells 4 2 0 0 (fun _ => CPart (2, 2) (Part 1 (V3 0 0 1))) [Specie "beam_electrons" 1 (-1) [O]] (clear 4 2 m0)) as [m| |] eqn:E;
    [|discriminate E..].
  exists m. split; [reflexivity|]. intros k i j I. rewrite (C127_lists 4 2 0 0 _ _ m0 m E k i j I), filter_In. cbn [cp_cell fst snd].
  unfold inner in I. intros [_ Q]. lia.
Qed.

Print Assumptions C145_own_cell_partial.
Print Assumptions C145_undefined_refuted.
Print Assumptions C145_refuted.
Print Assumptions C145_skipped_refuted.
