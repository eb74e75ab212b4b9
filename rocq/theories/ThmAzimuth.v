(** Theorems about the current deposition, continued: the azimuthal current of the Villasenor-Buneman scheme (C68) is taken at
    the middle of the path and split between the columns of nodes by its distance from them. *)
From Coq Require Import ZifyBool Reals Lra.
From Verif Require Import Base GridModel OverlayModel YeeModel ExtModel CurrentModel CurrentProofs ThmCurrent ThmCurrent2.
Open Scope Z_scope.

(** two moves of particles of the same charge and azimuthal velocity, bound for the same cell, whose paths have the same middle *)
Definition same_middle (p p' : mover) : Prop :=
  m_cr p = m_cr p' /\ m_cz p = m_cz p' /\ m_q p = m_q p' /\ m_vphi p = m_vphi p' /\
  (m_r p + m_ro p = m_r p' + m_ro p')%R /\ (m_z p + m_zo p = m_z p' + m_zo p')%R.
Theorem C68_middle : forall g p p', same_middle p p' -> forall x y, amount Cphi x y (azimuthal g p) = amount Cphi x y (azimuthal g p').
Proof.
  intros g p p' (E1 & E2 & E3 & E4 & E5 & E6) x y. unfold azimuthal. now rewrite E1, E2, E3, E4, E5, E6.
Qed.
(** the middle of the path measured from the left border of the cell *)
Definition middle_z (g : geo) (p : mover) : R := ((m_z p + m_zo p) / 2 - IZR (m_cz p) * g_dz g)%R.
Theorem C68_split : forall g p x, let k := (m_cz p - g_d1 g)%Z in
  (amount Cphi x (k + 1) (azimuthal g p) * (g_dz g - middle_z g p) = amount Cphi x k (azimuthal g p) * middle_z g p)%R.
Proof.
  intros g p x k. unfold azimuthal. set (r := ((m_r p + m_ro p) / 2)%R). set (z := ((m_z p + m_zo p) / 2)%R).
  replace ((IZR (m_cz p) + 1 / 2) * g_dz g - (z - 1 / 2 * g_dz g))%R with (g_dz g - middle_z g p)%R by (unfold middle_z; fold z; field).
  replace (z + 1 / 2 * g_dz g - (IZR (m_cz p) + 1 / 2) * g_dz g)%R with (middle_z g p) by (unfold middle_z; fold z; field).
  unfold ExtModel.cyl_rng_vol. cbn [amount ceqb andb]. subst k.
  rewrite !Z.eqb_refl. replace (m_cz p - g_d1 g + 1 =? m_cz p - g_d1 g) with false by lia.
  replace (m_cz p - g_d1 g =? m_cz p - g_d1 g + 1) with false by lia. rewrite !Bool.andb_false_r, !Bool.andb_true_r.
  unfold Rdiv. destruct (x =? m_cr p - g_d0 g), (x =? m_cr p - g_d0 g + 1); ring.
Qed.
(** a path through a cell and the same path backwards *)
Example C68_middle_ex : same_middle (mkMover (7/4) (3/4) (5/4) (1/4) 1 0 1 1) (mkMover (5/4) (1/4) (7/4) (3/4) 1 0 1 1) /\
  middle_z geo1 (mkMover (7/4) (3/4) (5/4) (1/2) 1 0 1 1) = (5 / 8)%R /\
  amount Cphi 3 0 (azimuthal geo1 edge_ex) <> 0%R.
Proof.
  split; [unfold same_middle; cbn; repeat split; lra|]. split; [unfold middle_z; cbn; lra|]. apply C69_border_ex.
Qed.
