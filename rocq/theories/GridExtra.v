(** Histories of single-cell writes, and the component-wise [Grid3D] stitching. *)
From Verif Require Import Base GridModel GridProofs.
From Coq Require Import ZifyBool.

Section H.
Context {T : Type}.

(** one call of [set] / [inc] / [dec] / [m_a] / [d_a]: the coordinates and the new-value function *)
Record access : Type := { ax : Z; ay : Z; aop : T -> T -> T; aval : T }.

Fixpoint run_accesses (l : list access) (g : grid T) : outcome (grid T) :=
  match l with
  | [] => Ok g
  | c :: l' => do g' <- op_assign (aop c) g (u32 (ax c)) (u32 (ay c)) (aval c); run_accesses l' g'
  end.

(** specification: apply, in order, exactly the operations addressed to (x, y) *)
Definition replay (l : list access) (x y : Z) (v0 : T) : T :=
  fold_left (fun v c => if (ax c =? x) && (ay c =? y) then aop c v (aval c) else v) l v0.

Definition in_window (g : grid T) (x y : Z) : Prop :=
  - os g <= x < xs g + os g /\ - os g <= y < ys g + os g.

Lemma run_accesses_spec l : forall g,
  wf g -> Forall (fun c => in_window g (ax c) (ay c)) l ->
  exists g', run_accesses l g = Ok g' /\ same_shape g g' /\
    forall x y, cell g' (x + os g) (y + os g) = replay l x y (cell g (x + os g) (y + os g)).
Proof.
  induction l as [|c l IH]; intros g W Hl.
  - exists g. split; [reflexivity|]. split; [apply same_shape_refl|]. reflexivity.
  - inversion Hl as [|? ? [Hx Hy] Hl']; subst. cbn [run_accesses].
    destruct (op_assign_spec (aop c) g (ax c) (ay c) (aval c) W Hx Hy) as (g1 & E & Hs & Hv & Hf).
    rewrite E; cbn [bind].
    assert (W1 : wf g1) by (eapply same_shape_wf; eauto).
    pose proof Hs as (S1 & S2 & S3 & S4 & S5).
    destruct (IH g1 W1) as (g' & E' & Hs' & Hc').
    { eapply Forall_impl; [|exact Hl']. intros c' [? ?]. unfold in_window. rewrite S3, S4, S5. split; assumption. }
    exists g'. split; [exact E'|]. split; [eapply same_shape_trans; eauto|].
    intros x y. specialize (Hc' x y). rewrite S5 in Hc'. rewrite Hc'. unfold replay; cbn [fold_left].
    f_equal. destruct ((ax c =? x) && (ay c =? y)) eqn:B.
    + assert (ax c = x) by lia. assert (ay c = y) by lia. subst x y. exact Hv.
    + apply Hf. lia.
Qed.

Variable add : T -> T -> T.

(** [Grid3D] stitching is the component-wise [Grid] stitching *)
Lemma lift3p_spec f (g h : grid3 T) a a' b b' c c' :
  f (c_r g) (c_r h) = Ok (a, a') -> f (c_phi g) (c_phi h) = Ok (b, b') -> f (c_z g) (c_z h) = Ok (c, c') ->
  lift3p f g h = Ok (mkGrid3 a b c, mkGrid3 a' b' c').
Proof. intros H1 H2 H3. unfold lift3p. now rewrite H1; cbn [bind]; rewrite H2; cbn [bind]; rewrite H3. Qed.
End H.
Arguments access : clear implicits.
