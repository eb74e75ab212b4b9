(** Common vocabulary of the model: outcomes, C++ [for] loops, unsigned wrap-around. *)
From Coq Require Export ZArith List Lia Bool.
Export ListNotations.
Open Scope Z_scope.

(** Result of running a piece of C++ code.
    [Fatal]: the program was stopped by [LOG_S(FATAL)] (loguru aborts the process).
    [UB]: the code performs an operation with undefined behaviour. *)
Inductive outcome (A : Type) : Type :=
| Ok (a : A)
| Fatal
| UB.
Arguments Ok {A} a.
Arguments Fatal {A}.
Arguments UB {A}.

Definition bind {A B} (m : outcome A) (f : A -> outcome B) : outcome B :=
  match m with Ok a => f a | Fatal => Fatal | UB => UB end.

Notation "'do' x <- m ; k" := (bind m (fun x => k))
  (at level 60, x pattern, m at level 100, k at level 60, right associativity).

(** [unsigned int] is 32 bits, [size_t] 64 bits, [unsigned short] 16 bits
    (configure.ac: CFLAGS_DEFAULT "-m64"). *)
Definition u32 (z : Z) : Z := z mod 2 ^ 32.
Definition u64 (z : Z) : Z := z mod 2 ^ 64.
Definition u16 (z : Z) : Z := z mod 2 ^ 16.
(** conversion to a signed 16-bit [short] / 32-bit [int] (two's complement) *)
Definition s16 (z : Z) : Z := (z + 2 ^ 15) mod 2 ^ 16 - 2 ^ 15.
Definition s32 (z : Z) : Z := (z + 2 ^ 31) mod 2 ^ 32 - 2 ^ 31.

Lemma u32_small z : 0 <= z < 2 ^ 32 -> u32 z = z.
Proof. intros; unfold u32; now apply Z.mod_small. Qed.
Lemma u64_small z : 0 <= z < 2 ^ 64 -> u64 z = z.
Proof. intros; unfold u64; now apply Z.mod_small. Qed.
Lemma u16_small z : 0 <= z < 2 ^ 16 -> u16 z = z.
Proof. intros; unfold u16; now apply Z.mod_small. Qed.
Lemma u32_range z : 0 <= u32 z < 2 ^ 32.
Proof. unfold u32; apply Z.mod_pos_bound; lia. Qed.
Lemma s16_small z : - 2 ^ 15 <= z < 2 ^ 15 -> s16 z = z.
Proof. intros; unfold s16; rewrite Z.mod_small; lia. Qed.
Lemma s32_small z : - 2 ^ 31 <= z < 2 ^ 31 -> s32 z = z.
Proof. intros; unfold s32; rewrite Z.mod_small; lia. Qed.

(** [for (i = lo; i < hi; ++i) body] with a body that may fail. *)
Section Loop.
  Context {S : Type}.
  Fixpoint loop (n : nat) (i : Z) (body : Z -> S -> outcome S) (s : S) : outcome S :=
    match n with
    | O => Ok s
    | Datatypes.S n' => do s' <- body i s; loop n' (i + 1) body s'
    end.
  Definition for_to (lo hi : Z) (body : Z -> S -> outcome S) (s : S) : outcome S :=
    loop (Z.to_nat (hi - lo)) lo body s.

  (** loop invariant rule *)
  Lemma loop_inv (P : Z -> S -> Prop) n : forall i body s,
    P i s ->
    (forall k t, i <= k < i + Z.of_nat n -> P k t -> exists t', body k t = Ok t' /\ P (k + 1) t') ->
    exists s', loop n i body s = Ok s' /\ P (i + Z.of_nat n) s'.
  Proof.
    induction n as [|n IH]; intros i body s HP Hstep.
    - exists s; split; [reflexivity|]. now replace (i + Z.of_nat 0) with i by lia.
    - cbn [loop]. destruct (Hstep i s ltac:(lia) HP) as (t & Ht & HPt).
      rewrite Ht; cbn [bind].
      destruct (IH (i + 1) body t HPt) as (s' & Hs' & HP').
      { intros k u Hk HPu. apply Hstep; [lia|exact HPu]. }
      exists s'; split; [exact Hs'|].
      now replace (i + Z.of_nat (Datatypes.S n)) with (i + 1 + Z.of_nat n) by lia.
  Qed.

  Lemma for_inv (P : Z -> S -> Prop) lo hi body s :
    lo <= hi ->
    P lo s ->
    (forall k t, lo <= k < hi -> P k t -> exists t', body k t = Ok t' /\ P (k + 1) t') ->
    exists s', for_to lo hi body s = Ok s' /\ P hi s'.
  Proof.
    intros Hle HP Hstep. unfold for_to.
    destruct (loop_inv P (Z.to_nat (hi - lo)) lo body s HP) as (s' & H1 & H2).
    { intros k t Hk; apply Hstep; lia. }
    exists s'; split; [exact H1|]. now replace hi with (lo + Z.of_nat (Z.to_nat (hi - lo))) by lia.
  Qed.

  (** the loop reaches undefined behaviour at iteration [k0] (or earlier) *)
  Lemma for_ub (P : Z -> S -> Prop) lo hi k0 body s :
    lo <= k0 < hi ->
    P lo s ->
    (forall k t, lo <= k < k0 -> P k t -> (exists t', body k t = Ok t' /\ P (k + 1) t') \/ body k t = UB) ->
    (forall t, P k0 t -> body k0 t = UB) ->
    for_to lo hi body s = UB.
  Proof.
    intros Hk HP Hstep Hub. unfold for_to.
    assert (G : forall n i t, i <= k0 -> k0 < i + Z.of_nat n -> lo <= i -> P i t -> loop n i body t = UB).
    { induction n as [|n IH]; intros i t H1 H2 H3 HPi; [lia|]. cbn [loop].
      destruct (Z.eq_dec i k0) as [->|Hne]; [now rewrite (Hub t HPi)|].
      destruct (Hstep i t ltac:(lia) HPi) as [(t' & E & HP')|E]; rewrite E; cbn [bind]; [|reflexivity].
      apply IH; auto; lia. }
    apply G; auto; lia.
  Qed.

  (** partial-correctness rule *)
  Lemma for_partial (P : S -> Prop) lo hi body : forall s s',
    (forall k t t', lo <= k < hi -> P t -> body k t = Ok t' -> P t') ->
    P s -> for_to lo hi body s = Ok s' -> P s'.
  Proof.
    intros s s' Hstep HP. unfold for_to.
    assert (G : forall n i t, lo <= i -> i + Z.of_nat n <= Z.max lo hi -> P t -> loop n i body t = Ok s' -> P s').
    { induction n as [|n IH]; intros i t H1 H2 HPt; cbn [loop].
      - now intros [= <-].
      - destruct (body i t) as [t'| |] eqn:E; cbn [bind]; try discriminate.
        apply IH; [lia|lia|]. apply (Hstep i t t'); auto; lia. }
    apply G; auto; lia.
  Qed.

  Lemma for_empty lo hi body s : hi <= lo -> for_to lo hi body s = Ok s.
  Proof. intros; unfold for_to. now replace (Z.to_nat (hi - lo)) with O by lia. Qed.
End Loop.
