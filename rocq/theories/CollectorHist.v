(** Any number of steps: the particles move (arbitrarily), then the collector runs. *)
From Verif Require Import Base ListUtil DecompModel DecompProofs CollectorModel CollectorProofs.
From Coq Require Import ZifyBool Permutation.

Section Hist.
Context {P : Type}.
Variables cr cz : P -> Z.
Variable a : area.

(** pushing the particles changes their attributes but not the vectors they are in *)
Definition move_all (f : P -> P) (st : smb P) : smb P :=
  fun i j => map (fun s => (fst s, map f (snd s))) (st i j).

Fixpoint run_steps (moves : list (P -> P)) (st : smb P) : outcome (smb P) :=
  match moves with
  | [] => Ok st
  | f :: moves' => do st' <- collect P cr cz a (code_order a) (move_all f st); run_steps moves' st'
  end.

(** specification on the plain multiset of particles of one species *)
Fixpoint survivors (moves : list (P -> P)) (l : list P) : list P :=
  match moves with [] => l | f :: moves' => survivors moves' (filter (alive cr cz a) (map f l)) end.

Hypothesis HA : good_area a.
Hypothesis Hint : forall p, int_cells cr cz p.

Lemma move_all_ids f ids st : ids_ok a ids st -> ids_ok a ids (move_all f st).
Proof.
  intros [Hn Hm]. split; [exact Hn|]. intros i j Hi Hj. unfold move_all. rewrite map_map. cbn [fst]. now apply Hm.
Qed.
Lemma particles_of_move f sid st : particles_of a sid (move_all f st) = map f (particles_of a sid st).
Proof.
  unfold particles_of, move_all.
  generalize (pairs (rd_ a) (zd_ a)) as L. induction L as [|[i j] L IH]; [reflexivity|].
  cbn [flat_map fst snd]. rewrite map_app, IH. f_equal.
  induction (st i j) as [|[s l] d IHd]; [reflexivity|]. cbn [map flat_map fst snd]. rewrite map_app, IHd.
  f_equal. now destruct (s =? sid).
Qed.
Lemma cntl_map {A B} (f : B -> bool) (g : A -> B) l : cntl f (map g l) = cntl (fun x => f (g x)) l.
Proof. induction l as [|x l IH]; [reflexivity|]. cbn [map]. now rewrite !cntl_cons, IH. Qed.

Lemma survivors_cntl moves : forall l l', (forall f, cntl f l = cntl f l') ->
  forall f, cntl f (survivors moves l) = cntl f (survivors moves l').
Proof.
  induction moves as [|g moves IH]; intros l l' H f; cbn [survivors]; [apply H|].
  apply IH. intros h. rewrite !cntl_filter, !cntl_map. apply H.
Qed.

Lemma run_steps_spec ids moves : forall st, ids_ok a ids st ->
  exists st', run_steps moves st = Ok st' /\ ids_ok a ids st' /\
    (moves <> [] -> forall i j, 0 <= i < rd_ a -> 0 <= j < zd_ a -> all_home cr cz a i j (st' i j)) /\
    forall f sid, cntl f (particles_of a sid st') = cntl f (survivors moves (particles_of a sid st)).
Proof.
  induction moves as [|g moves IH]; intros st Hids; cbn [run_steps survivors].
  - exists st. split; [reflexivity|]. split; [exact Hids|]. split; [congruence|reflexivity].
  - assert (Hp : 0 <= rd_ a /\ 0 <= zd_ a) by (destruct HA as (H1 & H2 & _); unfold sane in *; lia).
    destruct (collect_total cr cz a HA ids (code_order a) (move_all g st)) as (st1 & E & A1 & A2 & A3 & A4).
    + now apply move_all_ids.
    + intros ? ? ? ? ? ? ? ? ?. apply Hint.
    + intros i j. apply code_order_In; tauto.
    + rewrite E; cbn [bind]. destruct (IH st1 A1) as (st2 & E2 & B1 & B2 & B3).
      exists st2. split; [exact E2|]. split; [exact B1|]. split.
      * intros _. destruct moves as [|h moves]; [|apply B2; discriminate].
        cbn [run_steps] in E2. injection E2 as <-. exact A3.
      * intros f sid. rewrite B3. apply survivors_cntl. intros h. rewrite A4, particles_of_move. reflexivity.
Qed.
End Hist.
