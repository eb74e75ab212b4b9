(** Proofs about the reading of the configuration. *)
From Coq Require Import Reals Lra String ZifyBool.
From Verif Require Import Base RndUtil PushModel HashModel CfgModel CheckModel CfgJsonModel.
Open Scope string_scope.

(** the value under a list of names *)
Fixpoint under (p : list string) (j : json) : option json :=
  match p with
  | [] => Some j
  | k :: p => match j with Obj m => match lookup k m with Some v => under p v | None => None end | _ => None end
  end.

Lemma lookup_put k v m a : lookup a (put k v m) = if a =? k then Some v else lookup a m.
Proof.
  induction m as [|[b w] m IH]; cbn [put lookup]; [reflexivity|]. destruct (k =? b) eqn:E; cbn [lookup].
  - apply String.eqb_eq in E as <-. now destruct (a =? k).
  - rewrite IH. destruct (a =? b) eqn:F, (a =? k) eqn:G; try reflexivity.
    apply String.eqb_eq in F, G. subst. rewrite String.eqb_refl in E. discriminate.
Qed.
Lemma put_same k v m : lookup k m = Some v -> put k v m = m.
Proof.
  induction m as [|[b w] m IH]; cbn [put lookup]; [discriminate|]. destruct (k =? b); [now intros [= ->]|]. intros H. now rewrite IH.
Qed.
Lemma put_put k v w m : put k v (put k w m) = put k v m.
Proof.
  induction m as [|[b x] m IH]; cbn [put]; [now rewrite String.eqb_refl|]. destruct (k =? b) eqn:E; cbn [put]; rewrite E; [reflexivity|]. now rewrite IH.
Qed.
Lemma put_comm k l v w m : lookup k m <> None -> k <> l -> put k v (put l w m) = put l w (put k v m).
Proof.
  intros H N. induction m as [|[b x] m IH]; cbn [put lookup] in *; [now destruct H|].
  destruct (l =? b) eqn:F.
  - apply String.eqb_eq in F as <-. destruct (k =? l) eqn:E; [now apply String.eqb_eq in E|]. cbn [put]. now rewrite E, String.eqb_refl.
  - destruct (k =? b) eqn:E; cbn [put]; rewrite ?E, ?F; [reflexivity|]. now rewrite IH.
Qed.

(** [f] gives [a] exactly where [P] says so, and leaves what it reads unchanged *)
Definition Pure {A} (f : reads A) (P : json -> A -> Prop) : Prop := forall j a j', f j = Ok (a, j') <-> P j a /\ j' = j.
(** nothing is read from null *)
Definition strict {A} (P : json -> A -> Prop) : Prop := forall a, ~ P Null a.

Lemma pure_give A (o : outcome A) : Pure (give o) (fun _ a => o = Ok a).
Proof. intros j a j'. unfold give. destruct o; cbn [bind]; split; try discriminate; try (intros [H _]; discriminate). - intros [= <- <-]. auto. - intros [[= <-] ->]. auto. Qed.
Lemma pure_num : Pure num (fun j x => j = Num x).
Proof. intros j a j'. unfold num. destruct j; split; try discriminate; try (intros [H _]; discriminate). - intros [= <- <-]. auto. - intros [[= <-] ->]. auto. Qed.
Lemma pure_str : Pure str (fun j x => j = Str x).
Proof. intros j a j'. unfold str. destruct j; split; try discriminate; try (intros [H _]; discriminate). - intros [= <- <-]. auto. - intros [[= <-] ->]. auto. Qed.
Lemma pure_bool : Pure boolean (fun j x => j = Bool x).
Proof. intros j a j'. unfold boolean. destruct j; split; try discriminate; try (intros [H _]; discriminate). - intros [= <- <-]. auto. - intros [[= <-] ->]. auto. Qed.
Lemma pure_obj : Pure obj (fun j _ => exists m, j = Obj m).
Proof.
  intros j [] j'. unfold obj. destruct j; split; try discriminate; try (intros [[? H] _]; discriminate). - intros [= <-]. eauto. - intros [_ ->]. auto.
Qed.
Lemma pure_seq A B (f : reads A) P (h : A -> reads B) Q : Pure f P -> (forall a, P = P -> Pure (h a) (Q a)) ->
  Pure (seq f h) (fun j b => exists a, P j a /\ Q a j b).
Proof.
  intros Hf Hh j b j'. unfold seq. split.
  - destruct (f j) as [[a j1]| |] eqn:E; cbn [bind]; try discriminate. intros H. apply Hf in E as [E ->]. apply (Hh a eq_refl) in H as [H ->]. split; eauto.
  - intros [(a & Pa & Qb) ->]. rewrite (proj2 (Hf j a j)) by auto. cbn [bind]. apply (Hh a eq_refl). auto.
Qed.
Lemma pure_key A k (f : reads A) P : Pure f P -> strict P -> Pure (key k f) (fun j a => exists v, under [k] j = Some v /\ P v a).
Proof.
  intros Hf Hs j a j'. unfold key. destruct j as [| | | | |m]; split; try discriminate; try (intros [(v & H & _) _]; discriminate).
  - unfold value_of. destruct (lookup k m) as [v|] eqn:L.
    + destruct (f v) as [[b v']| |] eqn:E; cbn [bind]; try discriminate. intros [= <- <-]. apply Hf in E as [E ->]. rewrite put_same by auto.
      split; [|reflexivity]. exists v. cbn [under]. now rewrite L.
    + destruct (f Null) as [[b v']| |] eqn:E; cbn [bind]; try discriminate. apply Hf in E as [E _]. now apply Hs in E.
  - intros [(v & H & Pv) ->]. cbn [under] in H. destruct (lookup k m) as [w|] eqn:L; [|discriminate]. injection H as ->.
    unfold value_of. rewrite L. rewrite (proj2 (Hf v a v)) by auto. cbn [bind]. now rewrite put_same.
Qed.
Lemma pure_ext A (f : reads A) P Q : Pure f P -> (forall j a, P j a <-> Q j a) -> Pure f Q.
Proof. intros H E j a j'. rewrite (H j a j'). now rewrite E. Qed.
Lemma strict_ext A (P Q : json -> A -> Prop) : strict P -> (forall j a, Q j a -> P j a) -> strict Q.
Proof. intros H E a Q0. apply (H a). auto. Qed.

(** one element after the other, each knowing those before *)
Inductive Chain {A} (P : list A -> json -> A -> Prop) : list A -> list json -> list A -> Prop :=
| chain_nil acc : Chain P acc [] []
| chain_cons acc e es a l : P acc e a -> Chain P (acc ++ [a])%list es l -> Chain P acc (e :: es) (a :: l).
Lemma each_gen A (f : list A -> reads A) (P : list A -> json -> A -> Prop) (g : json -> json) :
  (forall acc e a e', f acc e = Ok (a, e') <-> P acc e a /\ e' = g e) ->
  forall es acc r es', each f acc es = Ok (r, es') <-> exists l, r = (acc ++ l)%list /\ Chain P acc es l /\ es' = map g es.
Proof.
  intros Hf. induction es as [|e es IH]; intros acc r es'; cbn [each map].
  - split; [intros [= <- <-]; exists []; rewrite app_nil_r; repeat split; constructor|]. intros (l & -> & C & ->). inversion C; subst. now rewrite app_nil_r.
  - split.
    + destruct (f acc e) as [[a e1]| |] eqn:E; cbn [bind]; try discriminate. apply Hf in E as [E ->].
      destruct (each f (acc ++ [a])%list es) as [[r' l']| |] eqn:F; cbn [bind]; try discriminate. intros [= <- <-]. apply IH in F as (l & -> & C & ->).
      exists (a :: l). rewrite <- app_assoc. split; [reflexivity|]. split; [now constructor|reflexivity].
    + intros (l & -> & C & ->). inversion C as [|? ? ? a l0 Pa C']; subst. rewrite (proj2 (Hf acc e a (g e))) by auto. cbn [bind].
      rewrite (proj2 (IH (acc ++ [a])%list (acc ++ a :: l0)%list (map g es))); [reflexivity|]. exists l0. rewrite <- app_assoc. auto.
Qed.
Lemma chain_ext A (P Q : list A -> json -> A -> Prop) acc es l : (forall acc e a, P acc e a <-> Q acc e a) -> Chain P acc es l <-> Chain Q acc es l.
Proof. intros H. split; intros C; induction C; constructor; auto; now apply H. Qed.
Lemma chain_forall2 A (P : json -> A -> Prop) acc es l : Chain (fun _ => P) acc es l <-> Forall2 P es l.
Proof.
  split; [intros C; induction C; constructor; auto|]. revert acc l. induction es; intros acc l F; inversion F; subst; constructor; auto.
Qed.
Lemma existsb_known A (name : A -> string) l n : known name l n = false <-> ~ In n (map name l).
Proof.
  unfold known. rewrite in_map_iff. split.
  - intros E (a & <- & I). assert (existsb (fun b => name b =? name a) l = true); [|congruence]. apply existsb_exists. exists a. split; auto. apply String.eqb_refl.
  - intros N. destruct (existsb _ l) eqn:E; [|reflexivity]. apply existsb_exists in E as (a & I & E). apply String.eqb_eq in E. destruct N. eauto.
Qed.
Lemma nodup_snoc A (l : list A) a : NoDup (l ++ [a]) <-> NoDup l /\ ~ In a l.
Proof.
  split.
  - intros H. apply NoDup_remove in H as [H1 H2]. rewrite app_nil_r in *. auto.
  - intros [H1 H2]. apply NoDup_Add with (a := a) (l := l); [|auto]. replace l with (l ++ [])%list at 1 by apply app_nil_r. apply Add_app.
Qed.
Lemma nodup_left A (l m : list A) : NoDup (l ++ m) -> NoDup l.
Proof. induction l as [|a l IH]; cbn [app]; intros H; [constructor|]. inversion H; subst. constructor; [|auto]. intros I. match goal with N : ~ In a _ |- _ => apply N end. apply in_or_app. auto. Qed.
(** names that are new each time are all different *)
Lemma chain_names A (name : A -> string) (P : json -> A -> Prop) es : forall acc l, NoDup (map name acc) ->
  Chain (fun acc e a => ~ In (name a) (map name acc) /\ P e a) acc es l <-> Forall2 P es l /\ NoDup (map name (acc ++ l)).
Proof.
  induction es as [|e es IH]; intros acc l H; (split; [intros C|intros [F N]]).
  - inversion C; subst. rewrite app_nil_r. auto.
  - inversion F; subst. constructor.
  - inversion C as [|? ? ? a l0 [Na Pa] C']; subst. apply IH in C' as [F N].
    + rewrite <- app_assoc in N. auto.
    + rewrite map_app. cbn [map]. apply nodup_snoc. auto.
  - inversion F as [|? a ? l0 Pa F']; subst. change (a :: l0) with ([a] ++ l0)%list in N. rewrite app_assoc in N.
    assert (N' := N). rewrite map_app in N'. apply nodup_left in N'. rewrite map_app in N'. cbn [map] in N'. apply nodup_snoc in N' as [_ N'].
    constructor; [auto|]. apply IH; [|auto]. rewrite map_app. cbn [map]. apply nodup_snoc. auto.
Qed.
Lemma pure_items A (f : list A -> reads A) P : (forall acc, Pure (f acc) (P acc)) ->
  Pure (items f) (fun j l => exists es, j = Arr es /\ Chain P [] es l).
Proof.
  intros H j r j'. unfold items. destruct j as [| | | |es|]; split; try discriminate; try (intros [(es & E & _) _]; discriminate).
  - destruct (each f [] es) as [[r' es']| |] eqn:E; cbn [bind]; try discriminate. intros [= <- <-].
    apply (each_gen _ f P (fun e => e)) in E; [|apply H]. destruct E as (l & -> & C & ->). rewrite map_id. cbn [app]. split; eauto.
  - intros [(es' & [= <-] & C) ->]. rewrite (proj2 (each_gen _ f P (fun e => e) (fun acc => H acc) es [] r (map (fun e => e) es))) by (exists r; auto).
    cbn [bind]. now rewrite map_id.
Qed.
Lemma pure_if A (c : bool) (f g : reads A) P Q : Pure f P -> Pure g Q -> Pure (if c then f else g) (fun j a => if c then P j a else Q j a).
Proof. intros. now destruct c. Qed.

(** ** Conversions *)
Open Scope R_scope.
(** [n] is [x] without its fraction *)
Definition chops (x : R) (n : Z) : Prop := (0 <= x -> IZR n <= x < IZR n + 1) /\ (x < 0 -> IZR n - 1 < x <= IZR n).
Lemma int_part_unique x n : IZR n <= x < IZR n + 1 -> Int_part x = n.
Proof.
  intros [A B]. destruct (base_Int_part x) as [C D].
  assert (IZR n - 1 < IZR (Int_part x) < IZR n + 1) as [E F] by lra. rewrite <- plus_IZR in F. rewrite <- minus_IZR in E.
  apply lt_IZR in E, F. lia.
Qed.
Lemma truncR_chops x n : truncR x = n <-> chops x n.
Proof.
  unfold truncR, chops. destruct (Rle_dec 0 x) as [H|H]; split.
  - intros <-. pose proof (base_Int_part x). split; intros; lra.
  - intros [A _]. now apply int_part_unique, A.
  - intros <-. pose proof (base_Int_part (- x)). rewrite opp_IZR. split; intros; lra.
  - intros [_ A]. rewrite (int_part_unique (- x) (- n)); [lia|]. rewrite opp_IZR. lra.
Qed.
Lemma to_u64_ok x n : to_u64 x = Ok n <-> chops x n /\ (0 <= n < 2 ^ 64)%Z.
Proof.
  rewrite <- truncR_chops. unfold to_u64. destruct ((0 <=? truncR x) && (truncR x <? 2 ^ 64))%Z eqn:E; split; try discriminate.
  - intros [= <-]. lia. - intros [-> _]. auto. - intros [<- H]. lia.
Qed.
Lemma to_u32_ok x n : to_u32 x = Ok n <-> chops x n /\ (0 <= n < 2 ^ 32)%Z.
Proof.
  rewrite <- truncR_chops. unfold to_u32. destruct ((0 <=? truncR x) && (truncR x <? 2 ^ 32))%Z eqn:E; split; try discriminate.
  - intros [= <-]. lia. - intros [-> _]. auto. - intros [<- H]. lia.
Qed.
Lemma to_s32_ok x n : to_s32 x = Ok n <-> chops x n /\ (- 2 ^ 31 <= n < 2 ^ 31)%Z.
Proof.
  rewrite <- truncR_chops. unfold to_s32. destruct ((- 2 ^ 31 <=? truncR x) && (truncR x <? 2 ^ 31))%Z eqn:E; split; try discriminate.
  - intros [= <-]. lia. - intros [-> _]. auto. - intros [<- H]. lia.
Qed.
Lemma chops_integer n : chops (IZR n) n.
Proof. split; intros; lra. Qed.
Lemma read_pml_ok x n l : read_pml x n = Ok l <-> IZR l <= x * IZR n < IZR l + 1 /\ (0 <= l < 2 ^ 64)%Z.
Proof.
  unfold read_pml. rewrite to_u64_ok. split; intros [A B]; (split; [|exact B]).
  - assert (Int_part (x * IZR n) = l) as <-; [|pose proof (base_Int_part (x * IZR n)); lra].
    apply truncR_chops in A. rewrite (proj2 (truncR_chops _ _) (chops_integer _)) in A. exact A.
  - apply int_part_unique in A. rewrite A. apply chops_integer.
Qed.
Lemma read_domains_ok x n : read_domains x = Ok n <-> exists m, chops x m /\ (- 2 ^ 31 <= m < 2 ^ 31)%Z /\ n = (m mod 2 ^ 64)%Z.
Proof.
  unfold read_domains. split.
  - destruct (to_s32 x) as [m| |] eqn:E; cbn [bind]; try discriminate. apply to_s32_ok in E as [E B]. intros [= <-]. exists m. auto.
  - intros (m & C & B & ->). rewrite (proj2 (to_s32_ok x m)) by auto. reflexivity.
Qed.
