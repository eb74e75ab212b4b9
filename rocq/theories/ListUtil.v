(** Small list facts used in several proofs. *)
From Verif Require Import Base.
From Coq Require Import ZifyBool Permutation.

Lemma nodup_app {A} (l l' : list A) :
  NoDup l -> NoDup l' -> (forall x, In x l -> ~ In x l') -> NoDup (l ++ l').
Proof.
  induction l as [|z q IH]; intros Hq Hl' Hd; cbn [app]; [exact Hl'|].
  inversion Hq; subst. constructor.
  - rewrite in_app_iff. intros [?|?]; [auto|]. apply (Hd z); [now left|assumption].
  - apply IH; auto. intros p Hp. apply Hd. now right.
Qed.
Lemma nodup_map_inj {A B} (f : A -> B) l :
  (forall x y, In x l -> In y l -> f x = f y -> x = y) -> NoDup l -> NoDup (map f l).
Proof.
  induction l as [|x l IH]; intros Hf Hn; cbn [map]; [constructor|]. inversion Hn; subst. constructor.
  - rewrite in_map_iff. intros (y & E & Hy). assert (y = x) by (apply Hf; [now right|now left|assumption]).
    subst; contradiction.
  - apply IH; auto. intros u v Hu Hv. apply Hf; now right.
Qed.
Lemma nodup_prod {A B} (l : list A) (l' : list B) : NoDup l -> NoDup l' -> NoDup (list_prod l l').
Proof.
  intros Hl Hl'. induction Hl as [|x l Hx Hl IH]; cbn [list_prod]; [constructor|].
  apply nodup_app; [|exact IH|].
  - apply nodup_map_inj; [|exact Hl']. congruence.
  - intros [u v] Hin Hin2. apply in_map_iff in Hin as (y & [= <- <-] & _). apply in_prod_iff in Hin2. tauto.
Qed.

Fixpoint range (n : nat) : list Z := match n with O => [] | S n' => range n' ++ [Z.of_nat n'] end.
Lemma In_range n x : In x (range n) <-> 0 <= x < Z.of_nat n.
Proof.
  induction n as [|n IH]; cbn [range]; [cbn; lia|]. rewrite in_app_iff, IH. cbn [In]. lia.
Qed.
Lemma NoDup_range n : NoDup (range n).
Proof.
  induction n as [|n IH]; cbn [range]; [constructor|].
  apply nodup_app; [exact IH|repeat constructor; cbn; tauto|].
  intros x Hx [<-|[]]. apply In_range in Hx. lia.
Qed.
Definition pairs (m n : Z) : list (Z * Z) := list_prod (range (Z.to_nat m)) (range (Z.to_nat n)).
Lemma In_pairs m n i j : In (i, j) (pairs m n) <-> 0 <= i < m /\ 0 <= j < n.
Proof. unfold pairs. rewrite in_prod_iff, !In_range. lia. Qed.
Lemma NoDup_pairs m n : NoDup (pairs m n).
Proof. apply nodup_prod; apply NoDup_range. Qed.

(** sums over lists *)
Definition sumZ {A} (f : A -> Z) (l : list A) : Z := fold_right (fun x s => f x + s) 0 l.
Lemma sumZ_app {A} (f : A -> Z) l l' : sumZ f (l ++ l') = sumZ f l + sumZ f l'.
Proof. unfold sumZ. induction l; cbn [app fold_right] in *; lia. Qed.
Lemma sumZ_ext {A} (f g : A -> Z) l : (forall x, In x l -> f x = g x) -> sumZ f l = sumZ g l.
Proof.
  induction l as [|x l IH]; intros H; [reflexivity|]. unfold sumZ in *; cbn [fold_right].
  rewrite H by (now left). rewrite IH; [reflexivity|]. intros y Hy; apply H; now right.
Qed.
Lemma sumZ_add {A} (f g : A -> Z) l : sumZ (fun x => f x + g x) l = sumZ f l + sumZ g l.
Proof. unfold sumZ. induction l; cbn [fold_right] in *; lia. Qed.
(** changing the summand at one element of a duplicate-free list *)
Lemma sumZ_change {A} (f g : A -> Z) l d : NoDup l -> In d l -> (forall x, x <> d -> f x = g x) ->
  sumZ f l = sumZ g l + f d - g d.
Proof.
  intros Hn Hd He. induction Hn as [|x l Hx Hn IH]; [destruct Hd|].
  unfold sumZ in *; cbn [fold_right]. destruct Hd as [->|Hd].
  - assert (E : fold_right (fun x s => f x + s) 0 l = fold_right (fun x s => g x + s) 0 l).
    { apply (sumZ_ext f g). intros y Hy. apply He. intros ->; contradiction. }
    rewrite E. lia.
  - rewrite IH by exact Hd. rewrite (He x) by (intros ->; contradiction). lia.
Qed.

(** number of elements satisfying a test *)
Definition cntl {A} (f : A -> bool) (l : list A) : Z := sumZ (fun x => if f x then 1 else 0) l.
Lemma cntl_app {A} (f : A -> bool) l l' : cntl f (l ++ l') = cntl f l + cntl f l'.
Proof. apply sumZ_app. Qed.
Lemma cntl_cons {A} (f : A -> bool) x l : cntl f (x :: l) = (if f x then 1 else 0) + cntl f l.
Proof. reflexivity. Qed.
Lemma cntl_length {A} (f : A -> bool) l : cntl f l = Z.of_nat (length (filter f l)).
Proof. unfold cntl, sumZ. induction l as [|x l IH]; cbn [fold_right filter]; [reflexivity|]. rewrite IH. destruct (f x); cbn [length]; lia. Qed.
Lemma cntl_flat_map {A B} (f : B -> bool) (g : A -> list B) l :
  cntl f (flat_map g l) = sumZ (fun x => cntl f (g x)) l.
Proof. induction l as [|x l IH]; [reflexivity|]. cbn [flat_map]. rewrite cntl_app, IH. reflexivity. Qed.
Lemma cntl_ext {A} (f g : A -> bool) l : (forall x, In x l -> f x = g x) -> cntl f l = cntl g l.
Proof. intros H. apply sumZ_ext. intros x Hx. now rewrite H. Qed.
Lemma cntl_filter {A} (f g : A -> bool) l : cntl f (filter g l) = cntl (fun x => f x && g x) l.
Proof.
  induction l as [|x l IH]; [reflexivity|]. cbn [filter]. rewrite cntl_cons.
  destruct (g x); [rewrite cntl_cons, IH, andb_true_r; reflexivity|now rewrite andb_false_r, IH].
Qed.

(** equal counts for every test means equal multisets *)
Lemma cntl_permutation {A} (eq_dec : forall x y : A, {x = y} + {x <> y}) (l l' : list A) :
  (forall f, cntl f l = cntl f l') -> Permutation l l'.
Proof.
  intros H. apply (Permutation_count_occ eq_dec). intros x.
  specialize (H (fun y => if eq_dec y x then true else false)).
  assert (E : forall k, cntl (fun y => if eq_dec y x then true else false) k = Z.of_nat (count_occ eq_dec k x)).
  { induction k as [|y k IH]; [reflexivity|]. rewrite cntl_cons, IH. cbn [count_occ].
    destruct (eq_dec y x); lia. }
  rewrite !E in H. lia.
Qed.
Lemma permutation_cntl {A} (f : A -> bool) (l l' : list A) : Permutation l l' -> cntl f l = cntl f l'.
Proof.
  induction 1; rewrite ?cntl_cons; try lia; reflexivity.
Qed.
