From Verif Require Import Base ListUtil HashModel.
From Coq Require Import ZifyBool.

Lemma u16_range z : 0 <= u16 z < 65536.
Proof. unfold u16. change (2 ^ 16) with 65536. apply Z.mod_pos_bound. lia. Qed.

Lemma hash_loop_range s : forall r, 0 <= r < 65536 -> 0 <= hash_loop r s < 65536.
Proof. induction s as [|c s IH]; intros r Hr; cbn [hash_loop]; [exact Hr|]. apply IH, u16_range. Qed.

Lemma hash_eq s salt : 0 <= salt < 65536 -> hash_from_string s salt = hash_loop salt s.
Proof.
  intros H. unfold hash_from_string. pose proof (hash_loop_range s salt H).
  change 2147483647 with (Z.ones 31). rewrite Z.land_ones by lia. apply Z.mod_small. lia.
Qed.

Lemma hash_loop_app s t : forall r, hash_loop r (append s t) = hash_loop (hash_loop r s) t.
Proof. induction s as [|c s IH]; intros r; cbn [append hash_loop]; [reflexivity|apply IH]. Qed.

Lemma schar_inj c d : schar c = schar d -> c = d.
Proof.
  unfold schar. intros H. pose proof (N_ascii_bounded c). pose proof (N_ascii_bounded d).
  assert (E : N_of_ascii c = N_of_ascii d).
  { destruct (Z.ltb_spec (Z.of_N (N_of_ascii c)) 128), (Z.ltb_spec (Z.of_N (N_of_ascii d)) 128); lia. }
  rewrite <- (ascii_N_embedding c), <- (ascii_N_embedding d). now rewrite E.
Qed.
Lemma schar_range c : -128 <= schar c < 128.
Proof. unfold schar. pose proof (N_ascii_bounded c). destruct (Z.ltb_spec (Z.of_N (N_of_ascii c)) 128); lia. Qed.

Lemma u16_lxor_cancel r x y : u16 (Z.lxor r x) = u16 (Z.lxor r y) -> u16 x = u16 y.
Proof.
  unfold u16. intros H. apply Z.bits_inj'. intros n Hn.
  destruct (Z_lt_dec n 16) as [L|L].
  - assert (B : Z.testbit (Z.lxor r x mod 2 ^ 16) n = Z.testbit (Z.lxor r y mod 2 ^ 16) n) by (now rewrite H).
    rewrite !Z.mod_pow2_bits_low, !Z.lxor_spec in B by lia.
    rewrite !Z.mod_pow2_bits_low by lia. destruct (Z.testbit r n), (Z.testbit x n), (Z.testbit y n); auto.
  - now rewrite !Z.mod_pow2_bits_high by lia.
Qed.

Lemma hash_step_inj r c d : hash_step r c = hash_step r d -> c = d.
Proof.
  unfold hash_step. intros H. apply u16_lxor_cancel in H. apply schar_inj.
  pose proof (schar_range c). pose proof (schar_range d).
  set (k := Z.shiftl r 5) in *. set (m := Z.shiftr r 2) in *. unfold u16 in H.
  change (2 ^ 16) with 65536 in H.
  pose proof (Z.div_mod (k + schar c + m) 65536 ltac:(lia)).
  pose proof (Z.div_mod (k + schar d + m) 65536 ltac:(lia)). lia.
Qed.

Lemma hash_last_char p c d salt : 0 <= salt < 65536 ->
  hash_from_string (append p (String c EmptyString)) salt = hash_from_string (append p (String d EmptyString)) salt ->
  c = d.
Proof.
  intros Hs. rewrite !hash_eq by exact Hs. rewrite !hash_loop_app. cbn [hash_loop]. apply hash_step_inj.
Qed.

(** pigeonhole: among more than 65536 names two share an identifier *)
Lemma hash_pigeonhole salt (names : list string) : 0 <= salt < 65536 -> NoDup names ->
  65536 < Z.of_nat (List.length names) ->
  exists x y, In x names /\ In y names /\ x <> y /\ hash_from_string x salt = hash_from_string y salt.
Proof.
  intros Hs Hn Hl.
  assert (G : forall l, (exists x y, In x l /\ In y l /\ x <> y /\ hash_from_string x salt = hash_from_string y salt) \/
    (forall x y, In x l -> In y l -> hash_from_string x salt = hash_from_string y salt -> x = y)).
  { induction l as [|z l IH]; [right; intros ? ? []|].
    destruct IH as [(x & y & Hx & Hy & Hne & E)|IH].
    - left. exists x, y. cbn [In]. auto.
    - destruct (List.in_dec Z.eq_dec (hash_from_string z salt) (map (fun s => hash_from_string s salt) l)) as [Hin|Hnin].
      + apply in_map_iff in Hin as (y & Ey & Hy). destruct (string_dec z y) as [->|Hne].
        * right. intros u v Hu Hv E. cbn [In] in Hu, Hv.
          destruct Hu as [<-|Hu], Hv as [<-|Hv]; auto.
        * left. exists z, y. cbn [In]. auto.
      + right. intros u v [<-|Hu] [<-|Hv] E; auto.
        * exfalso. apply Hnin. rewrite E. now apply (in_map (fun s => hash_from_string s salt)).
        * exfalso. apply Hnin. rewrite <- E. now apply (in_map (fun s => hash_from_string s salt)). }
  destruct (G names) as [?|Hinj]; [assumption|]. exfalso.
  assert (Hnd : NoDup (map (fun s => hash_from_string s salt) names)).
  { apply nodup_map_inj; [|exact Hn]. intros; now apply Hinj. }
  assert (HN : exists N, Z.of_nat N = 65536) by (exists (Z.to_nat 65536); apply Z2Nat.id; lia).
  destruct HN as [N HN].
  assert (Hincl : incl (map (fun s => hash_from_string s salt) names) (range N)).
  { intros v Hv. apply in_map_iff in Hv as (s & <- & _). apply In_range. rewrite HN.
    rewrite hash_eq by exact Hs. now apply hash_loop_range. }
  pose proof (NoDup_incl_length Hnd Hincl) as Hle. rewrite map_length in Hle.
  assert (Hr : forall n, List.length (range n) = n).
  { induction n as [|n IH]; cbn [range]; [reflexivity|]. rewrite app_length, IH. cbn [List.length]. lia. }
  rewrite Hr in Hle. lia.
Qed.
