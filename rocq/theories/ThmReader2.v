(** C166 and C167, more: the rounding of times and places that lie in the middle, and the sizes MetaReader shows for probes
    that are not rectangles. *)
From Coq Require Import Reals Lra String.
From Verif Require Import Base RndUtil PushModel CfgJsonModel ReaderModel.
Open Scope Z_scope.

(** * C166: in the middle between two frames (rows) the even one is taken *)
Lemma Int_part_near n (x : Rdefinitions.R) : (IZR n <= x < IZR n + 1)%R -> Int_part x = n.
Proof.
  intros [H1 H2]. pose proof (base_Int_part x) as [A1 A2]. assert (IZR (Int_part x) < IZR (n + 1))%R as B1 by (rewrite plus_IZR; lra).
  assert (IZR n < IZR (Int_part x + 1))%R as B2 by (rewrite plus_IZR; lra). apply lt_IZR in B1, B2. lia.
Qed.
Theorem C166_half : forall n, py_round (IZR n + 1 / 2) = 2 * ((n + 1) / 2).
Proof.
  intros n. unfold py_round. rewrite (Int_part_near n) by lra. replace (IZR n + 1 / 2 - IZR n)%R with (1 / 2)%R by lra.
  unfold rlt. destruct (Rlt_dec (1 / 2) (1 / 2)); [lra|]. destruct (Z.even n) eqn:E.
  - apply Z.even_spec in E as [k ->]. replace (2 * k + 1) with (1 + k * 2) by lia. rewrite Z.div_add by lia. cbn. lia.
  - assert (Z.Odd n) as [k ->]. { apply Z.odd_spec. now rewrite <- Z.negb_even, E. }
    replace (2 * k + 1 + 1) with ((k + 1) * 2) by lia. rewrite Z.div_mul by lia. lia.
Qed.
Theorem C166_half_frame : forall step interval n, step <> 0%R -> interval <> 0%R ->
  frame_number_by_timestamp step ((IZR n + 1 / 2) * step * interval) interval = 2 * ((n + 1) / 2).
Proof.
  intros step interval n H1 H2. unfold frame_number_by_timestamp. rewrite <- C166_half. f_equal. field. auto.
Qed.
Example C166_half_ex : py_round (3 / 2) = 2 /\ py_round (5 / 2) = 2.
Proof.
  split; [replace (3 / 2)%R with (IZR 1 + 1 / 2)%R by lra|replace (5 / 2)%R with (IZR 2 + 1 / 2)%R by lra]; now rewrite C166_half.
Qed.

(** * C167: a row is shown with its radius in the first place, a column with its longitude in the second, a dot with both; the
    rest are the defaults *)
Definition key (k : string) (e : json) (v : json) : Prop := item k e = Val v.
Definition place (shape : string) (r z : json) : list json :=
  [if (shape =? "col")%string then Num 0 else r; if (shape =? "row")%string then Num 0 else z; Num (-1); Num (-1)].
Theorem C167_lines : forall size e l shape c w r z rest, In shape ["row"; "col"; "dot"]%string ->
  key "shape" e (Str shape) -> key "component" e c -> key "schedule" e w ->
  (shape <> "col"%string -> key "r" e r) -> (shape <> "row"%string -> key "z" e z) ->
  meta_probes (place shape r z) l = Val rest ->
  exists specie, meta_probes size (e :: l) = Val (([Str shape; c; w], place shape r z, specie) :: rest).
Proof.
  unfold key. intros size e l shape c w r z rest I S C W Kr Kz L.
  assert (each_path [["shape"]; ["component"]; ["schedule"]]%string e = Val [Str shape; c; w]) as P.
  { unfold each_path. cbn [items_]. rewrite S. cbn [pbind]. rewrite C. cbn [pbind]. rewrite W. reflexivity. }
  eexists. cbn [meta_probes]. rewrite S. cbn [pbind].
  destruct I as [<-|[<-|[<-|[]]]]; cbn [j_eqb String.eqb Ascii.eqb Bool.eqb]; unfold place in *; cbn [String.eqb Ascii.eqb Bool.eqb] in *.
  - rewrite Kr by discriminate. cbn [pbind]. rewrite P. cbn [pbind orb]. rewrite L. reflexivity.
  - rewrite Kz by discriminate. cbn [pbind]. rewrite P. cbn [pbind orb]. rewrite L. reflexivity.
  - rewrite Kr, Kz by discriminate. cbn [pbind]. rewrite P. cbn [pbind orb]. rewrite L. reflexivity.
Qed.
(** another shape ends MetaReader *)
Theorem C167_other_shape : forall size e l s c w, key "shape" e (Str s) -> key "component" e c -> key "schedule" e w ->
  ~ In s ["rec"; "row"; "col"; "dot"]%string -> meta_probes size (e :: l) = Raise ValueError.
Proof.
  unfold key. intros size e l s c w S C W N.
  assert (each_path [["shape"]; ["component"]; ["schedule"]]%string e = Val [Str s; c; w]) as P.
  { unfold each_path. cbn [items_]. rewrite S. cbn [pbind]. rewrite C. cbn [pbind]. rewrite W. reflexivity. }
  cbn [meta_probes]. rewrite S. cbn [pbind j_eqb].
  destruct (String.eqb_spec s "rec"); [subst; destruct N; cbn; auto|]. destruct (String.eqb_spec s "row"); [subst; destruct N; cbn; auto|].
  destruct (String.eqb_spec s "col"); [subst; destruct N; cbn; auto|]. destruct (String.eqb_spec s "dot"); [subst; destruct N; cbn; auto 6|].
  cbn [pbind]. rewrite P. reflexivity.
Qed.
Definition line shape : json :=
  Obj [("shape", Str shape); ("component", Str "E/r"); ("schedule", Num 2); ("r", Num 3); ("z", Num 5)]%string.
Example C167_lines_ex : meta_probes [] [line "row"; line "col"; line "dot"] =
  Val [([Str "row"; Str "E/r"; Num 2], [Num 3; Num 0; Num (-1); Num (-1)], None); ([Str "col"; Str "E/r"; Num 2], [Num 0; Num 5; Num (-1); Num (-1)], None);
       ([Str "dot"; Str "E/r"; Num 2], [Num 3; Num 5; Num (-1); Num (-1)], None)].
Proof. reflexivity. Qed.
Example C167_other_ex : meta_probes [] [line "plane"] = Raise ValueError.
Proof. reflexivity. Qed.

Print Assumptions C166_half.
Print Assumptions C166_half_frame.
Print Assumptions C167_lines.
Print Assumptions C167_other_shape.
