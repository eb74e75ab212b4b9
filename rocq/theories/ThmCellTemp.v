(** C154: the temperatures of a cell and its Debye length in the collisions. *)
From Coq Require Import Reals Lra List.
From Verif Require Import Base PushModel CollModel CollOpModel CollPhaseModel CollOpProofs.
From Verif Require CheckModel.
Import ListNotations.
Open Scope R_scope.

(** ** Specification *)
Definition sum (l : list R) : R := fold_right Rplus 0 l.
(** the mean of a quantity over particles with weights *)
Definition mean (f : part -> R) (ps : list part) : R := sum (map (fun p => weight p * f p) ps) / sum (map weight ps).
Definition drift (ps : list part) : v3 := V3 (mean (fun p => vx (velocity p)) ps) (mean (fun p => vy (velocity p)) ps) (mean (fun p => vz (velocity p)) ps).
(** the temperature: each of the three directions has half of it, as kinetic energy in the frame of the mean velocity *)
Definition thermal (m : R) (ps : list part) : R :=
  let u := drift ps in
  m / 3 * mean (fun p => (vx (velocity p) - vx u) ^ 2 + (vy (velocity p) - vy u) ^ 2 + (vz (velocity p) - vz u) ^ 2) ps.
Definition sq (v : v3) : R := vx v ^ 2 + vy v ^ 2 + vz v ^ 2.
(** the length of electrons and ions together; temperatures in electronvolts *)
Definition debye_of (n_e t_e n_i t_i : R) : R := 7433944 / 1000 / sqrt (n_e / t_e + n_i / t_i).

(** ** Proofs *)
Lemma amount_sum ps : amount_tot ps = sum (map weight ps).
Proof. induction ps as [|p ps IH]; [reflexivity|]. cbn [amount_tot map sum fold_right]. rewrite IH. reflexivity. Qed.
Lemma energy_sum m ps : energy_tot m ps = m / 2 * sum (map (fun p => weight p * sq (velocity p)) ps).
Proof.
  induction ps as [|p ps IH]; [unfold sum; cbn; ring|]. cbn [energy_tot map sum fold_right]. rewrite IH. unfold sum, sq, len2. field.
Qed.
Lemma mean_energy m ps : sum (map weight ps) <> 0 -> energy_tot m ps / amount_tot ps = m / 2 * mean (fun p => sq (velocity p)) ps.
Proof. intros H. rewrite energy_sum, amount_sum. unfold mean. field. exact H. Qed.
(** the mean of a square is the square of the mean and the variance *)
Lemma variance f ps : sum (map weight ps) <> 0 -> mean (fun p => f p ^ 2) ps = mean (fun p => (f p - mean f ps) ^ 2) ps + mean f ps ^ 2.
Proof.
  intros H. set (a := mean f ps). assert (A : sum (map (fun p => weight p * f p) ps) = a * sum (map weight ps)) by (unfold a, mean; field; exact H).
  assert (E : forall l, sum (map (fun p => weight p * (f p - a) ^ 2) l) = sum (map (fun p => weight p * f p ^ 2) l) - 2 * a * sum (map (fun p => weight p * f p) l) + a ^ 2 * sum (map weight l)).
  { induction l as [|p l IH]; [unfold sum; cbn; ring|]. cbn [map sum fold_right]. fold (sum (map (fun p => weight p * (f p - a) ^ 2) l)). rewrite IH. unfold sum. ring. }
  unfold mean. rewrite E, A. field. exact H.
Qed.
Lemma mean_plus f g ps : mean (fun p => f p + g p) ps = mean f ps + mean g ps.
Proof.
  unfold mean, Rdiv. rewrite <- Rmult_plus_distr_r. f_equal. induction ps as [|p ps IH]; [unfold sum; cbn; ring|]. cbn [map sum fold_right]. unfold sum in IH. rewrite IH. ring.
Qed.
Lemma sq_split ps : sum (map weight ps) <> 0 -> forall m, m / 2 * mean (fun p => sq (velocity p)) ps = 3 / 2 * thermal m ps + m / 2 * sq (drift ps).
Proof.
  intros H m. unfold sq, thermal, drift. cbv zeta. rewrite !mean_plus. cbn [vx vy vz].
  rewrite (variance (fun p => vx (velocity p))), (variance (fun p => vy (velocity p))), (variance (fun p => vz (velocity p))) by exact H. field.
Qed.
Lemma mean_pos f ps : (forall p, In p ps -> 0 < weight p) -> (forall p, In p ps -> 0 <= f p) -> 0 <= mean f ps.
Proof.
  intros W F. unfold mean. destruct ps as [|p ps]; [unfold sum; cbn; lra|].
  assert (P : forall l, (forall p, In p l -> 0 < weight p) -> 0 <= sum (map weight l)).
  { induction l as [|x l IH]; intros Wl; [unfold sum; cbn; lra|]. cbn [map sum fold_right]. specialize (IH (fun p Hp => Wl p (or_intror Hp))). specialize (Wl x (or_introl eq_refl)). unfold sum in IH. lra. }
  assert (Q : forall l, (forall p, In p l -> 0 < weight p) -> (forall p, In p l -> 0 <= f p) -> 0 <= sum (map (fun p => weight p * f p) l)).
  { induction l as [|x l IH]; intros Wl Fl; [unfold sum; cbn; lra|]. cbn [map sum fold_right].
    specialize (IH (fun p Hp => Wl p (or_intror Hp)) (fun p Hp => Fl p (or_intror Hp))). specialize (Wl x (or_introl eq_refl)). specialize (Fl x (or_introl eq_refl)). unfold sum in IH. nra. }
  apply Rmult_le_pos; [now apply Q|]. apply Rlt_le, Rinv_0_lt_compat. cbn [map sum fold_right].
  specialize (P ps (fun p Hp => W p (or_intror Hp))). specialize (W p (or_introl eq_refl)). unfold sum in P. lra.
Qed.
Lemma weights_pos ps : ps <> [] -> (forall p, In p ps -> 0 < weight p) -> 0 < sum (map weight ps).
Proof.
  intros N W. destruct ps as [|p ps]; [contradiction|]. cbn [map sum fold_right].
  assert (P : forall l, (forall p, In p l -> 0 < weight p) -> 0 <= sum (map weight l)).
  { induction l as [|x l IH]; intros Wl; [unfold sum; cbn; lra|]. cbn [map sum fold_right]. specialize (IH (fun p Hp => Wl p (or_intror Hp))). specialize (Wl x (or_introl eq_refl)). unfold sum in IH. lra. }
  specialize (P ps (fun p Hp => W p (or_intror Hp))). specialize (W p (or_introl eq_refl)). unfold sum in P. lra.
Qed.
Lemma thermal_pos m ps : 0 < m -> (forall p, In p ps -> 0 < weight p) -> 0 <= thermal m ps.
Proof. intros M W. unfold thermal. cbv zeta. apply Rmult_le_pos; [lra|]. apply mean_pos; [exact W|]. intros p _. assert (Q := fun x => pow2_ge_0 x). repeat apply Rplus_le_le_0_compat; apply Q. Qed.
Lemma sq_pos v : 0 <= sq v.
Proof. unfold sq. assert (Q := fun x => pow2_ge_0 x). repeat apply Rplus_le_le_0_compat; apply Q. Qed.

(** the temperature of the collisions is half as much again as the temperature, with the energy of the drift added *)
Theorem C154_temperature : forall mass ev k h l, let ps := parts h l in sum (map weight ps) <> 0 ->
  temperature mass ev k h l = ev * (3 / 2 * thermal (mass k) ps + mass k / 2 * sq (drift ps)).
Proof.
  intros mass ev k h l ps H. unfold temperature. fold ps. rewrite (mean_energy _ _ H), (sq_split ps H (mass k)). ring.
Qed.
(** ** the length of a cell *)
Section Cell.
Variables (mass : kind -> R) (ev : R) (h : heap) (el io : list nat) (n_e n_i : R).
Hypothesis Hm : forall k, 0 < mass k.
Hypothesis Hev : 0 < ev.
Hypothesis Hn : 0 < n_e /\ 0 < n_i.
Hypothesis We : forall p, In p (parts h el) -> 0 < weight p.
Hypothesis Wi : forall p, In p (parts h io) -> 0 < weight p.
Hypothesis Ne : el <> [].
Hypothesis Ni : io <> [].
Let te := ev * thermal (mass El) (parts h el).
Let ti := ev * thermal (mass Ion) (parts h io).
Lemma not_nil (l : list nat) : l <> [] -> parts h l <> [].
Proof. destruct l; [contradiction|discriminate]. Qed.
Lemma temps : temperature mass ev El h el = 3 / 2 * te + ev * (mass El / 2 * sq (drift (parts h el))) /\
  temperature mass ev Ion h io = 3 / 2 * ti + ev * (mass Ion / 2 * sq (drift (parts h io))).
Proof using Ne Ni We Wi.
  assert (A := weights_pos _ (not_nil _ Ne) We). assert (B := weights_pos _ (not_nil _ Ni) Wi).
  split; rewrite C154_temperature by lra; unfold te, ti; ring.
Qed.
Lemma quot_pos a b : 0 < a -> 0 < b -> 0 < a / b.
Proof. intros A B. apply Rmult_lt_0_compat; [exact A|now apply Rinv_0_lt_compat]. Qed.
Lemma debye_ok a b : 0 < a -> 0 < b -> CheckModel.debye_length n_e n_i a b = Ok (debye_of n_e a n_i b).
Proof using Hn.
  intros A B. destruct Hn as [N1 N2]. unfold CheckModel.debye_length, rlt. destruct (Rlt_dec 0 n_e); [|lra]. destruct (Rlt_dec 0 n_i); [|lra].
  assert (Q : forall x, 0 < x -> req x 0 = false) by (intros x X; unfold req; destruct (Req_EM_T x 0); [lra|reflexivity]). now rewrite (Q a A), (Q b B).
Qed.
(** without drifts the length is too long by the root of 3/2 *)
Theorem C154_at_rest_partial : 0 < te -> 0 < ti -> drift (parts h el) = V3 0 0 0 -> drift (parts h io) = V3 0 0 0 ->
  CheckModel.debye_length n_e n_i (temperature mass ev El h el) (temperature mass ev Ion h io) = Ok (sqrt (3 / 2) * debye_of n_e te n_i ti).
Proof using Hn Ne Ni We Wi.
  intros Te Ti De Di. destruct temps as [-> ->]. rewrite De, Di. unfold sq at 1 2. cbn [vx vy vz].
  replace (3 / 2 * te + ev * (mass El / 2 * (0 ^ 2 + 0 ^ 2 + 0 ^ 2))) with (3 / 2 * te) by ring. replace (3 / 2 * ti + ev * (mass Ion / 2 * (0 ^ 2 + 0 ^ 2 + 0 ^ 2))) with (3 / 2 * ti) by ring.
  rewrite debye_ok by lra. f_equal. unfold debye_of. destruct Hn as [N1 N2]. assert (Q1 := quot_pos _ _ N1 Te). assert (Q2 := quot_pos _ _ N2 Ti).
  replace (n_e / (3 / 2 * te) + n_i / (3 / 2 * ti)) with ((n_e / te + n_i / ti) / (3 / 2)) by (field; lra).
  rewrite sqrt_div by lra. assert (0 < sqrt (n_e / te + n_i / ti)) by (apply sqrt_lt_R0; lra). assert (0 < sqrt (3 / 2)) by (apply sqrt_lt_R0; lra). field. lra.
Qed.
(** in every cell with two temperatures it is at least that much too long *)
Theorem C154_length_refuted : 0 < te -> 0 < ti -> exists d,
  CheckModel.debye_length n_e n_i (temperature mass ev El h el) (temperature mass ev Ion h io) = Ok d /\ sqrt (3 / 2) * debye_of n_e te n_i ti <= d /\ debye_of n_e te n_i ti < d.
Proof using Hm Hev Hn Ne Ni We Wi.
  intros Te Ti. destruct temps as [-> ->]. set (a := 3 / 2 * te + _). set (b := 3 / 2 * ti + _).
  assert (A : 3 / 2 * te <= a).
  { unfold a. assert (M := Hm El). assert (0 <= sq (drift (parts h el))) by apply sq_pos. assert (0 <= ev * (mass El / 2 * sq (drift (parts h el)))) by (apply Rmult_le_pos; [lra|apply Rmult_le_pos; lra]). lra. }
  assert (B : 3 / 2 * ti <= b).
  { unfold b. assert (M := Hm Ion). assert (0 <= sq (drift (parts h io))) by apply sq_pos. assert (0 <= ev * (mass Ion / 2 * sq (drift (parts h io)))) by (apply Rmult_le_pos; [lra|apply Rmult_le_pos; lra]). lra. }
  exists (debye_of n_e a n_i b). split; [apply debye_ok; lra|]. destruct Hn as [N1 N2].
  assert (Q1 := quot_pos _ _ N1 Te). assert (Q2 := quot_pos _ _ N2 Ti). assert (A0 : 0 < a) by lra. assert (B0 : 0 < b) by lra. assert (Q3 := quot_pos _ _ N1 A0). assert (Q4 := quot_pos _ _ N2 B0).
  set (x := n_e / te + n_i / ti) in *. assert (X : 0 < x) by (unfold x; lra). set (y := n_e / a + n_i / b).
  assert (Y : y <= x / (3 / 2)).
  { unfold y, x. replace ((n_e / te + n_i / ti) / (3 / 2)) with (n_e / (3 / 2 * te) + n_i / (3 / 2 * ti)) by (field; lra).
    apply Rplus_le_compat; apply Rmult_le_compat_l; try lra; apply Rinv_le_contravar; lra. }
  assert (Y0 : 0 < y) by (unfold y; lra). unfold debye_of. fold x y.
  assert (S0 : 0 < sqrt y) by (apply sqrt_lt_R0; exact Y0). assert (S1 : 0 < sqrt x) by (apply sqrt_lt_R0; exact X). assert (S2 : 0 < sqrt (3 / 2)) by (apply sqrt_lt_R0; lra).
  assert (L : sqrt (3 / 2) * (7433944 / 1000 / sqrt x) <= 7433944 / 1000 / sqrt y).
  { replace (sqrt (3 / 2) * (7433944 / 1000 / sqrt x)) with (7433944 / 1000 / (sqrt x / sqrt (3 / 2))) by (field; lra). rewrite <- sqrt_div by lra.
    apply Rmult_le_compat_l; [lra|]. apply Rinv_le_contravar; [exact S0|]. apply sqrt_le_1; lra. }
  split; [exact L|]. eapply Rlt_le_trans; [|exact L].
  assert (O : 1 < sqrt (3 / 2)) by (rewrite <- sqrt_1 at 1; apply sqrt_lt_1; lra). assert (0 < 7433944 / 1000 / sqrt x) by (apply quot_pos; lra). nra.
Qed.
End Cell.
(** particles that all move alike have no temperature, but the collisions give them one *)
Theorem C154_beam_refuted : forall mass ev k h l v, 0 < mass k -> 0 < ev -> l <> [] -> (forall p, In p (parts h l) -> 0 < weight p /\ velocity p = v) -> sq v <> 0 ->
  thermal (mass k) (parts h l) = 0 /\ 0 < temperature mass ev k h l.
Proof.
  intros mass ev k h l v M E N W S. assert (P := weights_pos (parts h l) (not_nil h l N) (fun p Hp => proj1 (W p Hp))).
  assert (C : forall f c, (forall p, In p (parts h l) -> f p = c) -> mean f (parts h l) = c).
  { intros f c F. unfold mean. assert (E1 : sum (map (fun p => weight p * f p) (parts h l)) = sum (map weight (parts h l)) * c).
    { clear - F. induction (parts h l) as [|p ps IH]; [unfold sum; cbn; ring|]. cbn [map sum fold_right]. unfold sum in IH. rewrite IH by (intros; apply F; now right). rewrite (F p) by now left. ring. }
    rewrite E1. field. lra. }
  assert (D : drift (parts h l) = v). { destruct v as [a b c]. unfold drift. f_equal; apply C; intros p Hp; rewrite (proj2 (W p Hp)); reflexivity. }
  assert (T : thermal (mass k) (parts h l) = 0). { unfold thermal. cbv zeta. rewrite D. rewrite (C _ 0); [ring|]. intros p Hp. rewrite (proj2 (W p Hp)). ring. }
  split; [exact T|]. rewrite C154_temperature by lra. rewrite T, D. assert (0 < sq v) by (assert (Q := sq_pos v); lra). apply Rmult_lt_0_compat; [exact E|]. assert (0 < mass k / 2 * sq v) by (apply Rmult_lt_0_compat; lra). lra.
Qed.

(** every pair of a cell collides with the densities of the cell and with this length: two operators that agree on those values do the same
    to the cell *)
Theorem C154_pairs : forall d0 dr dz mass ev (D : Type) (single single' : kind -> kind -> part -> part -> R -> R -> R -> D -> coll) draw m h0 i j h,
  let dens := fun k => density dr dz d0 i (parts h (m k i j)) in
  (forall ka kb pa pb l x, CheckModel.debye_length (dens El) (dens Ion) (temperature mass ev El h0 (m El i j)) (temperature mass ev Ion h0 (m Ion i j)) = Ok l ->
     single ka kb pa pb (dens ka) (dens kb) l x = single' ka kb pa pb (dens ka) (dens kb) l x) ->
  collide_cell d0 dr dz mass single draw ev m h0 (i, j) h = collide_cell d0 dr dz mass single' draw ev m h0 (i, j) h.
Proof.
  intros d0 dr dz mass ev D single single' draw m h0 i j h dens H. unfold collide_cell. fold (dens El) (dens Ion). destruct (CheckModel.debye_length _ _ _ _) as [l| |] eqn:L; try reflexivity. cbn [bind].
  assert (P : forall x d g, collide_pair single m i j (dens El) (dens Ion) l x d g = collide_pair single' m i j (dens El) (dens Ion) l x d g).
  { intros [[ka a] [kb b]] d g. unfold collide_pair. destruct (nth_error (m ka i j) _) as [p|]; [|reflexivity]. destruct (nth_error (m kb i j) _) as [q|]; [|reflexivity].
    assert (E : forall k, match k with El => dens El | Ion => dens Ion end = dens k) by (intros []; reflexivity). rewrite !E, (H _ _ _ _ l d) by reflexivity. reflexivity. }
  set (lst := cell_pairs _ _). clearbody lst. generalize 0%nat as n. generalize h as g. induction lst as [|x r IH]; intros g n; [reflexivity|].
  cbn [collide_pairs]. rewrite P. destruct (collide_pair _ _ _ _ _ _ _ _ _ _) as [[g'|]| |]; cbn [bind]; auto.
Qed.

(** a cell with two electrons and two ions that move against each other *)
Definition heap4 : heap := fun p => CPart (0%Z, 0%Z) (match p with 0%nat => Part 1 (V3 2 0 0) | 1%nat => Part 1 (V3 (-2) 0 0) | 2%nat => Part 3 (V3 0 1 0) | _ => Part 3 (V3 0 (-1) 0) end).
Example C154_ex : let mass := fun k => match k with El => 1 | Ion => 4 end in
  temperature mass 1 El heap4 [0; 1]%nat = 2 /\ thermal 1 (parts heap4 [0; 1]%nat) = 4 / 3 /\ temperature mass 1 Ion heap4 [2; 3]%nat = 2 /\ thermal 4 (parts heap4 [2; 3]%nat) = 4 / 3 /\
  drift (parts heap4 [0; 1]%nat) = V3 0 0 0 /\ drift (parts heap4 [2; 3]%nat) = V3 0 0 0.
Proof.
  cbv zeta. unfold temperature, thermal, drift, mean, parts, heap4, sum, energy_tot, amount_tot, len2. cbn [map fold_right cp_part weight velocity vx vy vz].
  split; [field|]. split; [field|]. split; [field|]. split; [field|]. split; f_equal; field.
Qed.

Print Assumptions C154_temperature.
Print Assumptions C154_at_rest_partial.
Print Assumptions C154_length_refuted.
Print Assumptions C154_beam_refuted.
Print Assumptions C154_pairs.
Print Assumptions C154_ex.
