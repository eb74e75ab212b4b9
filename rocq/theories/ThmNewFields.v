(** C159, continued: the particles of a round see the fields after the field step of the same round. *)
From Coq Require Import ZifyBool Reals Lra Permutation.
From Verif Require Import Base DecompModel CollectorModel PushModel ParticleModel StepModel GridModel OverlayModel YeeModel CurrentModel YeeSmb BeamModel RoundModel RoundProofs ThmRound CollectorProofs ThmYeeSmb FullModel ThmFull ThmBeamGauss.
Open Scope Z_scope.

(** [v] is the velocity the pusher gives to [q] in the fields of [y], with the external fields added, at the place of [q] *)
Definition pushed_in (pusher : Z -> v3 -> v3 -> v3 -> outcome v3) (h : YeeModel.geo) (y : yee) (x : option yee) (sid : Z) (q : pt) (v : v3) : Prop :=
  exists e b, fields_at h y x (pos_r (now q)) (pos_z (now q)) e b /\ pusher sid e b (V3 (vel_r (now q)) (vel_phi (now q)) (vel_z (now q))) = Ok v.
(** Without collisions: every particle of every domain, the injected ones included, leaves its place with the velocity the pusher
    gives it in the fields the round ends with. *)
Theorem C159_new_fields : forall pusher charge dist mu beams extern draw g R C s eps sg u u',
  full_round pusher charge dist mu beams extern (fun _ _ d d' => d' = d) draw g R C s eps sg u u' ->
  let a := {| nr := R * s; nz := C * s; rd_ := R; zd_ := C |} in
  exists p1, collect pt (pt_cr (YeeModel.g_dr g)) (pt_cz (YeeModel.g_dz g)) a (code_order a) p1 = Ok (w_p (u_w u')) /\
  forall i k, 0 <= i < R -> 0 <= k < C ->
    each (fun sid q q' => old_r q' = pos_r (now q) /\ old_z q' = pos_z (now q) /\
            exists v, pushed_in pusher (dom_geo g R C s (i, k)) (w_f (u_w u') (i, k)) (option_map (fun x => x (i, k)) extern) sid q v /\
              flown beams (dom_geo g R C s (i, k)) (domain_geo a (YeeModel.g_dr g) (YeeModel.g_dz g) i k) sid (mkPt (set_vel (now q) v) (pos_r (now q)) (pos_z (now q))) q')
      (inject_beams beams draw a (YeeModel.g_dr g) (YeeModel.g_dz g) (YeeModel.g_dt g) (u_t u) (u_c u) (w_p (u_w u)) i k) (p1 i k).
Proof.
  intros pusher charge dist mu beams extern draw g R C s eps sg u u' (_ & (p1 & [Ad _] & Ec) & _) a. exists p1. split; [exact Ec|].
  intros i k Hi Hk. destruct (Ad i k Hi Hk) as (d1 & d2 & K & -> & F).
  eapply each_impl; [|exact (each_comp _ _ _ _ _ K F)]. cbv beta. intros sid q q' (q1 & (e & b & v & Fa & Ev & ->) & M & O1 & O2).
  cbn [now set_vel pos_r pos_z] in O1, O2. split; [exact O1|]. split; [exact O2|]. exists v. split.
  - exists e, b. split; [|exact Ev]. destruct extern; exact Fa.
  - split; [exact M|]. split; [exact O1|exact O2].
Qed.
(** four domains with a particle on its way *)
Example C159_new_fields_ex : particles_of area22 9 (w_p (u_w empty22)) = [goer] /\
  exists u', full_round tilt (fun _ => 1%R) vb_distribution 1 bms None (fun _ _ d d' => d' = d) dice geo8 2 2 4 (fun _ => sz 4 1) (fun _ => sz 4 0) empty22 u'.
Proof.
  destruct C159_ex as (_ & _ & _ & _ & _ & E & u2 & (u1 & Rd & _) & _). split; [exact E|]. exists u1. exact Rd.
Qed.
