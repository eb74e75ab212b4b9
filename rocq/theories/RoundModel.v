(** Model of one round of the main loop (src/PiCoPiC.cpp:326-336) with particles and fields together: [solve_maxvell],
    [advance_particles], [solve_current] of SMB.  Without beams, collisions and external fields.  Exact real arithmetic.
    The parts are the models of YeeModel/YeeSmb (fields), ExtModel (interpolation), StepModel (movement), CollectorModel
    (handing over of particles) and CurrentModel/SmbCurrent (currents); here they are put together. *)
From Coq Require Import Reals.
From Verif Require Import Base RndUtil DecompModel CollectorModel PushModel ParticleModel StepModel GridModel OverlayModel YeeModel ExtModel CurrentModel YeeSmb SmbCurrent.
Open Scope Z_scope.

(** a particle with its old position (particleModel: P_POS_OLD_R, P_POS_OLD_Z) *)
Record pt : Type := mkPt { now : part; old_r : R; old_z : R }.
Definition pt_cr (dr : R) (q : pt) : Z := part_cr dr (now q).
Definition pt_cz (dz : R) (q : pt) : Z := part_cz dz (now q).

Section Round.
(** the pusher chosen at compile time, for a species: electric field, magnetic field, velocity (pusher/*.cpp, see PushModel) *)
Variable pusher : Z -> v3 -> v3 -> v3 -> outcome v3.
(** the charge of a particle of a species of weight one *)
Variable charge : Z -> R.
(** the deposition scheme chosen at compile time *)
Variable dist : YeeModel.geo -> list CurrentModel.mover -> grid3 R -> outcome (grid3 R).
Variable mu : R.

Definition vec (x : R * R * R) : v3 := let '(a, b, c) := x in V3 a b c.
Definition set_vel (p : part) (v : v3) : part :=
  {| pos_r := pos_r p; pos_phi := pos_phi p; pos_z := pos_z p; vel_r := vx v; vel_phi := vy v; vel_z := vz v; p_sin := p_sin p; weight := weight p |}.

(** SMB.cpp:1288-1303 for one particle: the fields at its position and the pusher (pusherBoris.cpp:44-66, 149-151), the old
    position (specieP.cpp:642-650), the movement; the last one ends if its loop does *)
Definition step_particle (h : YeeModel.geo) (G : ParticleModel.geo) (y : yee) (sid : Z) (q q' : pt) : Prop :=
  exists e b v, get_field_e h (y_e y) (pos_r (now q)) (pos_z (now q)) = Ok e /\ get_field_h h (y_h y) (pos_r (now q)) (pos_z (now q)) = Ok b /\
    pusher sid (vec e) (vec b) (V3 (vel_r (now q)) (vel_phi (now q)) (vel_z (now q))) = Ok v /\
    (exists n, forall fuel, (n <= fuel)%nat -> advance G (YeeModel.g_dt h) fuel (set_vel (now q) v) = Some (now q')) /\
    old_r q' = pos_r (now q) /\ old_z q' = pos_z (now q).
(** all particles of one domain *)
Definition step_domain (h : YeeModel.geo) (G : ParticleModel.geo) (y : yee) : domain pt -> domain pt -> Prop :=
  Forall2 (fun s s' => fst s = fst s' /\ Forall2 (step_particle h G y (fst s)) (snd s) (snd s')).
(** SMB.cpp:1282-1304: all domains *)
Definition step_all (a : area) (hs : Z * Z -> YeeModel.geo) (Gs : Z -> Z -> ParticleModel.geo) (m : doms yee) (st st' : smb pt) : Prop :=
  (forall i k, 0 <= i < rd_ a -> 0 <= k < zd_ a -> step_domain (hs (i, k)) (Gs i k) (m (i, k)) (st i k) (st' i k)) /\
  (forall i k, ~ (0 <= i < rd_ a /\ 0 <= k < zd_ a) -> st' i k = st i k).

(** what the deposition reads of a particle (currentZigZag.cpp:34-46, currentVB.cpp) *)
Definition mover_of (dr dz : R) (sid : Z) (q : pt) : CurrentModel.mover :=
  mkMover (pos_r (now q)) (pos_z (now q)) (old_r q) (old_z q) (pt_cr dr q) (pt_cz dz q) (vel_phi (now q)) (charge sid * weight (now q))%R.
Definition movers (dr dz : R) (d : domain pt) : list CurrentModel.mover := flat_map (fun s => map (mover_of dr dz (fst s)) (snd s)) d.

(** ** R x C domains of s x s cells *)
Record world : Type := mkWorld { w_f : doms yee; w_j : doms (grid3 R); w_p : smb pt }.
Definition smb_round (g : YeeModel.geo) (R C s : Z) (eps sg : doms (grid Rdefinitions.R)) (w w' : world) : Prop :=
  let dr := YeeModel.g_dr g in let dz := YeeModel.g_dz g in
  let a := {| nr := R * s; nz := C * s; rd_ := R; zd_ := C |} in
  exists p1,
    smb_step mu g R C s eps sg (w_j w) (w_f w) = Ok (w_f w') /\
    step_all a (dom_geo g R C s) (domain_geo a dr dz) (w_f w') (w_p w) p1 /\
    collect pt (pt_cr dr) (pt_cz dz) a (code_order a) p1 = Ok (w_p w') /\
    smb_current dist g R C s (fun ik => movers dr dz (w_p w' (fst ik) (snd ik))) (w_j w) = Ok (w_j w').
(** ** the same for one domain *)
Record world1 : Type := mkWorld1 { o_f : yee; o_j : grid3 R; o_p : smb pt }.
Definition one_round (g : YeeModel.geo) (Eps Sg : grid R) (w w' : world1) : Prop :=
  let dr := YeeModel.g_dr g in let dz := YeeModel.g_dz g in
  let a := {| nr := g_nr g; nz := g_nz g; rd_ := 1; zd_ := 1 |} in
  exists p1,
    yee_step mu g Eps Sg (o_j w) (o_f w) = Ok (o_f w') /\
    step_all a (fun _ => g) (domain_geo a dr dz) (fun _ => o_f w') (o_p w) p1 /\
    collect pt (pt_cr dr) (pt_cz dz) a (code_order a) p1 = Ok (o_p w') /\
    one_current dist g (movers dr dz (o_p w' 0 0)) (o_j w) = Ok (o_j w').
End Round.
