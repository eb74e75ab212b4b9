(** Model of one whole round of the main loop (src/PiCoPiC.cpp:325-336) with beams, collisions and external fields:
    [inject_beam], [solve_maxvell], [advance_particles], [solve_current] of SMB.  Exact real arithmetic; the time of round n is
    n*dt.  The collisions are a parameter here: a relation between the particles of a domain before and after (the model of them is
    CollPhaseModel, they change velocities only).
    Not modelled here: the cell numbers that [inject] writes (beamP.cpp:133-137, see BeamModel); they are written again (SMB.cpp:1303)
    before the collector and the deposition read them. *)
From Coq Require Import Reals.
From Verif Require Import Base RndUtil DecompModel CollectorModel PushModel ParticleModel StepModel GridModel OverlayModel YeeModel ExtModel CurrentModel YeeSmb SmbCurrent
  BeamModel RoundModel.
Open Scope Z_scope.

Section Full.
Variable pusher : Z -> v3 -> v3 -> v3 -> outcome v3.
Variable charge : Z -> R.
Variable dist : YeeModel.geo -> list CurrentModel.mover -> grid3 R -> outcome (grid3 R).
Variable mu : R.
(** the species that are beams (SMB.cpp:148-172), with their density *)
Variable beams : Z -> option (beam * R).
(** the external fields of the domains, if they are switched on (ENABLE_EXTERNAL_FIELDS) *)
Variable extern : option (doms yee).
(** [Domain::collide] for domain (i, k), if it is switched on (ENABLE_COULOMB_COLLISIONS), otherwise equality *)
Variable impulse : Z -> Z -> domain pt -> domain pt -> Prop.
(** the pair of random numbers of the n-th particle that a beam injects in domain (i, k) in a round *)
Variable draw : nat -> Z -> Z -> Z -> nat -> R * R.

(** ** injection *)
(** the part of the geometry that beams read (SMB.cpp:59-120) *)
Definition beam_dom (a : area) (dr : R) (i k : Z) : bdom :=
  {| d_bot := bound (nr a) (rd_ a) 0 i; d_left := bound (nz a) (zd_ a) 0 k; d_top := bound (nr a) (rd_ a) 0 (i + 1);
     d_size := IZR (nr a) * dr / IZR (rd_ a); d_dr := dr |}%R.
(** beamP.cpp:102-143: one particle; [new Particle()] makes the other members zero *)
Definition new_particle (b : beam) (n : R) (d : bdom) (dz dt : R) (uv : R * R) : pt :=
  let '(r, z, _, _) := injected_particle b d dz dt (fst uv) (snd uv) in
  mkPt {| pos_r := r; pos_phi := 0; pos_z := z; vel_r := 0; vel_phi := 0; vel_z := b_velocity b; p_sin := 0; weight := injected_weight b d n dz r |} 0 0.
(** the particles that species [sid] gets in domain (i, k) in round [t], the bunch being the [c]-th *)
Definition newcomers (a : area) (dr dz dt : R) (t : nat) (c : Z -> Z -> Z -> nat) (i k sid : Z) : list pt :=
  match beams sid with
  | None => []                                                       (* specieP.cpp:480 *)
  | Some (b, n) => map (fun m => new_particle b n (beam_dom a dr i k) dz dt (draw t i k sid m)) (seq 0 (fst (manage_beam b (beam_dom a dr i k) dt (INR t * dt) (c i k sid))))
  end.
Definition next_bunch (a : area) (dr dt : R) (t : nat) (c : Z -> Z -> Z -> nat) (i k sid : Z) : nat :=
  match beams sid with None => c i k sid | Some (b, _) => snd (manage_beam b (beam_dom a dr i k) dt (INR t * dt) (c i k sid)) end.
(** SMB.cpp:1308-1322, domain.cpp:180-186 *)
Definition inject_beams (a : area) (dr dz dt : R) (t : nat) (c : Z -> Z -> Z -> nat) (st : smb pt) : smb pt :=
  fun i k => map (fun s => (fst s, snd s ++ newcomers a dr dz dt t c i k (fst s))) (st i k).

(** ** the movement *)
(** pusherBoris.cpp:60-66 (the other pushers: the same): the fields that the pusher sees *)
Definition fields_at (h : YeeModel.geo) (y : yee) (x : option yee) (r z : R) (e b : v3) : Prop :=
  exists e1 b1, get_field_e h (y_e y) r z = Ok e1 /\ get_field_h h (y_h y) r z = Ok b1 /\
    match x with
    | None => e = vec e1 /\ b = vec b1
    | Some x => exists e2 b2, get_field_e h (y_e x) r z = Ok e2 /\ get_field_h h (y_h x) r z = Ok b2 /\ e = vadd (vec e1) (vec e2) /\ b = vadd (vec b1) (vec b2)
    end.
(** domain.cpp [push_particles] for one particle *)
Definition kicked (h : YeeModel.geo) (y : yee) (x : option yee) (sid : Z) (q q' : pt) : Prop :=
  exists e b v, fields_at h y x (pos_r (now q)) (pos_z (now q)) e b /\
    pusher sid e b (V3 (vel_r (now q)) (vel_phi (now q)) (vel_z (now q))) = Ok v /\ q' = mkPt (set_vel (now q) v) (old_r q) (old_z q).
(** SMB.cpp:1295-1301 for one particle: the old position, the movement, the reflection of the species ([reflect] is virtual,
    specieP.hpp:223; beamP.cpp:159-177) *)
Definition flown (h : YeeModel.geo) (G : ParticleModel.geo) (sid : Z) (q q' : pt) : Prop :=
  (match beams sid with
   | Some _ => now q' = back_velocity (beam_reflect G (back_position (ParticleModel.mover (YeeModel.g_dt h) (now q))))
   | None => exists n, forall fuel, (n <= fuel)%nat -> advance G (YeeModel.g_dt h) fuel (now q) = Some (now q')
   end) /\ old_r q' = pos_r (now q) /\ old_z q' = pos_z (now q).
Definition each (P : Z -> pt -> pt -> Prop) : domain pt -> domain pt -> Prop :=
  Forall2 (fun s s' => fst s = fst s' /\ Forall2 (P (fst s)) (snd s) (snd s')).
(** SMB.cpp:1280-1304 for one domain *)
Definition advance_domain (h : YeeModel.geo) (G : ParticleModel.geo) (y : yee) (x : option yee) (i k : Z) (d d' : domain pt) : Prop :=
  exists d1 d2, each (kicked h y x) d d1 /\ impulse i k d1 d2 /\ each (flown h G) d2 d'.
Definition advance_all (a : area) (hs : Z * Z -> YeeModel.geo) (Gs : Z -> Z -> ParticleModel.geo) (m : doms yee) (st st' : smb pt) : Prop :=
  (forall i k, 0 <= i < rd_ a -> 0 <= k < zd_ a ->
     advance_domain (hs (i, k)) (Gs i k) (m (i, k)) (match extern with None => None | Some x => Some (x (i, k)) end) i k (st i k) (st' i k)) /\
  (forall i k, ~ (0 <= i < rd_ a /\ 0 <= k < zd_ a) -> st' i k = st i k).
(** inject_beam, then advance_particles in the fields [m] *)
Definition full_particles (a : area) (dr dz dt : R) (hs : Z * Z -> YeeModel.geo) (m : doms yee) (t : nat) (c : Z -> Z -> Z -> nat) (st st' : smb pt) : Prop :=
  exists p1, advance_all a hs (domain_geo a dr dz) m (inject_beams a dr dz dt t c st) p1 /\ collect pt (pt_cr dr) (pt_cz dz) a (code_order a) p1 = Ok st'.

(** ** R x C domains of s x s cells: fields, currents, particles; the number of the round and the bunch numbers *)
Record full : Type := mkFull { u_w : world; u_t : nat; u_c : Z -> Z -> Z -> nat }.
Definition full_round (g : YeeModel.geo) (R C s : Z) (eps sg : doms (grid Rdefinitions.R)) (u u' : full) : Prop :=
  let dr := YeeModel.g_dr g in let dz := YeeModel.g_dz g in let dt := YeeModel.g_dt g in
  let a := {| nr := R * s; nz := C * s; rd_ := R; zd_ := C |} in
  smb_step mu g R C s eps sg (w_j (u_w u)) (w_f (u_w u)) = Ok (w_f (u_w u')) /\
  full_particles a dr dz dt (dom_geo g R C s) (w_f (u_w u')) (u_t u) (u_c u) (w_p (u_w u)) (w_p (u_w u')) /\
  smb_current dist g R C s (fun ik => movers charge dr dz (w_p (u_w u') (fst ik) (snd ik))) (w_j (u_w u)) = Ok (w_j (u_w u')) /\
  u_t u' = S (u_t u) /\ u_c u' = next_bunch a dr dt (u_t u) (u_c u).
(** ** the same for one domain *)
Record full1 : Type := mkFull1 { v_w : world1; v_t : nat; v_c : Z -> Z -> Z -> nat }.
Definition full1_round (g : YeeModel.geo) (Eps Sg : grid R) (u u' : full1) : Prop :=
  let dr := YeeModel.g_dr g in let dz := YeeModel.g_dz g in let dt := YeeModel.g_dt g in
  let a := {| nr := g_nr g; nz := g_nz g; rd_ := 1; zd_ := 1 |} in
  yee_step mu g Eps Sg (o_j (v_w u)) (o_f (v_w u)) = Ok (o_f (v_w u')) /\
  full_particles a dr dz dt (fun _ => g) (fun _ => o_f (v_w u')) (v_t u) (v_c u) (o_p (v_w u)) (o_p (v_w u')) /\
  one_current dist g (movers charge dr dz (o_p (v_w u') 0 0)) (o_j (v_w u)) = Ok (o_j (v_w u')) /\
  v_t u' = S (v_t u) /\ v_c u' = next_bunch a dr dt (v_t u) (v_c u).
End Full.
