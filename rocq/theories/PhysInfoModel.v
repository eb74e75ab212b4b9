(** Model of what tools/parse_metadata.py shows of a run with --phys-info (lines 18-95).
    The numbers are those kept by MetaReader (ReaderModel.v, C167), taken as real numbers; the arithmetic is exact.  The
    formatting of the numbers, the opening of the file (46-52), the option parser and the printing of the metadata itself
    (120-200) are left out.  What was printed before an exception is left out too. *)
From Coq Require Import Reals String Ascii.
From Verif Require Import Base RndUtil PushModel.
Open Scope R_scope.

(** what ends the tool early: UnboundLocalError, IndexError, ZeroDivisionError, ValueError of math.sqrt *)
Inductive raised : Type := Unbound | NoItem | ZeroDivision | MathDomain.
Inductive tool (A : Type) : Type := Done (a : A) | Raised (e : raised).
Arguments Done {A}. Arguments Raised {A}.
Definition tbind {A B} (m : tool A) (k : A -> tool B) : tool B := match m with Done a => k a | Raised e => Raised e end.
Notation "x <~ m ; k" := (tbind m (fun x => k)) (at level 61, m at next level, right associativity).
(** [a / b] and [math.sqrt] of Python *)
Definition divide (a b : R) : tool R := if req b 0 then Raised ZeroDivision else Done (a / b).
Definition root (a : R) : tool R := if rlt a 0 then Raised MathDomain else Done (sqrt a).
(** a local variable *)
Definition local (v : option R) : tool R := match v with Some x => Done x | None => Raised Unbound end.

(** [str.lower], for ASCII letters *)
Definition low (a : ascii) : ascii :=
  let n := nat_of_ascii a in if ((65 <=? n) && (n <=? 90))%nat then ascii_of_nat (n + 32) else a.
Fixpoint lower (s : string) : string := match s with EmptyString => EmptyString | String a s => String (low a) (lower s) end.

(** meta_reader.py:37-46 and 49-59: what is used of [SpecieP] and [BeamP] *)
Record kind : Type := mkKind { k_name : string; k_left : R; k_right : R; k_temp : R }.
Record bunches : Type := mkBunches { u_velocity : R; u_density : R; u_amount : R; u_length : R; u_radius : R; u_distance : R }.

(** parse_metadata.py:18-25 *)
Definition langmur_freq (density : R) : tool R :=
  let charge := - (16 / 10) * / 10 ^ 19 in
  let mass := 91 / 10 * / 10 ^ 31 in
  let epsilon := 88 / 10 * / 10 ^ 12 in
  x <~ divide (density * charge ^ 2) (mass * epsilon); root x.
(** parse_metadata.py:28-30 *)
Definition debye (n_e n_i t_e t_i : R) : tool R :=
  a <~ divide n_e t_e; b <~ divide n_i t_i; s <~ root (a + b); divide (7433944 / 1000) s.
(** parse_metadata.py:38-41 *)
Definition wake_length (density v : R) : tool R := w <~ langmur_freq density; divide (2 * PI * v) w.

(** parse_metadata.py:54-60: the local variables after the loop: density and temperature of electrons, of ions *)
Record locals : Type := mkLocals { el_density : option R; el_temperature : option R; ion_density : option R; ion_temperature : option R }.
Definition visit (l : locals) (i : kind) : locals :=
  let l := if (lower (k_name i) =? "electrons")%string
           then mkLocals (Some ((k_left i + k_right i) / 2)) (Some (k_temp i)) (ion_density l) (ion_temperature l) else l in
  if (lower (k_name i) =? "ions")%string
  then mkLocals (el_density l) (el_temperature l) (Some ((k_left i + k_right i) / 2)) (Some (k_temp i)) else l.
Definition visit_all (l : list kind) : locals := fold_left visit l (mkLocals None None None None).

(** the numbers shown (parse_metadata.py:77-95), in the order of the lines *)
Record shown : Type := mkShown
  { w_frequency : R; w_wake : R; w_debye : R; w_passage : R; w_steps : R; w_velocity : R; w_bunch_duration : R; w_beam_duration : R;
    w_bunch_length : R; w_radius : R; w_beam_length : R; w_spacing : R; w_amount : R; w_bunch_particles : R; w_particles : R }.
(** no electrons (63), no ions (65), or the numbers *)
Inductive answer : Type := NoElectrons | NoIons | Shown (s : shown).

(** parse_metadata.py:45-95; [size]: the longitude of the area; [start], [finish], [step]: the times *)
Definition phys_info (species : list kind) (beams : list bunches) (size start finish step : R) : tool answer :=
  let l := visit_all species in
  n_e <~ local (el_density l);
  if req n_e 0 then Done NoElectrons
  else
    n_i <~ local (ion_density l);
    if req n_i 0 then Done NoIons
    else
      match beams with
      | [] => Raised NoItem
      | b :: _ =>
        bunch_duration <~ divide (u_length b) (u_velocity b);
        interval <~ divide (u_distance b) (u_velocity b);
        let beam_length := u_length b * u_amount b + u_distance b * (u_amount b - 1) in
        beam_duration <~ divide beam_length (u_velocity b);
        w_p <~ langmur_freq n_e;
        wake <~ wake_length n_e (u_velocity b);
        t_e <~ local (el_temperature l);
        t_i <~ local (ion_temperature l);
        d <~ debye n_e n_i t_e t_i;
        let number := PI * u_radius b ^ 2 * bunch_duration * u_velocity b * u_density b in
        passage <~ divide size (u_velocity b);
        steps <~ divide (finish - start) step;
        Done (Shown (mkShown (w_p / (2 * PI)) wake d (passage + beam_duration) steps (u_velocity b) bunch_duration beam_duration
          (u_length b) (u_radius b) beam_length (u_distance b + u_length b) (u_amount b) number (number * u_amount b)))
      end.
