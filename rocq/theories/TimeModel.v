(** Model of the simulated time and of the recomputed step number. *)
From Verif Require Import Base OutModel.
From Coq Require Import Reals Floats.SpecFloat.

(** * IEEE-754 double precision (Coq.Floats.SpecFloat) *)
Definition f64 := spec_float.
Definition add64 : f64 -> f64 -> f64 := SFadd 53 1024.
Definition div64 : f64 -> f64 -> f64 := SFdiv 53 1024.

(** [(int)ceil(x)] of a finite double; converting infinity or NaN to [int] is undefined (the range check of
    the conversion is left out: all values here are small) *)
Definition ceil64 (x : f64) : outcome Z :=
  match x with
  | S754_zero _ => Ok 0
  | S754_finite s m e =>
      let v := if s then Zneg m else Zpos m in
      Ok (if 0 <=? e then v * 2 ^ e else - ((- v) / 2 ^ (- e)))
  | _ => UB
  end.

(** PiCoPiC.cpp:347 [sim_time_clock->current += sim_time_clock->step], starting from 0 (cfg.cpp:438) *)
Fixpoint time64 (dt : f64) (n : nat) : f64 :=
  match n with O => S754_zero false | S k => add64 (time64 dt k) dt end.
(** outController.cpp:341, outWriter.cpp:51 *)
Definition step64 (dt : f64) (n : nat) : outcome Z := ceil64 (div64 (time64 dt n) dt).

(** the output of the first [k] passes of the main loop with the step number as computed by the code *)
Fixpoint output_run64 (dt : f64) (schedule : Z) (k : nat) : outcome (Z * list (Z * Z)) :=
  match k with
  | O => Ok (create_frames, [])
  | S k' =>
    do (fr, ws) <- output_run64 dt schedule k';
    do n <- step64 dt k';
    do (fr', w) <- output_step schedule n fr;
    Ok (fr', match w with Some f => ws ++ [(Z.of_nat k', f)] | None => ws end)
  end.

(** * The same over the reals, with an arbitrary rounding function applied after every operation *)
Definition ceilR (x : R) : Z := - Int_part (- x).
Fixpoint timeR (rnd : R -> R) (dt : R) (n : nat) : R :=
  match n with O => 0%R | S k => rnd (timeR rnd dt k + dt)%R end.
Definition stepR (rnd : R -> R) (dt : R) (n : nat) : Z := ceilR (rnd (timeR rnd dt n / dt)%R).
