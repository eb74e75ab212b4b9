(** Model of [maxwellJuettner] (src/math/maxwellJuettner.cpp:330-398), which draws the energies of the thermal
    velocity distribution (src/specieP.cpp:349).  Exact real arithmetic on the decimal tables; the draws of
    [uniform ()] (src/math/rand.cpp:27-31, values of [0, 1)) are parameters. *)
From Coq Require Import Reals.
From Verif Require Import Base RndUtil MjTable.
Open Scope R_scope.

(** include/constant.hpp:34, 32 *)
Definition THREE_OVER_4 : R := 4 / 3.
Definition TWO_OVER_3 : R := 2 / 3.

(** [lnInvF[index]], [lnInvH[index]]: C arrays of 1000 numbers, no check of the index *)
Definition entry (t : list Z) (i : Z) : R := IZR (nth (Z.to_nat i) t 0%Z) / 10 ^ 21.
Definition table (t : list Z) (i : Z) : outcome R :=
  if ((0 <=? i) && (i <? 1000))%Z then Ok (entry t i) else UB.

(** lines 352-355 and 383-386: the interpolation in a table; [I] is converted to [unsigned int] *)
Definition interpolate (t : list Z) (I : R) : outcome R :=
  do index <- to_u32 I;
  let remainder := I - IZR index in
  do a <- table t index;
  do b <- table t (u32 (index + 1));
  Ok (exp (a + remainder * (b - a))).

(** lines 343-358: the energy of one particle for the draw [U], temperature below 0.1 (Maxwell-Boltzmann);
    log (0) is minus infinity, so that lnlnU is plus infinity for U = 0 *)
Definition low_branch (U : R) : R := THREE_OVER_4 * sqrt PI * (if Req_EM_T U 0 then 0 else Rpower U TWO_OVER_3).
Definition classical_energy (temperature U : R) : outcome R :=
  if Req_EM_T U 0 then Ok (temperature * low_branch U) else
  let lnlnU := ln (- ln U) in
  if Rlt_dec 2 lnlnU then Ok (temperature * low_branch U)
  else if Rlt_dec lnlnU (- 19) then Ok (temperature * 1)
  else do invF <- interpolate lnInvF ((lnlnU + 19) * (999 / (2 + 19))); Ok (temperature * invF).

(** lines 366-368 *)
Definition H0 (temperature : R) : R :=
  let invT := 1 / temperature in - invT + ln (1 + invT + 1 / 2 * invT * invT).

(** lines 375-389: the factor gamma for the first draw [U]; [None] is NaN.  [pow (-6 U, 1/3)] and [pow (-U, 0.06)]
    are NaN for U > 0 and 0 for U = 0; the logarithm of a negative number is NaN, for which both comparisons are
    false, and the conversion of NaN to [unsigned int] is undefined; log (0) is minus infinity. *)
Definition rel_gamma (temperature U : R) : outcome (option R) :=
  let x := - ln (1 - U) - H0 temperature in
  if Rlt_dec x 0 then UB else
  if Req_EM_T x 0 then Ok (if Req_EM_T U 0 then Some (temperature * 0) else None) else
  let lnU := ln x in
  if Rlt_dec lnU (- 26) then Ok (if Req_EM_T U 0 then Some (temperature * 0) else None)
  else if Rlt_dec 12 lnU then Ok (if Req_EM_T U 0 then Some (temperature * 0) else None)
  else do invH <- interpolate lnInvH ((lnU + 30) * (999 / (12 + 30))); Ok (Some (temperature * invH)).

(** lines 371-395: the rejection loop for one particle with the draws [(first, second)] of each round; the
    condition [U >= sqrt (1 - 1 / (gamma * gamma))] is false when the square root is NaN, that is when gamma is NaN
    or gamma^2 < 1 *)
Inductive drawn : Type := Running | Stored (energy : option R).
Fixpoint rel_energy (temperature : R) (draws : list (R * R)) : outcome drawn :=
  match draws with
  | [] => Ok Running
  | (u1, u2) :: draws' =>
      do g <- rel_gamma temperature u1;
      match g with
      | None => Ok (Stored None)
      | Some gamma =>
          if Rlt_dec (gamma * gamma) 1 then Ok (Stored (Some (gamma - 1)))
          else if Rle_dec (sqrt (1 - 1 / (gamma * gamma))) u2 then rel_energy temperature draws'
          else Ok (Stored (Some (gamma - 1)))
      end
  end.
