(** Model of the data output: placing of the writers (src/outController.cpp:69-140, 285-310), the writers
    (src/outWriter.cpp:49-76 rectangles), the HDF5 engine (src/outEngine/outEngineHDF5.cpp:52-77 write_rec,
    203-221 extend_dataset, 118-150 create_dataset) and the schedule. *)
From Verif Require Import Base GridModel.

(** * Rectangular probes *)

(** position of a writer ([vector<short>], outWriter.hpp:42) and offset of its engine ([vector<size_t>]) *)
Record tile : Type := mkTile { t0 : Z; t1 : Z; t2 : Z; t3 : Z; o0 : Z; o1 : Z }.

(** outController.cpp:89-94 (inclusive comparisons) and 109-139 for a probe [p0,p2) x [p1,p3) (prb->dims) and a
    domain with cell_dims d0..d3; values are stored into [short]s, [-=] and the offset are computed in
    [size_t] *)
Definition tile_of (p0 p1 p2 p3 d0 d1 d2 d3 : Z) : option tile :=
  if (p0 <=? d2) && (p1 <=? d3) && (d0 <=? p2) && (d1 <=? p3) then
    let e0 := s16 (if p0 <? d0 then d0 else p0) in
    let e1 := s16 (if p1 <? d1 then d1 else p1) in
    let e2 := s16 (if d2 <? p2 then d2 else p2) in
    let e3 := s16 (if d3 <? p3 then d3 else p3) in
    let e0' := s16 (u64 (e0 - d0)) in
    let e2' := s16 (u64 (e2 - d0)) in
    let e1' := s16 (u64 (e1 - d1)) in
    let e3' := s16 (u64 (e3 - d1)) in
    Some (mkTile e0' e1' e2' e3' (u64 (e0' + d0 - p0)) (u64 (e1' + d1 - p1)))
  else None.

Section Write.
Context {T : Type}.
Variable zero : T.

(** outWriter.cpp:59-66: a matrix of rows x columns; a negative size makes [std::vector] throw, which ends
    the program *)
Definition grab (g : grid T) (t : tile) : outcome (Z * Z * (Z -> Z -> T)) :=
  if (t2 t - t0 t <? 0) || (t3 t - t1 t <? 0) then Fatal else
  do val <- for_to (t0 t) (t2 t) (fun i => for_to (t1 t) (t3 t) (fun j val =>
              do v <- get g i j; Ok (upd val (i - t0 t) (j - t1 t) v))) (fun _ _ => zero);
  Ok (t2 t - t0 t, t3 t - t1 t, val).

(** the dataset of a probe in the file: number of frames, size of a frame, contents *)
Record dataset : Type := mkDs { frames : Z; n0 : Z; n1 : Z; dat : Z -> Z -> Z -> T }.

(** outEngineHDF5.cpp:52-77: [data[0].size()] of an empty matrix is undefined; a selection outside the dataset
    makes HDF5 fail, reported as FATAL.  A selection with zero columns is taken to write nothing. *)
Definition write_rec (ds : dataset) (num : Z) (t : tile) (d : Z * Z * (Z -> Z -> T)) : outcome dataset :=
  let '(n, m, val) := d in
  if n =? 0 then UB else
  if (num <? frames ds) && (o0 t + n <=? n0 ds) && (o1 t + m <=? n1 ds) then
    Ok (mkDs (frames ds) (n0 ds) (n1 ds) (fun f a b =>
      if (f =? num) && (o0 t <=? a) && (a <? o0 t + n) && (o1 t <=? b) && (b <? o1 t + m)
      then val (a - o0 t) (b - o1 t) else dat ds f a b))
  else Fatal.

(** one writer (outWriter.cpp:49-72, shape 0) *)
Definition run_writer (g : grid T) (num : Z) (t : option tile) (ds : dataset) : outcome dataset :=
  match t with
  | None => Ok ds
  | Some t => do d <- grab g t; write_rec ds num t d
  end.

(** all writers of one probe, domain by domain (outController.cpp:70-72, 498-508).  [br], [bz]: first cell of
    the domains (cell_dims), [G r z]: the grid of the probed component. *)
Definition write_probe (R C : Z) (br bz : Z -> Z) (G : Z -> Z -> grid T) (p0 p1 p2 p3 num : Z) (ds : dataset)
  : outcome dataset :=
  for_to 0 R (fun r => for_to 0 C (fun z ds =>
    run_writer (G r z) num (tile_of p0 p1 p2 p3 (br r) (bz z) (br (r + 1)) (bz (z + 1))) ds)) ds.
End Write.
Arguments dataset : clear implicits.

(** * Schedule *)

(** outEngineHDF5.cpp:118-146: a new dataset has one frame *)
Definition create_frames : Z := 1.
(** outEngineHDF5.cpp:203-221 *)
Definition extend_frames (frames num : Z) : Z := if num <? frames then frames else num + 1.

(** What happens to the dataset of a probe during the output of step [n] ([int current_time_step]):
    outController.cpp:341-351 with the probe's [unsigned int schedule], then outWriter.cpp:51-56 with the
    writer's [unsigned short schedule] (outWriter.hpp:40).  Division by zero is undefined; writing to a frame
    that does not exist is FATAL.  Result: new number of frames, frame written (if any). *)
Definition output_step (schedule : Z) (n frames : Z) : outcome (Z * option Z) :=
  if schedule =? 0 then UB else
  let frames' := if n mod schedule =? 0 then extend_frames frames (n / schedule) else frames in
  let ws := u16 schedule in
  if ws =? 0 then UB else
  if n mod ws =? 0 then
    if n / ws <? frames' then Ok (frames', Some (n / ws)) else Fatal
  else Ok (frames', None).

(** the output of steps 0, 1, ..., k-1: final number of frames and the list of (step, frame) written *)
Fixpoint output_run (schedule : Z) (k : nat) : outcome (Z * list (Z * Z)) :=
  match k with
  | O => Ok (create_frames, [])
  | S k' =>
    do (fr, ws) <- output_run schedule k';
    do (fr', w) <- output_step schedule (Z.of_nat k') fr;
    Ok (fr', match w with Some f => ws ++ [(Z.of_nat k', f)] | None => ws end)
  end.
