(** Model of pausing and ending the simulation by signals (src/PiCoPiC.cpp:59-99 and the main loop 299-397),
    HDF5 build without MPI.
    The main program is a sequence of small steps ([Tick]); a signal ([Usr1], [Usr2], [Term]: any terminating
    signal) may arrive between any two of them.  A handler runs as a whole: a second signal interrupting the
    handler of the first one is not modelled.  Data files are numbered handles; [alive] tells which of them have
    been opened and not yet deleted. *)
From Verif Require Import Base.

Inductive pc : Type :=
| PInit      (* before the file is created, PiCoPiC.cpp:257-279 *)
| PTop       (* while (current <= end), 299 *)
| PSim       (* inject_beam ... solve_current, 326-335 *)
| POut       (* out_controller(), first half: init_datasets, outController.cpp:312-496 *)
| POut2      (* second half: the writers, outController.cpp:502-507 *)
| PCheck     (* current += step (347) done; while (lock_), 352 *)
| PWait      (* if (recreate_writers_), 354 *)
| PNew       (* file = new File, 360 *)
| PUnlock    (* lock_.store(false), 384 *)
| PClear     (* recreate_writers_.store(false), 385 *)
| PFin       (* delete file, 398 *)
| PDone      (* print_final, 400-401; return from main *)
| PExit.     (* process ended *)

Record st : Type := mkSt {
  at_ : pc;
  file : option nat;        (* global [file]; null before it is created *)
  writer_file : nat;        (* handle kept by OutController and the engines of the writers *)
  alive : nat -> bool;
  next : nat;               (* handles opened so far *)
  lock : bool;              (* lock_ *)
  recr : bool;              (* recreate_writers_ *)
  started : nat;            (* simulation steps started *)
  done_ : nat               (* simulation steps finished, including output *)
}.

Definition st0 : st := mkSt PInit None 0 (fun _ => false) 0 false false 0 0.

Definition goto (p : pc) (s : st) : st :=
  mkSt p (file s) (writer_file s) (alive s) (next s) (lock s) (recr s) (started s) (done_ s).
Definition set_alive (a : nat -> bool) (h : nat) (b : bool) : nat -> bool :=
  fun x => if Nat.eqb x h then b else a x.

(** [delete file]: the pointer keeps its value; deleting a deleted object is undefined, deleting null is not *)
Definition delete_file (s : st) : outcome st :=
  match file s with
  | None => Ok s
  | Some h => if alive s h
      then Ok (mkSt (at_ s) (file s) (writer_file s) (set_alive (alive s) h false) (next s) (lock s) (recr s) (started s) (done_ s))
      else UB
  end.

Section Run.
(** number of passes of the main loop, and the passes in which some probe is due *)
Variable N : nat.
Variable due : nat -> bool.

Definition use_file (p : pc) (s : st) : outcome st :=
  if due (done_ s) then if alive s (writer_file s) then Ok (goto p s) else UB else Ok (goto p s).

Definition tick (s : st) : outcome st :=
  match at_ s with
  | PInit => Ok (mkSt PTop (Some (next s)) (next s) (set_alive (alive s) (next s) true) (S (next s))
                      (lock s) (recr s) (started s) (done_ s))
  | PTop => if Nat.ltb (started s) N
      then Ok (mkSt PSim (file s) (writer_file s) (alive s) (next s) (lock s) (recr s) (S (started s)) (done_ s))
      else Ok (goto PFin s)
  | PSim => Ok (goto POut s)
  | POut => use_file POut2 s
  | POut2 => do s' <- use_file PCheck s;
      Ok (mkSt (at_ s') (file s') (writer_file s') (alive s') (next s') (lock s') (recr s') (started s') (S (done_ s')))
  | PCheck => if lock s then Ok (goto PWait s) else Ok (goto PTop s)
  | PWait => if recr s then Ok (goto PNew s) else Ok (goto PCheck s)
  | PNew => Ok (mkSt PUnlock (Some (next s)) (writer_file s) (set_alive (alive s) (next s) true) (S (next s))
                     (lock s) (recr s) (started s) (done_ s))
  | PUnlock => Ok (mkSt PClear (file s) (writer_file s) (alive s) (next s) false (recr s) (started s) (done_ s))
  | PClear => Ok (mkSt PCheck (file s) (writer_file s) (alive s) (next s) (lock s) false (started s) (done_ s))
  | PFin => do s' <- delete_file s; Ok (goto PDone s')
  | PDone => Ok (goto PExit s)
  | PExit => Ok s
  end.

Inductive event : Type := Tick | Usr1 | Usr2 | Term.

Definition ended (s : st) : bool := match at_ s with PExit => true | _ => false end.

(** one event; signals to an ended process do nothing *)
Definition step (e : event) (s : st) : outcome st :=
  if ended s then Ok s else
  match e with
  | Tick => tick s
  | Usr1 => if lock s then Ok s else
      do s' <- delete_file s;
      Ok (mkSt (at_ s') (file s') (writer_file s') (alive s') (next s') true (recr s') (started s') (done_ s'))
  | Usr2 => if lock s
      then Ok (mkSt (at_ s) (file s) (writer_file s) (alive s) (next s) (lock s) true (started s) (done_ s))
      else Ok s
  | Term => do s' <- delete_file s; Ok (goto PExit s')
  end.

Fixpoint run (h : list event) (s : st) : outcome st :=
  match h with [] => Ok s | e :: h' => do s' <- step e s; run h' s' end.
End Run.
