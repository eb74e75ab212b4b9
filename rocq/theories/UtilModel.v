(** Model of the helpers in src/algo/common.cpp: splitstr, make_directory, nearest_divide, command line options. *)
From Verif Require Import Base.
From Coq Require Import Ascii String Reals Floats.SpecFloat.
Notation char := ascii.
Notation str := (list ascii).

(** * splitstr, common.cpp:197-208 *)
(** [s.find_first_not_of(d, pos)], [s.find(d, pos)]; [None] is [npos] *)
Fixpoint find_from (f : char -> bool) (s : str) (i : nat) : option nat :=
  match s with
  | [] => None
  | c :: s' => if f c then Some i else find_from f s' (S i)
  end.
Definition find_first_not_of (s : str) (d : char) (pos : nat) : option nat :=
  find_from (fun c => negb (Ascii.eqb c d)) (skipn pos s) pos.
Definition find_char (s : str) (d : char) (pos : nat) : option nat :=
  find_from (fun c => Ascii.eqb c d) (skipn pos s) pos.
(** [s.substr(start, end - start)]; with [end = npos] the count is larger than any string *)
Definition substr (s : str) (start : nat) (end_ : option nat) : str :=
  match end_ with
  | Some e => firstn (e - start) (skipn start s)
  | None => skipn start s
  end.
(** the loop; [end_ = None] ([npos]) makes the next [find_first_not_of] return [npos].  [fuel] only bounds the
    number of iterations; [None]: not finished. *)
Fixpoint split_loop (fuel : nat) (s : str) (d : char) (end_ : option nat) (out : list str) : option (list str) :=
  match fuel with
  | O => None
  | S fuel' =>
    match (match end_ with None => None | Some e => find_first_not_of s d e end) with
    | None => Some out
    | Some start =>
      let e := find_char s d start in
      split_loop fuel' s d e (out ++ [substr s start e])
    end
  end.

(** * make_directory, common.cpp:118-160 *)
(** A path is the list of its segments: what is left when it is cut at each '/' (so "/a//b" is
    [""; "a"; ""; "b"], "" is [""]).  [find_last_of('/')] is [npos] for a single segment, and
    [path.substr(0, pos)] drops the last segment.  "." and ".." segments and symbolic links are left out.
    The file system is described below the directory where the path starts (root or working directory). *)
Inductive node : Type := Dir (writable : bool) | File.
Definition fsys := list string -> option node.
Definition fs_set (fs : fsys) (p : list string) (n : node) : fsys :=
  fun q => if list_eq_dec string_dec q p then Some n else fs q.

Definition nonempty (s : string) : bool := match s with EmptyString => false | _ => true end.
(** the directory entries named by a path: empty segments are skipped *)
Definition resolve (p : list string) : list string := filter nonempty p.

Inductive errno : Type := ENOENT | EEXIST | EOTHER.
(** resolution of the parents: all proper prefixes must be existing directories *)
Fixpoint walk (fs : fsys) (done todo : list string) : option errno :=
  match fs done with
  | None => Some ENOENT
  | Some File => Some EOTHER          (* ENOTDIR *)
  | Some (Dir _) =>
    match todo with
    | [] => None
    | c :: todo' => walk fs (done ++ [c]) todo'
    end
  end.
(** mkdir(2) with mode 0755: the new directory is writable for its owner *)
Definition mkdir (fs : fsys) (p : list string) : fsys * option errno :=
  match p with
  | [EmptyString] => (fs, Some ENOENT)
  | _ =>
    let t := resolve p in
    match walk fs [] (removelast t) with
    | Some e => (fs, Some e)
    | None =>
      match fs t with
      | Some _ => (fs, Some EEXIST)
      | None =>
        match fs (removelast t) with
        | Some (Dir true) => (fs_set fs t (Dir true), None)
        | _ => (fs, Some EOTHER)      (* EACCES, EROFS, ... *)
        end
      end
    end
  end.
(** common.cpp:103-116 *)
Definition directory_exists (fs : fsys) (p : list string) : bool :=
  match fs (resolve p) with Some (Dir _) => true | _ => false end.
(** common.cpp:118-160; recursion over the number of segments (each call has one less) *)
Fixpoint make_directory (n : nat) (fs : fsys) (p : list string) : fsys * bool :=
  let (fs1, ret) := mkdir fs p in
  match ret with
  | None => (fs1, true)
  | Some ENOENT =>
    match p, n with
    | [], _ | [_], _ => (fs1, false)
    | _, O => (fs1, false)
    | _, S n' =>
      let (fs2, ok) := make_directory n' fs1 (removelast p) in
      if ok then let (fs3, r) := mkdir fs2 p in (fs3, match r with None => true | Some _ => false end)
      else (fs2, false)
    end
  | Some EEXIST => (fs1, directory_exists fs1 p)
  | Some EOTHER => (fs1, false)
  end.
Definition make_dir (fs : fsys) (p : list string) : fsys * bool := make_directory (List.length p) fs p.

(** * nearest_divide, common.cpp:210-217 *)
(** [integral res]: whether the (rounded) quotient [res / what] equals its floor; [res] is [unsigned int] *)
Inductive nearest_divide (integral : Z -> Prop) : Z -> Z -> Prop :=
| nd_stop res : integral res -> nearest_divide integral res res
| nd_next res r : ~ integral res -> nearest_divide integral (u32 (res + 1)) r -> nearest_divide integral res r.
(** the test of line 213 with [rnd] the rounding of the division *)
Definition quotient_integral (rnd : R -> R) (what : R) (res : Z) : Prop :=
  exists k : Z, rnd (IZR res / what)%R = IZR k.
(** specieP.cpp:53: [r_size / dr * z_size / dz] in double precision, with the cell size computed as in
    geometry.hpp:66-67 ([size / cell_amount]) *)
Definition f_div := SFdiv 53 1024.
Definition f_mul := SFmul 53 1024.
Definition cells64 (r_size z_size nr nz : spec_float) : spec_float :=
  f_div (f_mul (f_div r_size (f_div r_size nr)) z_size) (f_div z_size nz).

(** * Command line options, common.cpp:162-173; PiCoPiC.cpp:101-129 *)
Fixpoint std_find (args : list string) (o : string) : list string :=   (* the rest of the vector from the match on *)
  match args with
  | [] => []
  | a :: rest => if string_dec a o then args else std_find rest o
  end.
(** [None]: null pointer *)
Definition get_cmd_option (args : list string) (o : string) : option string :=
  match std_find args o with
  | _ :: v :: _ => Some v
  | _ => None
  end.
Definition cmd_option_exists (args : list string) (o : string) : bool :=
  match std_find args o with [] => false | _ => true end.
Inductive argv_result : Type := Exit (code : Z) | Config (file : string).
(** assigning a null pointer to a [std::string] is undefined *)
Definition parse_argv (package : string) (args : list string) : outcome argv_result :=
  if cmd_option_exists args "-h" then Ok (Exit 1) else
  if cmd_option_exists args "--version" then Ok (Exit 0) else
  do filename <- (if cmd_option_exists args "-f" then
                    match get_cmd_option args "-f" with Some v => Ok v | None => UB end
                  else Ok (package ++ ".json")%string);
  if string_dec filename "" then Fatal else Ok (Config filename).
