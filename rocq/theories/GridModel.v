(** Model of the class template [Grid<T>] (include/algo/grid.hpp) and [Grid3D<T>] (include/algo/grid3d.hpp).

    The element type [T] and its operations are arbitrary.  The allocated storage [T **grid] of
    [x_real_size] rows of [y_real_size] cells is a function from raw indices to [T]; every access made by
    the code goes through [rd]/[wr], which yield [UB] outside the allocation.  All index arithmetic is done
    in [unsigned int], i.e. modulo 2^32, as in the code. *)
From Verif Require Import Base.

Record grid (T : Type) : Type := mkGrid {
  xr : Z;                  (* x_real_size *)
  yr : Z;                  (* y_real_size *)
  xs : Z;                  (* x_size *)
  ys : Z;                  (* y_size *)
  os : Z;                  (* o_s *)
  cell : Z -> Z -> T       (* grid[i][j], raw indices *)
}.
Arguments mkGrid {T}. Arguments xr {T}. Arguments yr {T}. Arguments xs {T}. Arguments ys {T}.
Arguments os {T}. Arguments cell {T}.

Section Grid.
Context {T : Type}.

(** grid.hpp:46-58, constructor; [new T[...]] leaves the contents [c] unspecified. *)
Definition new_grid (x_amount y_amount overlay_shift : Z) (c : Z -> Z -> T) : grid T :=
  {| xr := u32 (x_amount + overlay_shift * 2);
     yr := u32 (y_amount + overlay_shift * 2);
     xs := x_amount; ys := y_amount; os := overlay_shift; cell := c |}.

(** is [grid[i][j]] inside the allocation made by the constructor? *)
Definition inb (g : grid T) (i j : Z) : bool :=
  (0 <=? i) && (i <? xr g) && (0 <=? j) && (j <? yr g).

Definition upd (c : Z -> Z -> T) (i j : Z) (v : T) : Z -> Z -> T :=
  fun a b => if (a =? i) && (b =? j) then v else c a b.

(** raw accesses [grid[i][j]] *)
Definition rd (g : grid T) (i j : Z) : outcome T :=
  if inb g i j then Ok (cell g i j) else UB.
Definition wr (g : grid T) (i j : Z) (v : T) : outcome (grid T) :=
  if inb g i j then Ok (mkGrid (xr g) (yr g) (xs g) (ys g) (os g) (upd (cell g) i j v)) else UB.

(** grid.hpp:60-63  set *)
Definition set (g : grid T) (x y : Z) (v : T) : outcome (grid T) :=
  wr g (u32 (x + os g)) (u32 (y + os g)) v.
(** grid.hpp:65-85  inc, dec, d_a, m_a: [grid[x+o_s][y+o_s] op= value], for an arbitrary [op] *)
Definition op_assign (op : T -> T -> T) (g : grid T) (x y : Z) (v : T) : outcome (grid T) :=
  do old <- rd g (u32 (x + os g)) (u32 (y + os g));
  wr g (u32 (x + os g)) (u32 (y + os g)) (op old v).
(** grid.hpp:165-168  operator() *)
Definition get (g : grid T) (x y : Z) : outcome T :=
  rd g (u32 (x + os g)) (u32 (y + os g)).

(** grid.hpp:87-97  overlay_set *)
Definition overlay_set (v : T) (g : grid T) : outcome (grid T) :=
  for_to 0 (xr g) (fun i =>
    for_to 0 (yr g) (fun j g' =>
      if (i <? os g) || (j <? os g) || (u32 (xr g - os g) <=? i) || (u32 (yr g - os g) <=? j)
      then wr g' i j v else Ok g')) g.

(** grid.hpp:172-179  operator= (T), and 181-215 for the other operators *)
Definition assign_all (v : T) (g : grid T) : outcome (grid T) :=
  for_to 0 (xs g) (fun i => for_to 0 (ys g) (fun j g' =>
    wr g' (u32 (i + os g)) (u32 (j + os g)) v)) g.
Definition op_all (op : T -> T -> T) (v : T) (g : grid T) : outcome (grid T) :=
  for_to 0 (xs g) (fun i => for_to 0 (ys g) (fun j g' =>
    do old <- rd g' (u32 (i + os g)) (u32 (j + os g));
    wr g' (u32 (i + os g)) (u32 (j + os g)) (op old v))) g.

(** grid.hpp:153-162  copy *)
Definition copy (rhs : grid T) (g : grid T) : outcome (grid T) :=
  if (xr g =? xr rhs) && (yr g =? yr rhs) then
    for_to 0 (xr g) (fun i => for_to 0 (yr g) (fun j g' =>
      do v <- rd rhs i j; wr g' i j v)) g
  else Fatal.

Variable add : T -> T -> T.          (* the [+=] of the element type *)

(** [a += b] on raw cells of two grids *)
Definition acc (g : grid T) (i j : Z) (v : T) : outcome (grid T) :=
  do old <- rd g i j; wr g i j (add old v).

(** grid.hpp:99-115 overlay_y.  [rhsgrid] is passed by value, but [Grid] has no copy constructor, so both
    objects share the storage: the writes to [rhsgrid] are visible to the caller.  State: (this, rhsgrid),
    two distinct grids. *)
Definition overlay_y_body (d i : Z) (s : grid T * grid T) : outcome (grid T * grid T) :=
  let (a, b) := s in
  let o := os a in
  do v1 <- rd a i (u32 (yr a - 1 - d));
  do b1 <- acc b i (u32 (2 * o - d - 1)) v1;               (* line 105 *)
  do v2 <- rd b1 i d;
  do a1 <- acc a i (u32 (yr a - 2 * o + d)) v2;            (* line 106 *)
  do v3 <- rd a1 i (u32 (yr a - 2 * o + d));
  do b2 <- wr b1 i d v3;                                   (* line 108 *)
  do v4 <- rd b2 i (u32 (2 * o - 1 - d));
  do a2 <- wr a1 i (u32 (yr a - 1 - d)) v4;                (* line 109 *)
  Ok (a2, b2).
Definition overlay_y (a b : grid T) : outcome (grid T * grid T) :=
  if xr a =? xr b then
    for_to 0 (os a) (fun d => for_to (os a) (u32 (xr a - os a)) (overlay_y_body d)) (a, b)
  else Fatal.

(** grid.hpp:117-133 overlay_x *)
Definition overlay_x_body (d i : Z) (s : grid T * grid T) : outcome (grid T * grid T) :=
  let (a, b) := s in
  let o := os a in
  do v1 <- rd a (u32 (xr a - 1 - d)) i;
  do b1 <- acc b (u32 (2 * o - d - 1)) i v1;               (* line 123 *)
  do v2 <- rd b1 d i;
  do a1 <- acc a (u32 (xr a - 2 * o + d)) i v2;            (* line 124 *)
  do v3 <- rd a1 (u32 (xr a - 2 * o + d)) i;
  do b2 <- wr b1 d i v3;                                   (* line 126 *)
  do v4 <- rd b2 (u32 (2 * o - 1 - d)) i;
  do a2 <- wr a1 (u32 (xr a - 1 - d)) i v4;                (* line 127 *)
  Ok (a2, b2).
Definition overlay_x (a b : grid T) : outcome (grid T * grid T) :=
  if yr a =? yr b then
    for_to 0 (os a) (fun d => for_to (os a) (u32 (yr a - os a)) (overlay_x_body d)) (a, b)
  else Fatal.

(** grid.hpp:135-151 overlay_xy, index expressions exactly as written (x_real_size used for both indices
    in lines 141, 142 and 145, y_real_size for both in line 144) *)
Definition overlay_xy_body (d e : Z) (s : grid T * grid T) : outcome (grid T * grid T) :=
  let (a, b) := s in
  let o := os a in
  do v1 <- rd a (u32 (xr a - 1 - d)) (u32 (xr a - 1 - e));
  do b1 <- acc b (u32 (2 * o - d - 1)) (u32 (2 * o - e - 1)) v1;                  (* line 141 *)
  do v2 <- rd b1 d e;
  do a1 <- acc a (u32 (xr a - 2 * o + d)) (u32 (xr a - 2 * o + e)) v2;            (* line 142 *)
  do v3 <- rd a1 (u32 (yr a - 2 * o + d)) (u32 (yr a - 2 * o + e));
  do b2 <- wr b1 d e v3;                                                          (* line 144 *)
  do v4 <- rd b2 (u32 (2 * o - 1 - d)) (u32 (2 * o - 1 - e));
  do a2 <- wr a1 (u32 (xr a - 1 - d)) (u32 (xr a - 1 - e)) v4;                    (* line 145 *)
  Ok (a2, b2).
Definition overlay_xy (a b : grid T) : outcome (grid T * grid T) :=
  if (xr a =? xr b) && (yr a =? yr b) then
    for_to 0 (os a) (fun d => for_to 0 (os a) (overlay_xy_body d)) (a, b)
  else Fatal.

(** A grid as produced by the constructor for sizes that do not overflow [unsigned int]. *)
Definition wf (g : grid T) : Prop :=
  0 <= xs g /\ 0 <= ys g /\ 0 <= os g /\
  xr g = xs g + 2 * os g /\ yr g = ys g + 2 * os g /\
  xr g < 2 ^ 32 /\ yr g < 2 ^ 32.

Lemma new_grid_wf x y o c :
  0 <= x -> 0 <= y -> 0 <= o -> x + 2 * o < 2 ^ 32 -> y + 2 * o < 2 ^ 32 -> wf (new_grid x y o c).
Proof.
  intros; unfold wf, new_grid; cbn [xr yr xs ys os]. rewrite !u32_small by lia. repeat split; lia.
Qed.
End Grid.

(** include/algo/grid3d.hpp: three component grids, every operation applied component by component. *)
Record grid3 (T : Type) : Type := mkGrid3 { c_r : grid T; c_phi : grid T; c_z : grid T }.
Arguments mkGrid3 {T}. Arguments c_r {T}. Arguments c_phi {T}. Arguments c_z {T}.

Section Grid3.
Context {T : Type}.
Definition lift3 (f : grid T -> outcome (grid T)) (g : grid3 T) : outcome (grid3 T) :=
  do a <- f (c_r g); do b <- f (c_phi g); do c <- f (c_z g); Ok (mkGrid3 a b c).
Definition lift3p (f : grid T -> grid T -> outcome (grid T * grid T)) (g h : grid3 T)
  : outcome (grid3 T * grid3 T) :=
  do (a, a') <- f (c_r g) (c_r h);
  do (b, b') <- f (c_phi g) (c_phi h);
  do (c, c') <- f (c_z g) (c_z h);
  Ok (mkGrid3 a b c, mkGrid3 a' b' c').
(** grid3d.hpp:43-62, 64-78 *)
Definition overlay_x3 add := lift3p (overlay_x (T := T) add).
Definition overlay_y3 add := lift3p (overlay_y (T := T) add).
Definition overlay_xy3 add := lift3p (overlay_xy (T := T) add).
Definition overlay_set3 v := lift3 (overlay_set (T := T) v).
Definition assign_all3 v := lift3 (assign_all (T := T) v).
(** grid3d.hpp:80-89 operator[]: an index above 2 is fatal, a negative one returns an uninitialised pointer *)
Definition component (g : grid3 T) (index : Z) : outcome (grid T) :=
  if index =? 0 then Ok (c_r g) else if index =? 1 then Ok (c_phi g)
  else if index =? 2 then Ok (c_z g) else if 2 <? index then Fatal else UB.
End Grid3.
