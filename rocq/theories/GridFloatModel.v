(** The regular grid of the DenseBox implementation, bit by bit on SpecFloat:
    /repo/src/cluster/detail/ArborX_CartesianGrid.hpp (cited as CG), used at /repo/src/cluster/ArborX_DBSCAN.hpp:333-346 (cited as DB).
    A format (fmt) is float or double, the coordinate type.  A grid is the list of its axes.  [None] is undefined behaviour: a
    conversion of a value that does not fit, or of a NaN or an infinity. *)
From Verif Require Export Base GeomOps BoxModel MortonFloatModel GridIndexModel BuildFloatModel.
From Coq Require Import SpecFloat.
Local Open Scope Z_scope.

(** one axis: CG:139-141 *)
Record faxis := FAxis { fa_min : spec_float; fa_max : spec_float; fa_h : spec_float }.

(** Kokkos::floor and std::ceil, as integers; an infinity or a NaN stays what it is, and converting it is undefined *)
Definition f_floor (x : spec_float) : option Z :=
  match x with
  | S754_zero _ => Some 0
  | S754_finite s m e => Some (if e <? 0 then cond_Zopp s (Z.pos m) / 2 ^ (- e) else cond_Zopp s (Z.pos m) * 2 ^ e)
  | _ => None
  end.
Definition f_ceil (x : spec_float) : option Z :=
  match x with
  | S754_zero _ => Some 0
  | S754_finite s m e => Some (if e <? 0 then - (- cond_Zopp s (Z.pos m) / 2 ^ (- e)) else cond_Zopp s (Z.pos m) * 2 ^ e)
  | _ => None
  end.

Section Grid.
Variable f : fmt.
Notation fsub := (o_sub (fops f)).
Notation fdiv := (o_div (fops f)).
Notation fadd := (o_add (fops f)).

(** DB:342 *)
Definition f_cell_length (eps : spec_float) (DIM : Z) : spec_float := fdiv eps (o_sqrt (fops f) (of_int f DIM)).
(** CG:96-108 *)
Definition f_extent (a : faxis) : option Z :=
  let delta := fsub (fa_max a) (fa_min a) in
  if negb (SFeqb delta (S754_zero false)) then c ← f_ceil (fdiv delta (fa_h a)); to_size c else Some 1.
(** CG:59 *)
Definition f_coord_index (a : faxis) (x : spec_float) : option Z :=
  i ← f_floor (fdiv (fsub x (fa_min a)) (fa_h a)); to_int i.
(** CG:49-63 cellIndex: the loop runs from the last axis to the first *)
Fixpoint f_cellIndex (g : list faxis) (p : list spec_float) : option Z :=
  match g, p with
  | a :: g, x :: p =>
      s ← f_cellIndex g p;
      n ← f_extent a;
      i ← f_coord_index a x;
      Some ((s * n + i) mod 2 ^ 64)
  | _, _ => Some 0
  end.
(** CG:65-82 cellBox: the integers i + 1 and i are converted to the coordinate type before the multiplication *)
Fixpoint f_cellBox (g : list faxis) (c : Z) : option (list (spec_float * spec_float)) :=
  match g with
  | [] => Some []
  | a :: g =>
      n ← f_extent a;
      b ← f_cellBox g (c / n);
      let i := c mod n in
      Some ((fadd (fa_min a) (fmul f (of_int f i) (fa_h a)), fadd (fa_min a) (fmul f (of_int f (i + 1)) (fa_h a))) :: b)
  end.
(** CG:113-119; [m] starts as max_size_t *)
Fixpoint f_fits (m : Z) (ns : list Z) : bool :=
  match ns with
  | n :: ((n' :: _) as ns') => let m' := m / n in (n' <? m') && f_fits m' ns'
  | _ => true
  end.
(** CG:128-131: five times the machine epsilon, exact; SFdiv h 0 is an infinity *)
Definition f_precise (a : faxis) : bool :=
  negb (SFltb (SFabs (fdiv (fa_h a) (fa_min a))) (SpecFloat.binary_normalize (f_prec f) (f_emax f) 5 (1 - f_prec f) false)).
(** CG:30-36, 90-136: does the constructor with one cell length return normally?  [None]: undefined behaviour *)
Definition f_buildGrid (g : list faxis) : option bool :=
  ns ← mapM f_extent g;
  Some (forallb (fun a => SFltb (S754_zero false) (fa_h a)) g && forallb (fun n => 0 <? n) ns && f_fits (2 ^ 64 - 1) ns && forallb f_precise g).

(** DB:334-338 calculateBoundingBoxOfTheScene, here as a left fold in the order of the points, and DB:340-343. *)
Definition f_grid_of (DIM : nat) (eps : spec_float) (pts : list (list spec_float)) : list faxis :=
  map (fun '(lo, hi) => FAxis lo hi (f_cell_length eps (Z.of_nat DIM)))
    (foldl (fun b p => expand_box (fops f) b (map (fun x => (x, x)) p)) (empty_box DIM (f_lowest f) (f_largest f)) pts).

(** What the clustering sees of the points: within eps of each other (the sphere predicate on a point and the comparison of
    /repo/src/cluster/detail/ArborX_FDBSCANDenseBox.hpp:82, 164), the cell of a point, and the sphere predicate on the box of a
    cell (DB:84-152).  Indices past the end stand for the first point; a cell that is undefined counts as number 0. *)
Definition f_point_at (pts : list (list spec_float)) (i : nat) : list spec_float := nth i pts (nth 0 pts []).
Definition f_near (eps : spec_float) (pts : list (list spec_float)) (i j : nat) : bool :=
  intersects_sp (fops f) (f_point_at pts i) eps (f_point_at pts j).
Definition f_cell (g : list faxis) (pts : list (list spec_float)) (i : nat) : nat :=
  match f_cellIndex g (f_point_at pts i) with Some c => Z.to_nat c | None => 0%nat end.
Definition f_hit (g : list faxis) (eps : spec_float) (pts : list (list spec_float)) (i c : nat) : bool :=
  match f_cellBox g (Z.of_nat c) with Some b => intersects_sb (fops f) (f_point_at pts i) eps b | None => false end.
End Grid.
