(** Model of the regular grid of the DenseBox implementation:
    /repo/src/cluster/detail/ArborX_CartesianGrid.hpp (cited as CG), used at
    /repo/src/cluster/ArborX_DBSCAN.hpp:333-344 (cited as DB).

    Coordinates are exact rationals (the C++ code uses float or double; rounding is not modelled here), cell indices are
    mathematical integers: the conversions to int (CG:59) and size_t (CG:60) are modelled in GridIndexModel.v, and exact if the
    extents pass the overflow check of CG:113-119, which is [fits], and none exceeds 2^31 (C76).  A point is the list of its coordinates, a grid the list of its axes. *)
From Coq Require Export QArith.QArith QArith.Qround.
From Verif Require Export Base.
Local Open Scope Z_scope.

(** one axis: CG:139-141 _bounds.minCorner()[d], _bounds.maxCorner()[d], _h[d] *)
Record axis := Axis { a_min : Q; a_max : Q; a_h : Q }.
(** CG:96-108 buildGrid *)
Definition extent (a : axis) : Z := if Qeq_bool (a_max a - a_min a) 0 then 1 else Qceiling ((a_max a - a_min a) / a_h a).
(** CG:33, 102: the assertions of the constructor *)
Definition axis_ok (a : axis) : Prop := (0 < a_h a)%Q /\ 0 < extent a.
Definition axis_okb (a : axis) : bool := negb (Qle_bool (a_h a) 0) && (0 <? extent a).
(** CG:113-119; [m] starts as max_size_t *)
Fixpoint fits (m : Z) (g : list axis) : bool :=
  match g with
  | a :: ((b :: _) as g') => let m' := m / extent a in (extent b <? m') && fits m' g'
  | _ => true
  end.
(** CG:59 *)
Definition coord_index (a : axis) (x : Q) : Z := Qfloor ((x - a_min a) / a_h a).
(** CG:49-63 cellIndex: the loop runs from the last axis to the first *)
Fixpoint cellIndex (g : list axis) (p : list Q) : Z :=
  match g, p with
  | a :: g, x :: p => cellIndex g p * extent a + coord_index a x
  | _, _ => 0
  end.
(** CG:65-82 cellBox: the box as (min, max) per axis *)
Fixpoint cellBox (g : list axis) (c : Z) : list (Q * Q) :=
  match g with
  | [] => []
  | a :: g => let i := c mod extent a in
      (a_min a + inject_Z i * a_h a, a_min a + (inject_Z i + 1) * a_h a)%Q :: cellBox g (c / extent a)
  end.

(** Distances are compared squared: sqrt is monotone.  ArborX_Distance.hpp:53-70 (point-point) and 73-80 (point-box, through
    closestPoint, ArborX_ClosestPoint.hpp:49-66, which clamps every coordinate). *)
Definition sq (x : Q) : Q := (x * x)%Q.
Fixpoint dist2 (p q : list Q) : Q :=
  match p, q with x :: p, y :: q => (sq (x - y) + dist2 p q)%Q | _, _ => 0%Q end.
Definition clamp (x lo hi : Q) : Q := if negb (Qle_bool lo x) then lo else if negb (Qle_bool x hi) then hi else x.
Fixpoint boxdist2 (p : list Q) (b : list (Q * Q)) : Q :=
  match p, b with x :: p, (lo, hi) :: b => (sq (x - clamp x lo hi) + boxdist2 p b)%Q | _, _ => 0%Q end.

(** DB:334-338 the bounding box of the points, DB:340-343 cells of side [h] *)
Definition col (pts : list (list Q)) (d : nat) : list Q := map (fun p => nth d p 0%Q) pts.
Definition qmin (x y : Q) : Q := if Qle_bool x y then x else y.
Definition qmax (x y : Q) : Q := if Qle_bool x y then y else x.
Definition grid_of (dim : nat) (h : Q) (pts : list (list Q)) : list axis :=
  map (fun d => match col pts d with
                | [] => Axis 0 0 h
                | x :: xs => Axis (fold_right qmin x xs) (fold_right qmax x xs) h
                end) (seq 0 dim).
