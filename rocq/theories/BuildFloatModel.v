(** From coordinates in floating point to sorted codes, bit by bit on SpecFloat: the part of the constructor of the search tree before
    generateHierarchy (/repo/src/spatial/ArborX_LinearBVH.hpp:217-245).  Scale = src/geometry/algorithms/ArborX_TranslateAndScale.hpp,
    Curve = src/spatial/detail/ArborX_SpaceFillingCurves.hpp, Morton = src/spatial/detail/ArborX_MortonCode.hpp,
    Centroid = src/geometry/algorithms/ArborX_Centroid.hpp.  A format (fmt) is float or double, the coordinate type. *)
From Verif Require Import Base GeomOps BoxModel BoxSpec MortonFloatModel.
From Coq Require Import SpecFloat.

Definition fops (f : fmt) : Ops spec_float := FloatOps (f_prec f) (f_emax f).

(** The extreme finite numbers of the default constructed box (src/geometry/ArborX_Box.hpp:33-43). *)
Definition f_largest (f : fmt) : spec_float := S754_finite false (shift_pos (Z.to_pos (f_prec f)) 1 - 1) (f_emax f - f_prec f).
Definition f_lowest (f : fmt) : spec_float := S754_finite true (shift_pos (Z.to_pos (f_prec f)) 1 - 1) (f_emax f - f_prec f).

(** calculateBoundingBoxOfTheScene (src/spatial/detail/ArborX_TreeConstruction.hpp:26-39): a reduction along any tree [t]. *)
Definition scene_box (f : fmt) (DIM : nat) (boxes : list (list (spec_float * spec_float))) (t : reduction) : option (list (spec_float * spec_float)) :=
  reduced (fops f) (empty_box DIM (f_lowest f) (f_largest f)) boxes t.

(** Scale:30-36, one coordinate. *)
Definition scale1 (f : fmt) (a b x : spec_float) : spec_float :=
  if negb (SFeqb a b) then SFdiv (f_prec f) (f_emax f) (SFsub (f_prec f) (f_emax f) x a) (SFsub (f_prec f) (f_emax f) b a) else S754_zero false.

(** Conversion between floating types: the nearest number. *)
Definition convert (f : fmt) (x : spec_float) : spec_float :=
  match x with S754_finite s m e => binary_normalize (f_prec f) (f_emax f) (cond_Zopp s (Z.pos m)) e s | _ => x end.
(** Conversion to an unsigned integer of w bits; None: undefined behaviour (the truncated value is not representable). *)
Definition to_unsigned (w : Z) (x : spec_float) : option N :=
  match x with
  | S754_zero _ => Some 0%N
  | S754_finite s m e =>
      let t := (if (e <? 0)%Z then Z.pos m / 2 ^ (- e) else Z.pos m * 2 ^ e)%Z in
      if s then (if (t =? 0)%Z then Some 0%N else None) else if (t <? 2 ^ w)%Z then Some (Z.to_N t) else None
  | _ => None
  end.

(** Morton:318-346 for one coordinate: N, NeedDouble, DefaultFloat, Float, clamp, conversion to unsigned long long. *)
Definition cell64 (f : fmt) (DIM : nat) (x : spec_float) : option N :=
  let Nb := (2 ^ Z.of_nat (bits64 DIM))%Z in
  let need_double := (16777217 <? Nb)%Z in
  let default_float := if need_double then binary64 else binary32 in
  let float := if need_double then default_float else f in
  let v := clamp (fmul float (convert float x) (of_int float Nb)) (of_int float 0) (of_int float (Nb - 1)) in
  to_unsigned 64 (convert default_float v).
(** Curve:45-57, Morton64 of a point (the centroid). *)
Definition code64 (f : fmt) (DIM : nat) (scene : list (spec_float * spec_float)) (c : list spec_float) : option Z :=
  cells ← mapM (fun '((a, b), x) => cell64 f DIM (scale1 f a b x)) (zip scene c);
  Some (Z.of_N (morton64_int DIM cells)).
(** Curve:63-85 projectOntoSpaceFillingCurve. *)
Definition codes64 (f : fmt) (DIM : nat) (scene : list (spec_float * spec_float)) (centroids : list (list spec_float)) : option (list Z) :=
  mapM (code64 f DIM scene) centroids.

(** Centroid:49-60 of a box, 71-82 of a triangle, 97-109 of a tetrahedron, 111-125 of a segment. *)
Definition f_int (f : fmt) (z : Z) : spec_float := of_int f z.
Definition centroid_box (f : fmt) (b : list (spec_float * spec_float)) : list spec_float :=
  map (fun c => SFdiv (f_prec f) (f_emax f) (SFadd (f_prec f) (f_emax f) c.1 c.2) (f_int f 2)) b.
Definition centroid_triangle (f : fmt) (a b c : list spec_float) : list spec_float :=
  zip_with (fun xy z => SFdiv (f_prec f) (f_emax f) (SFadd (f_prec f) (f_emax f) xy z) (f_int f 3)) (zip_with (SFadd (f_prec f) (f_emax f)) a b) c.
Definition centroid_tetrahedron (f : fmt) (a b c d : list spec_float) : list spec_float :=
  zip_with (fun xyz z => SFdiv (f_prec f) (f_emax f) (SFadd (f_prec f) (f_emax f) xyz z) (f_int f 4))
    (zip_with (SFadd (f_prec f) (f_emax f)) (zip_with (SFadd (f_prec f) (f_emax f)) a b) c) d.
Definition centroid_segment (f : fmt) (a b : list spec_float) : list spec_float :=
  zip_with (fun x y => SFdiv (f_prec f) (f_emax f) (SFadd (f_prec f) (f_emax f) x y) (f_int f 2)) a b.
