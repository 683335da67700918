(** Geometry of a distributed nearest query with a box as its geometry, bit-exact in IEEE single precision on
    Coq.Floats.SpecFloat (pure Gallina, no axioms).
    Sources: /repo/src/distributed/detail/ArborX_DistributedTreeNearestHelpers.hpp (Helpers),
    /repo/src/geometry/algorithms/ArborX_Distance.hpp (Distance), ArborX_ClosestPoint.hpp (Closest),
    ArborX_Intersects.hpp (Intersects).  Points and boxes are lists over the dimensions. *)
From Verif Require Import Base.
From Coq Require Import SpecFloat.

Definition f32_sub := SFsub 24 128.
Definition f32_add := SFadd 24 128.
Definition f32_mul := SFmul 24 128.
Definition f32_sqrt := SFsqrt 24 128.
Definition f32_zero : spec_float := S754_zero false.
Definition f32_inf : spec_float := S754_infinity false.
(** Kokkos::Experimental::finite_max / finite_min. *)
Definition f32_max : spec_float := S754_finite false 16777215 104.
Definition f32_min : spec_float := S754_finite true 16777215 104.

(** Kokkos::nextafter(x, y) for numbers. *)
Definition f32_nextafter (x y : spec_float) : spec_float :=
  if SFeqb x y then y else if SFltb x y then SFsucc 24 128 x else SFpred 24 128 x.

Definition fpoint := list spec_float.
(** Per dimension minCorner and maxCorner. *)
Definition fbox := list (spec_float * spec_float).

(** Distance:53-71 point-point. *)
Definition f_distance_pp (a b : fpoint) : spec_float :=
  f32_sqrt (foldl (fun s '(x, y) => let tmp := f32_sub y x in f32_add s (f32_mul tmp tmp)) f32_zero (zip a b)).
(** Closest:49-66 point-box. *)
Definition f_closestPoint (p : fpoint) (b : fbox) : fpoint :=
  zip_with (fun x '(lo, hi) => if SFltb x lo then lo else if SFltb hi x then hi else x) p b.
(** Distance:74-81 point-box; distance(box, point) is the same by DoApply. *)
Definition f_distance_pb (p : fpoint) (b : fbox) : spec_float := f_distance_pp p (f_closestPoint p b).
(** Distance:160-195 box-box. *)
Definition f_distance_bb (a b : fbox) : spec_float :=
  f32_sqrt (foldl (fun s '((a_min, a_max), (b_min, b_max)) =>
    if SFltb b_max a_min then let delta := f32_sub a_min b_max in f32_add s (f32_mul delta delta)
    else if SFltb a_max b_min then let delta := f32_sub b_min a_max in f32_add s (f32_mul delta delta)
    else s) f32_zero (zip a b)).
(** Intersects:53-65 box-box. *)
Definition f_intersects_bb (a b : fbox) : bool :=
  forallb (fun '((a_min, a_max), (b_min, b_max)) => negb (SFltb b_max a_min || SFltb a_max b_min)) (zip a b).
(** Helpers:98-121 approx_expand_by_radius for a box. *)
Definition f_expand (b : fbox) (r : spec_float) : fbox :=
  map (fun '(lo, hi) => (f32_nextafter (f32_sub lo r) f32_min, f32_nextafter (f32_add hi r) f32_max)) b.
