(** Geometry of the searches on a distributed tree in floating-point arithmetic, for every format.
    Sources: /repo/src/distributed/detail/ArborX_DistributedTreeNearestHelpers.hpp (Helpers), the predicates of phase II of a
    nearest query.  Distances and overlap tests are those of BoxModel.v, bounding boxes those of IeeeModel.v. *)
From Coq Require Import SpecFloat.
From Verif Require Import Base GeomOps BoxModel IeeeSpec IeeeModel.
Local Open Scope Z_scope.

Section Float.
Context (prec emax : Z).
(** Kokkos::Experimental::finite_max *)
Definition float_max : spec_float := S754_finite false (shift_pos (Z.to_pos prec) 1 - 1) (emax - prec).
(** The next number above x, as the C library computes it: by incrementing the mantissa with a carry into the exponent. *)
Definition next_up (x : spec_float) : spec_float :=
  match x with
  | S754_zero _ => S754_finite false 1 (emin prec emax)
  | S754_finite false m e =>
      if Z.pos m + 1 =? 2 ^ prec then
        if e =? emax - prec then S754_infinity false else S754_finite false (Z.to_pos (2 ^ (prec - 1))) (e + 1)
      else S754_finite false (m + 1) e
  | S754_finite true m e =>
      if e =? emin prec emax then
        if (m =? 1)%positive then S754_zero true else S754_finite true (m - 1) e
      else if Z.pos m =? 2 ^ (prec - 1) then S754_finite true (Z.to_pos (2 ^ prec - 1)) (e - 1)
      else S754_finite true (m - 1) e
  | S754_infinity true => SFopp float_max
  | S754_infinity false | S754_nan => x
  end.
(** Kokkos::nextafter(x, y) for numbers *)
Definition nextafter (x y : spec_float) : spec_float :=
  if SFeqb x y then y else if SFltb x y then next_up x else SFopp (next_up (SFopp x)).
(** Helpers:85-96 approx_expand_by_radius for a point: the radius of the sphere around it. *)
Definition radius_around_point (rho : spec_float) : spec_float := rho.
(** Helpers:123-136 approx_expand_by_radius for a sphere of radius [r]: the new radius. *)
Definition radius_around_sphere (r rho : spec_float) : spec_float := nextafter (SFadd prec emax r rho) float_max.
End Float.
