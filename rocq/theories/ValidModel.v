(** Validity and equality of geometries in the arithmetic of the code, for every floating-point format.
    Sources: /repo/src/geometry/algorithms/ArborX_Valid.hpp (Valid), ArborX_Equals.hpp (Equals).
    A point is the list of its coordinates, a box the list of its pairs of corner coordinates; NaN and infinities are included. *)
From Coq Require Import SpecFloat.
From Verif Require Import Base.

(** Kokkos::isfinite *)
Definition isfinite (x : spec_float) : bool := match x with S754_nan | S754_infinity _ => false | _ => true end.
(** Valid:42-49 *)
Fixpoint valid_point (p : list spec_float) : bool :=
  match p with [] => true | x :: p => if negb (isfinite x) then false else valid_point p end.
Section Float.
Context (prec emax : Z).
(** Valid:56-66 *)
Fixpoint valid_box (b : list (spec_float * spec_float)) : bool :=
  match b with
  | [] => true
  | c :: b =>
      let r := SFsub prec emax c.2 c.1 in
      if SFleb r (S754_zero false) || negb (isfinite r) then false else valid_box b
  end.
End Float.
(** Valid:73-77; the radius is compared with a double, and its conversion to double is exact *)
Definition valid_sphere (c : list spec_float) (r : spec_float) : bool := valid_point c && isfinite r && SFleb (S754_zero false) r.
(** Equals:42-49; both points have the same dimension *)
Fixpoint equals_point (l r : list spec_float) : bool :=
  match l, r with
  | x :: l, y :: r => if negb (SFeqb x y) then false else equals_point l r
  | _, _ => true
  end.
(** Equals:56-60, with the corners as pairs *)
Definition equals_box (l r : list (spec_float * spec_float)) : bool :=
  equals_point (map fst l) (map fst r) && equals_point (map snd l) (map snd r).
(** Equals:67-71 *)
Definition equals_sphere (l r : list spec_float * spec_float) : bool := equals_point l.1 r.1 && SFeqb l.2 r.2.
