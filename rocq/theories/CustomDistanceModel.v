(** Model of the distances of /repo/examples/custom_distance/example_custom_distance.cpp (cited as CD).  Simplified:
    coordinates are integers and all distances are doubled, so that no fractions occur; no rounding. *)
From Verif Require Import Base.
Local Open Scope Z_scope.

Notation pt := (Z * Z)%type.
(** the intervals of a box along x and y: minCorner()[d] and maxCorner()[d] *)
Notation rect := ((Z * Z) * (Z * Z))%type.

(** CD:55-58, twice the distance of two points *)
Definition custom_distance (p q : pt) : Z := Z.abs (p.1 - q.1) * 4 + Z.abs (p.2 - q.2).
(** Kokkos::clamp *)
Definition clamp (v : Z) (r : Z * Z) : Z := if v <? r.1 then r.1 else if r.2 <? v then r.2 else v.
(** CD:63-70, twice the distance of a point and a box; the component 0 of the corners is used for both coordinates *)
Definition custom_box_distance (p : pt) (b : rect) : Z := custom_distance p (clamp p.1 b.1, clamp p.2 b.1).
(** The same with component 1 for the second coordinate. *)
Definition fixed_box_distance (p : pt) (b : rect) : Z := custom_distance p (clamp p.1 b.1, clamp p.2 b.2).
