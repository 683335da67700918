(** Discrete oriented polytopes: /repo/src/geometry/ArborX_KDOP.hpp (KDOP), algorithms/ArborX_Expand.hpp (Expand),
    ArborX_Intersects.hpp (Intersects).  A k-DOP lists a pair (min, max) per direction, so as data it is a box with one
    axis per direction. *)
From Verif Require Import Base GeomOps BoxModel.

(** KDOP:32-137, the directions for each supported (DIM, k). *)
Definition kdop_directions (DIM k : nat) : option (list (list Z)) :=
  match DIM, k with
  | 2, 4 => Some [[1; 0]; [0; 1]]%Z
  | 2, 8 => Some [[1; 0]; [0; 1]; [1; 1]; [1; -1]]%Z
  | 3, 6 => Some [[1; 0; 0]; [0; 1; 0]; [0; 0; 1]]%Z
  | 3, 14 => Some [[1; 0; 0]; [0; 1; 0]; [0; 0; 1]; [1; 1; 1]; [1; -1; 1]; [1; 1; -1]; [1; -1; -1]]%Z
  | 3, 18 => Some [[1; 0; 0]; [0; 1; 0]; [0; 0; 1]; [1; 1; 0]; [1; 0; 1]; [0; 1; 1]; [1; -1; 0]; [1; 0; -1]; [0; 1; -1]]%Z
  | 3, 26 => Some [[1; 0; 0]; [0; 1; 0]; [0; 0; 1]; [1; 1; 0]; [1; 0; 1]; [0; 1; 1]; [1; -1; 0]; [1; 0; -1]; [0; 1; -1];
                   [1; 1; 1]; [1; -1; 1]; [1; 1; -1]; [1; -1; -1]]%Z
  | _, _ => None
  end.

Section Kdop.
Context {T : Type} (O : Ops T).
Notation point := (list T).
Notation box := (list (T * T)).

(** The entries of a direction as coordinates. *)
Definition entry (z : Z) : T := if (0 <? z)%Z then o_one O else if (z <? 0)%Z then o_opp O (o_one O) else o_zero O.
(** Expand:138-140, Intersects:340-342: proj = p[0] * dir[0]; proj += p[d] * dir[d]. *)
Definition proj (p : point) (d : list Z) : T :=
  match zip_with (fun x z => o_mul O x (entry z)) p d with [] => o_zero O | x :: l => foldl (o_add O) x l end.
(** Expand:127-147 by a point, 110-125 by a k-DOP. *)
Definition kdop_expand_point (dirs : list (list Z)) (k : box) (p : point) : box := expand_point O k (map (proj p) dirs).
Definition kdop_expand_kdop (k l : box) : box := expand_box O k l.
(** Expand:164-206: the corners, in the order of the code. *)
Definition corners (b : box) : list point :=
  match b with
  | [(xmin, xmax); (ymin, ymax); (zmin, zmax)] =>
      [[xmin; ymin; zmin]; [xmin; ymax; zmin]; [xmin; ymin; zmax]; [xmin; ymax; zmax];
       [xmax; ymin; zmin]; [xmax; ymax; zmin]; [xmax; ymin; zmax]; [xmax; ymax; zmax]]
  | [(xmin, xmax); (ymin, ymax)] => [[xmin; ymin]; [xmin; ymax]; [xmax; ymin]; [xmax; ymax]]
  | _ => []
  end.
(** Expand:149-207: an invalid box is ignored. *)
Definition kdop_expand_box (dirs : list (list Z)) (k : box) (b : box) : box :=
  if existsb (fun c => o_ltb O c.2 c.1) b then k else foldl (kdop_expand_point dirs) k (corners b).
(** Expand:209-226: the first DIM directions are the axes. *)
Definition box_expand_kdop (b k : box) : box := expand_box O b (take (length b) k).
(** Intersects:329-349 point, 351-368 k-DOP, 318-327 box; [fmin], [fmax] as in the default constructor. *)
Definition kdop_intersects_point (dirs : list (list Z)) (p : point) (k : box) : bool := intersects_pb O (map (proj p) dirs) k.
Definition kdop_intersects_kdop (k l : box) : bool := intersects_bb O k l.
Definition kdop_intersects_box (dirs : list (list Z)) (fmin fmax : T) (k b : box) : bool :=
  kdop_intersects_kdop k (kdop_expand_box dirs (empty_box (length dirs) fmin fmax) b).
End Kdop.
