(** Axis-aligned boxes in any dimension: /repo/src/geometry/ArborX_Box.hpp (Box), algorithms/ArborX_Expand.hpp (Expand),
    ArborX_Distance.hpp (Distance), ArborX_ClosestPoint.hpp (Closest), ArborX_Intersects.hpp (Intersects),
    ArborX_Reducer.hpp (Reducer).  Points and boxes are lists over the dimensions; a box lists pairs (min, max). *)
From Verif Require Import Base GeomOps.

Section Box.
Context {T : Type} (O : Ops T).
Notation point := (list T).
Notation box := (list (T * T)).

(** Kokkos::min(a, b) is b < a ? b : a, Kokkos::max(a, b) is a < b ? b : a. *)
Definition kmin (a b : T) : T := if o_ltb O b a then b else a.
Definition kmax (a b : T) : T := if o_ltb O a b then b else a.

(** Box:33-43, the default constructor; [fmax] and [fmin] are the finite extremes. *)
Definition empty_box (DIM : nat) (fmin fmax : T) : box := replicate DIM (fmax, fmin).

(** Expand:44-59 by a point, 62-77 by a box, 80-98 by a sphere. *)
Definition expand_point (b : box) (p : point) : box := zip_with (fun '(lo, hi) x => (kmin lo x, kmax hi x)) b p.
Definition expand_box (b c : box) : box := zip_with (fun '(lo, hi) '(lo', hi') => (kmin lo lo', kmax hi hi')) b c.
Definition expand_sphere (b : box) (centroid : point) (r : T) : box :=
  zip_with (fun '(lo, hi) x => (kmin lo (o_sub O x r), kmax hi (o_add O x r))) b centroid.
(** Expand:99-108 by a triangle, 228-236 by a segment: one vertex after the other. *)
Definition expand_points (b : box) (ps : list point) : box := foldl expand_point b ps.

(** A parallel reduction with GeometryReducer (Reducer:49-56): values and initial values joined two by two, along any
    tree, any number of threads starting from the initial value. *)
Inductive reduction :=
| Red_init
| Red_value (i : nat)
| Red_join (dest src : reduction).
Fixpoint reduced (init : box) (vals : list box) (t : reduction) : option box :=
  match t with
  | Red_init => Some init
  | Red_value i => vals !! i
  | Red_join d s => d' ← reduced init vals d; s' ← reduced init vals s; Some (expand_box d' s')
  end.
Fixpoint red_values (t : reduction) : list nat :=
  match t with
  | Red_init => []
  | Red_value i => [i]
  | Red_join d s => red_values d ++ red_values s
  end.

(** Closest:49-66. *)
Definition closest_box (p : point) (b : box) : point :=
  zip_with (fun x '(lo, hi) => if o_ltb O x lo then lo else if o_ltb O hi x then hi else x) p b.
(** Distance:53-70 point-point. *)
Definition sum_squares (ds : list T) : T := foldl (fun s d => o_add O s (o_mul O d d)) (o_zero O) ds.
Definition distance_pp (a b : point) : T := o_sqrt O (sum_squares (zip_with (fun x y => o_sub O y x) a b)).
(** Distance:74-81 point-box. *)
Definition distance_pb (p : point) (b : box) : T := distance_pp p (closest_box p b).
(** Distance:162-195 box-box: only the axes on which the boxes are apart contribute. *)
Definition gap (a b : T * T) : option T :=
  if o_ltb O b.2 a.1 then Some (o_sub O a.1 b.2) else if o_ltb O a.2 b.1 then Some (o_sub O b.1 a.2) else None.
Definition distance_bb (a b : box) : T :=
  o_sqrt O (foldl (fun s g => match g with Some d => o_add O s (o_mul O d d) | None => s end) (o_zero O) (zip_with gap a b)).
(** Distance:198-209 sphere-box; Distance:84-94 point-sphere. *)
Definition distance_sb (centroid : point) (r : T) (b : box) : T := kmax (o_sub O (distance_pb centroid b) r) (o_zero O).
Definition distance_ps (p centroid : point) (r : T) : T := kmax (o_sub O (distance_pp p centroid) r) (o_zero O).

(** Intersects:53-65 box-box, 69-80 point-box, 84-91 sphere-box, 107-115 sphere-point. *)
Definition intersects_bb (a b : box) : bool :=
  forallb (fun '((amin, amax), (bmin, bmax)) => negb (o_ltb O bmax amin || o_ltb O amax bmin)) (zip a b).
Definition intersects_pb (p : point) (b : box) : bool :=
  forallb (fun '(x, (lo, hi)) => negb (o_ltb O hi x || o_ltb O x lo)) (zip p b).
Definition intersects_sb (centroid : point) (r : T) (b : box) : bool := o_leb O (distance_pb centroid b) r.
Definition intersects_sp (centroid : point) (r : T) (p : point) : bool := o_leb O (distance_pp centroid p) r.
End Box.
