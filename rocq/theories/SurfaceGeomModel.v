(** The coordinates of the triangulated surfaces (benchmarks/triangulated_surface_distance/generator.hpp). *)
From Verif Require Export Base GeomOps ShapeModel SurfaceModel.

Section Geom.
Context {T : Type} (O : Ops T).
Notation "x + y" := (o_add O x y). Notation "x - y" := (o_sub O x y). Notation "x * y" := (o_mul O x y).
Notation "x / y" := (o_div O x y). Notation "- x" := (o_opp O x). Notation "0" := (o_zero O). Notation "1" := (o_one O).
Notation p3 := (T * T * T)%type.
Let two : T := 1 + 1.
Let three : T := two + 1.

(** The vertices of icosahedron with a = std::numbers::phi_v<float> and b = 1 (benchmarks/triangulated_surface_distance/generator.hpp:30-45) *)
Definition icosahedron_vertices (a : T) : list p3 :=
  let b := 1 in
  [(0, b, - a); (b, a, 0); (- b, a, 0); (0, b, a); (0, - b, a); (- a, 0, b); (0, - b, - a); (a, 0, - b); (a, 0, b); (- a, 0, - b); (b, - a, 0); (- b, - a, 0)].
(** The vertices of plane (benchmarks/triangulated_surface_distance/generator.hpp:74-90) *)
Definition plane_vertices : list p3 :=
  [(0, 0, 0); (1, 0, 0); (two, 0, 0); (three, 0, 0); (0, 1, 0); (1, 1, 0); (two, 1, 0); (three, 1, 0);
   (0, two, 0); (1, two, 0); (two, two, 0); (three, two, 0); (0, three, 0); (1, three, 0); (two, three, 0); (three, three, 0)].
(** The middle of an edge (benchmarks/triangulated_surface_distance/generator.hpp:196-198) *)
Definition midpoint (p q : p3) : p3 := let '(a, b, c) := p in let '(d, e, f) := q in ((a + d) / two, (b + e) / two, (c + f) / two).
(** projectVerticesToSphere, one thread (benchmarks/triangulated_surface_distance/generator.hpp:252-258) *)
Definition project_vertex (radius : T) (p : p3) : p3 :=
  let '(x, y, z) := p in
  let norm := o_sqrt O (x * x + y * y + z * z) in (x * (radius / norm), y * (radius / norm), z * (radius / norm)).
(** The axis of rotateVertices (benchmarks/triangulated_surface_distance/generator.hpp:269) *)
Definition rotation_axis : p3 := (1 / o_sqrt O two, (- (1)) / o_sqrt O two, 0).
(** rotateVertices, one thread (benchmarks/triangulated_surface_distance/generator.hpp:275-283); [c] and [s] are the cosine and the sine of the angle *)
Definition rotate_vertex (c s : T) (p : p3) : p3 :=
  let k := rotation_axis in
  let v := sub3 O p (0, 0, 0) in
  let kxv := cross3 O k v in
  let kv := dot3 O k v in
  let '(k0, k1, k2) := k in let '(v0, v1, v2) := v in let '(x0, x1, x2) := kxv in
  (v0 * c + x0 * s + k0 * kv * (1 - c), v1 * c + x1 * s + k1 * kv * (1 - c), v2 * c + x2 * s + k2 * kv * (1 - c)).
(** buildTriangles (benchmarks/triangulated_surface_distance/generator.hpp:297-321).
    Simplified: the threads of the projection each read and write their own vertex, so the order of the threads is of no consequence. *)
Definition build_ball (a radius : T) (r : nat) : option (list p3 * list tri) :=
  m ← build midpoint (icosahedron_vertices a) icosahedron_triangles r; Some (map (project_vertex radius) m.1, m.2).
Definition build_plane (r : nat) : option (list p3 * list tri) := build midpoint plane_vertices plane_triangles r.
End Geom.
