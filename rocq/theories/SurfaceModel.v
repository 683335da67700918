(** The triangulated surfaces of the distance benchmark (benchmarks/triangulated_surface_distance/generator.hpp).
    An access out of bounds or a failing assertion is None.  Simplified: indices are natural numbers instead of int; the points are any type with a midpoint. *)
From Verif Require Export Base.
From stdpp Require Export gmap.
Local Open Scope nat_scope.

(** Kokkos::Array<int, 2>: two vertices; Kokkos::Array<int, 3>: three vertices, or three edges (benchmarks/triangulated_surface_distance/generator.hpp:47, 114-115) *)
Notation edge := (nat * nat)%type.
Notation tri := (nat * nat * nat)%type.

(** The triangles of icosahedron (benchmarks/triangulated_surface_distance/generator.hpp:47-67) *)
Definition icosahedron_triangles : list tri :=
  [(2, 1, 0); (1, 2, 3); (5, 4, 3); (4, 8, 3); (7, 6, 0); (6, 9, 0); (11, 10, 4); (10, 11, 6); (9, 5, 2); (5, 9, 11);
   (8, 7, 1); (7, 8, 10); (2, 5, 3); (8, 1, 3); (9, 2, 0); (1, 7, 0); (11, 9, 6); (7, 10, 6); (5, 11, 4); (10, 8, 4)].
(** The triangles of plane (benchmarks/triangulated_surface_distance/generator.hpp:92-110) *)
Definition plane_triangles : list tri :=
  [(0, 1, 4); (1, 5, 4); (1, 2, 5); (2, 6, 5); (2, 3, 6); (3, 7, 6); (4, 5, 8); (5, 9, 8); (5, 6, 9);
   (6, 10, 9); (6, 7, 10); (7, 11, 10); (8, 9, 12); (9, 13, 12); (9, 10, 13); (10, 14, 13); (10, 11, 14); (11, 15, 14)].

(** std::minmax (benchmarks/triangulated_surface_distance/generator.hpp:125-126) *)
Definition minmax (x y : nat) : edge := if y <? x then (y, x) else (x, y).

(** hash, edges, eindex (benchmarks/triangulated_surface_distance/generator.hpp:117-120) *)
Record edge_state := EdgeState { s_hash : gmap edge nat; s_edges : list edge; s_index : nat }.
(** The body of the loop over the sides (benchmarks/triangulated_surface_distance/generator.hpp:125-137) *)
Definition side_index (s : edge_state) (x y : nat) : edge_state * nat :=
  let k := minmax x y in
  match s_hash s !! k with
  | None => (EdgeState (<[k := s_index s]> (s_hash s)) (s_edges s ++ [k]) (S (s_index s)), s_index s)
  | Some i => (s, i)
  end.
(** The body of the loop over the triangles (benchmarks/triangulated_surface_distance/generator.hpp:120-140) *)
Definition triangle_edges (s : edge_state) (t : tri) : edge_state * tri :=
  let '(a, b, c) := t in
  let (s, x) := side_index s a b in let (s, y) := side_index s b c in let (s, z) := side_index s c a in (s, (x, y, z)).
(** convertTriangles2EdgeForm (benchmarks/triangulated_surface_distance/generator.hpp:114-141) *)
Fixpoint edge_loop (s : edge_state) (ts : list tri) : edge_state * list tri :=
  match ts with [] => (s, []) | t :: ts => let (s, t) := triangle_edges s t in let (s, ts) := edge_loop s ts in (s, t :: ts) end.
Definition edge_form (ts : list tri) : list edge * list tri := let (s, ts) := edge_loop (EdgeState ∅ [] 0) ts in (s_edges s, ts).

(** convertTriangles2VertexForm, one thread (benchmarks/triangulated_surface_distance/generator.hpp:153-162) *)
Definition vertex_triangle (es : list edge) (t : tri) : option tri :=
  let '(i, j, _) := t in
  e0 ← es !! i; e1 ← es !! j;
  if (e0.1 =? e1.1) || (e0.1 =? e1.2) || (e0.2 =? e1.1) || (e0.2 =? e1.2) then
    if (e0.1 =? e1.1) || (e0.2 =? e1.1) then Some (e0.1, e0.2, e1.2) else Some (e0.1, e0.2, e1.1)
  else None.
(** convertTriangles2VertexForm (benchmarks/triangulated_surface_distance/generator.hpp:143-163).
    Simplified: thread i reads and writes only triangles(i), so the order of the threads is of no consequence. *)
Definition vertex_form (es : list edge) (ts : list tri) : option (list tri) := mapM (vertex_triangle es) ts.

(** One pass of the loop over the corners (benchmarks/triangulated_surface_distance/generator.hpp:214-234): the new edge and the new triangle.
    [he] holds the halves of the edges: the kernel only reads those, and only writes behind them.
    Simplified: the comparisons that are not reached read, too. *)
Definition corner (he : list edge) (enew e e' : nat) : option (edge * tri) :=
  let e0 := 2 * e in let e1 := 2 * e' in
  a ← he !! e0; a' ← he !! (e0 + 1); b ← he !! e1; b' ← he !! (e1 + 1);
  let '(e0, e1) :=
    if a.1 =? b'.1 then (e0, e1 + 1) else
    if a'.1 =? b.1 then (e0 + 1, e1) else
    if a'.1 =? b'.1 then (e0 + 1, e1 + 1) else (e0, e1) in
  x ← he !! e0; y ← he !! e1;
  if x.1 =? y.1 then Some ((x.2, y.2), (e0, e1, enew)) else None.
(** split_triangles, thread i, with new_edges_offset = 2 * num_edges + 3 * i (benchmarks/triangulated_surface_distance/generator.hpp:208-238) *)
Definition split_triangle (he : list edge) (off : nat) (t : tri) : option (list edge * list tri) :=
  let '(e0, e1, e2) := t in
  p ← corner he off e0 e1; q ← corner he (off + 1) e1 e2; r ← corner he (off + 2) e2 e0;
  Some ([p.1; q.1; r.1], [p.2; q.2; r.2; (off, off + 1, off + 2)]).

Section Mesh.
Context {P : Type}.
Variable mid : P -> P -> P.

(** vertices, edges, triangles *)
Record mesh := Mesh { m_vertices : list P; m_edges : list edge; m_triangles : list tri }.

(** split_edges (benchmarks/triangulated_surface_distance/generator.hpp:187-201), the new vertices and the halves of the edges.
    Simplified: thread i writes one vertex and two edges no other thread reads or writes, so the order of the threads is of no consequence. *)
Definition new_vertices (vs : list P) (es : list edge) : option (list P) :=
  mapM (fun e : edge => x ← vs !! e.1; y ← vs !! e.2; Some (mid x y)) es.
Definition halves (nv : nat) (es : list edge) : list edge := concat (imap (fun i (e : edge) => [(e.1, nv + i); (e.2, nv + i)]) es).
(** subdivide (benchmarks/triangulated_surface_distance/generator.hpp:173-242).
    Simplified: the threads of split_triangles write different edges and triangles, and read none of them, so the order of the threads is of no consequence. *)
Definition subdivide (m : mesh) : option mesh :=
  ms ← new_vertices (m_vertices m) (m_edges m);
  let he := halves (length (m_vertices m)) (m_edges m) in
  rs ← mapM (fun it : nat * tri => split_triangle he (2 * length (m_edges m) + 3 * it.1) it.2) (imap pair (m_triangles m));
  Some (Mesh (m_vertices m ++ ms) (he ++ concat (map fst rs)) (concat (map snd rs))).
Fixpoint refine (r : nat) (m : mesh) : option mesh := match r with 0 => Some m | S r => m ← refine r m; subdivide m end.
(** buildTriangles without the projection (benchmarks/triangulated_surface_distance/generator.hpp:303-318) *)
Definition build (vs : list P) (ts : list tri) (r : nat) : option (list P * list tri) :=
  let (es, ts) := edge_form ts in
  m ← refine r (Mesh vs es ts); ts ← vertex_form (m_edges m) (m_triangles m); Some (m_vertices m, ts).
End Mesh.
Arguments mesh : clear implicits.
