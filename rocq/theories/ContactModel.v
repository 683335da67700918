(** The spheres of the distributed contact benchmark.  Source: /repo/benchmarks/distributed_contact/distributed_contact.cpp (DC).  Simplified: a sphere
    stands for the triangles of its surface, all shifted by the same offset (DC:109-120), and is given by its place in the lattice, the offset divided by
    the spacing d (DC:74, 82-84, 105-107); the coordinates are exact. *)
From Verif Require Export Base.

(** DC:75 *)
Definition rows_per_dim : nat := 5.
(** DC:78-80: the place of a rank.  [N]: what std::cbrt returned, converted to an integer (DC:77).  None: division by zero. *)
Definition rank_place (N comm_rank : nat) : option (nat * nat * nat) :=
  if N =? 0 then None
  else
    let Nx := comm_rank / (N * N) in
    let Ny := (comm_rank - Nx * (N * N)) / N in
    let Nz := comm_rank - Nx * (N * N) - Ny * N in
    Some (Nx, Ny, Nz).
(** DC:101-103: not a point of the interior *)
Definition on_surface (i j k : nat) : bool :=
  negb ((0 <? i) && (i <? rows_per_dim - 1) && (0 <? j) && (j <? rows_per_dim - 1) && (0 <? k) && (k <? rows_per_dim - 1)).
(** DC:82-84, 105-107: the offset *)
Definition sphere_place (place : nat * nat * nat) (i j k : nat) : nat * nat * nat :=
  (place.1.1 * rows_per_dim + i, place.1.2 * rows_per_dim + j, place.2 * rows_per_dim + k).
(** DC:109: true for a predicate, false for a primitive *)
Definition is_predicate (i j k : nat) : bool := (i + j + k) mod 2 =? 0.
(** DC:97-123: the primitives and the predicates of a rank, in the order of the loops *)
Definition build_mesh (N comm_rank : nat) : option (list (nat * nat * nat) * list (nat * nat * nat)) :=
  place ← rank_place N comm_rank;
  let cells := List.filter (fun '(i, j, k) => on_surface i j k)
    (i ← seq 0 rows_per_dim; j ← seq 0 rows_per_dim; k ← seq 0 rows_per_dim; [(i, j, k)]) in
  let at_ := map (fun '(i, j, k) => sphere_place place i j k) in
  Some (at_ (List.filter (fun '(i, j, k) => negb (is_predicate i j k)) cells), at_ (List.filter (fun '(i, j, k) => is_predicate i j k) cells)).
