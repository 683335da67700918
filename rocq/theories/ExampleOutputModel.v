(** The data and the expected outputs of the clustering examples: /repo/examples/dbscan/example_dbscan.cpp (cited as ED)
    and /repo/examples/emst/example_emst.cpp (cited as EE).  All coordinates are small integers, whose squared distances are
    exact in float; distances are compared through their squares. *)
From Verif Require Import Base EdgeModel.
From Coq Require Import ZArith.
Local Open Scope Z_scope.

(** The squared distance of two points. *)
Definition sq_dist (p q : Z * Z) : Z := (p.1 - q.1) * (p.1 - q.1) + (p.2 - q.2) * (p.2 - q.2).

(** ED:43-52 *)
Definition db_cloud : list (Z * Z) := [(4,3); (0,0); (0,1); (1,1); (1,0); (3,3); (3,4); (4,4); (4,0); (2,2)].
(** Within the distance eps, with [two_eps] twice the eps of ED:62, 69, 76, 87 (1 and 1.5); the squares are compared. *)
Definition db_near (two_eps : Z) (i j : nat) : bool :=
  4 * sq_dist (nth i db_cloud (0,0)) (nth j db_cloud (0,0)) <=? two_eps * two_eps.
(** ED:61, 68, 75, 84-86: the expected outputs; the last one has two possibilities. *)
Definition db_expected1 : list Z := [0; 1; 1; 1; 1; 0; 0; 0; -1; -1].
Definition db_expected2 : list Z := [-1; -1; -1; -1; -1; -1; -1; -1; -1; -1].
Definition db_expected3 : list Z := [0; 0; 0; 0; 0; 0; 0; 0; -1; 0].
Definition db_expected4a : list Z := [0; 1; 1; 1; 1; 0; 0; 0; -1; 0].
Definition db_expected4b : list Z := [0; 1; 1; 1; 1; 0; 0; 0; -1; 1].

(** EE:51-56 *)
Definition emst_cloud : list (Z * Z) := [(1,0); (0,1); (1,3); (4,2); (2,3); (2,4)].
(** EE:25-31: what is printed of an edge.  The weight is the squared one, and is not formatted. *)
Definition print_edge (e : wedge Z) : N * N * Z := (N.min (w_source e) (w_target e), N.max (w_source e) (w_target e), w_weight e).
(** EE:24-31 with the edges after the sort of EE:24 *)
Definition print_edges (es : list (wedge Z)) : list (N * N * Z) := print_edge <$> es.
(** EE:63-68, with the squares 1, 2 and 5 for 1.00, 1.41 and 2.24 *)
Definition emst_expected : list (N * N * Z) := [(2%N,4%N,1); (4%N,5%N,1); (0%N,1%N,2); (3%N,4%N,5); (1%N,2%N,5)].
