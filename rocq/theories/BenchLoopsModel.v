(** The edges of the union-find benchmark with loops.  Source: /repo/benchmarks/union_find/union_find.cpp (UB). *)
From Verif Require Export Base KernelAlgModel UnionFindModel BenchDataModel.

(** UB:54-60: the do loop of an iteration.  [rand k]: the k-th number the iteration draws.  None: the fuel is used up, the loop goes on. *)
Fixpoint draw_edge (fuel : nat) (rand : nat -> nat) (k num_edges : nat) : option (nat * nat) :=
  match fuel with
  | O => None
  | S fuel =>
      let source := rand k mod num_edges in let target := rand (S k) mod num_edges in
      if source =? target then draw_edge fuel rand (S (S k)) num_edges else Some (source, target)
  end.
(** UB:40-63 buildEdges with loops.  [rand i]: the numbers iteration i draws; [order]: the order of the iterations. *)
Definition build_edges_loops (fuel : nat) (rand : nat -> nat -> nat) (num_edges : nat) (order : list nat) (out : list (nat * nat)) : option (list (nat * nat)) :=
  par_writes (fun i => Some i) (fun i => draw_edge fuel (rand i) 0 num_edges) order out.
