(** Specification of single-linkage dendrograms with heights, independent of any algorithm. *)
From Verif Require Export UnionFindSpec.
Local Open Scope nat_scope.

(** [e] is an ancestor of node [x]; [par] lists the parents. *)
Inductive Above (par : list Z) : nat -> nat -> Prop :=
| above_parent x e : par !! x = Some (Z.of_nat e) -> Above par x e
| above_up x y e : par !! x = Some (Z.of_nat y) -> Above par y e -> Above par x e.

(** The nodes are the merges 0..n-2 and the points n-1..2n-2. *)
Record Dendrogram {W : Type} (ltb : W -> W -> bool) (n : nat) (dist : nat -> nat -> W) (par : list Z) (heights : list W) : Prop := {
  dg_length : length par = 2 * n - 1;
  dg_heights : length heights = n - 1;
  (* the last merge is the root *)
  dg_root : par !! (n - 2) = Some (-1)%Z;
  (* every other merge has a later parent that is not lower *)
  dg_merge : forall i, i < n - 2 -> exists j hi hj, par !! i = Some (Z.of_nat j) /\ i < j < n - 1 /\
    heights !! i = Some hi /\ heights !! j = Some hj /\ ltb hj hi = false;
  dg_point : forall v, v < n -> exists j, par !! (n - 1 + v) = Some (Z.of_nat j) /\ j < n - 1;
  (* every merge has exactly two children *)
  dg_binary : forall j, j < n - 1 -> length (filter (eq (Z.of_nat j)) par) = 2;
  (* cutting the tree at height [h] gives the connected components of the graph of all pairs at distance at most [h] *)
  dg_clusters : forall u v h, u < n -> v < n -> u <> v ->
    (exists e he, Above par (n - 1 + u) e /\ Above par (n - 1 + v) e /\ heights !! e = Some he /\ ltb h he = false) <->
    Conn (fun a b => a < n /\ b < n /\ a <> b /\ ltb h (dist a b) = false) u v }.
