(** Model of the host dendrogram construction dendrogramUnionFindHost
    (/repo/src/cluster/detail/ArborX_DendrogramHelpers.hpp:30-84, cited as DH) with the sequential variant of the
    union-find (/repo/src/cluster/detail/ArborX_UnionFind.hpp:112-181 with DoSerial = true, cited as UF).

    The edges are already sorted by weight (ArborX_Dendrogram.hpp:70, a key sort; sorting itself is not modelled).
    Views are lists; [None] as a result means an out-of-bounds access or (excluded by the theorems) exhausted fuel.
    An uninitialised entry of [parents] is [None], UNDEFINED in set_edges (DH:53-54) is [None]. *)
From Verif Require Export Base.
Local Open Scope nat_scope.

(** UF:121-127 the loop of representative *)
Fixpoint rep_loop (fuel : nat) (l : list nat) (prev curr : nat) : option (list nat * nat) :=
  match fuel with
  | O => None
  | S fuel =>
      next ← l !! curr;
      if next <? curr then l' ← wr l prev next; rep_loop fuel l' curr next else Some (l, curr)
  end.
(** UF:113-129 *)
Definition representative (l : list nat) (i : nat) : option (list nat * nat) :=
  curr ← l !! i;
  if curr =? i then Some (l, curr) else rep_loop (S i) l i curr.
(** UF:139-168 with DoSerial *)
Definition merge_serial (l : list nat) (i j : nat) : option (list nat) :=
  '(l1, v) ← representative l i;
  '(l2, o) ← representative l1 j;
  if v <? o then wr l2 o v else wr l2 v o.

Record dstate := DState { d_labels : list nat; d_set : list (option nat); d_par : list (option Z) }.
(** DH:69-73 the body of the inner loop for representative [k] *)
Definition assign_parent (m : nat) (set : list (option nat)) (par : list (option Z)) (e k : nat) : option (list (option Z)) :=
  c ← set !! k;
  match c with
  | Some c => wr par c (Some (Z.of_nat e))
  | None => wr par (m + k) (Some (Z.of_nat e))
  end.
(** DH:62-79 one iteration *)
Definition dendro_step (m e : nat) (edge : nat * nat) (s : dstate) : option dstate :=
  '(l1, i) ← representative (d_labels s) (fst edge);
  '(l2, j) ← representative l1 (snd edge);
  p1 ← assign_parent m (d_set s) (d_par s) e i;
  p2 ← assign_parent m (d_set s) p1 e j;
  l3 ← merge_serial l2 i j;
  '(l4, r) ← representative l3 i;
  set' ← wr (d_set s) r (Some e);
  Some (DState l4 set' p2).
Fixpoint dendro_loop (m e : nat) (edges : list (nat * nat)) (s : dstate) : option dstate :=
  match edges with
  | [] => Some s
  | edge :: edges => s' ← dendro_step m e edge s; dendro_loop m (S e) edges s'
  end.
(** DH:30-84: num_edges = m, num_vertices = m + 1; DH:80 writes parents(m - 1), which is out of bounds for m = 0 *)
Definition dendrogram (edges : list (nat * nat)) : option (list (option Z)) :=
  let m := length edges in
  s ← dendro_loop m 0 edges (DState (seq 0 (S m)) (replicate (S m) None) (replicate (m + S m) None));
  match m with O => None | S m' => wr (d_par s) m' (Some (-1)%Z) end.
