(** Model of reorderDenseAndSparseCells, /repo/src/cluster/detail/ArborX_FDBSCANDenseBox.hpp:224-282 (cited as RE).

    [offs] are the offsets of the nonempty cells, [idx] and [pm] the sorted cell indices and the permutation.  The
    inputs are not written by the kernel, so reading them is not a step of its own. *)
From Verif Require Export Interleave.

(** RE:265-267 number of points of cell c, and whether it is dense *)
Definition csize (offs : list nat) (c : nat) : nat := default 0 (offs !! S c) - default 0 (offs !! c).
Definition is_dense (offs : list nat) (minpts c : nat) : bool := minpts <=? csize offs c.
(** RE:239-248 the parallel_reduce *)
Definition num_dense_points (offs : list nat) (minpts : nat) : nat :=
  sum_list (csize offs <$> List.filter (is_dense offs minpts) (seq 0 (length offs - 1))).

(** the entries of an array that belong to cell c *)
Definition segment {A} (offs : list nat) (arr : list A) (c : nat) : list A := take (csize offs c) (drop (default 0 (offs !! c)) arr).

Inductive rpc :=
| R0                     (* RE:268 about to atomic_fetch_add *)
| R1 (j off : nat)       (* RE:273 about to store reordered_cell_indices(offset) *)
| R2 (j off : nat)       (* RE:274 about to store reordered_permute(offset) *)
| RDone.
(** [None] in the output arrays: not yet initialised *)
Record rstate := RState { r_dense : nat; r_sparse : nat; r_idx : list (option nat); r_perm : list (option nat); r_thr : list rpc }.

Section Step.
Variables (offs idx pm : list nat) (minpts : nat).
Definition rloop (c j off : nat) : rpc := if j <? default 0 (offs !! S c) then R1 j off else RDone.   (* RE:271 *)
Definition rstep (s : rstate) (c : nat) : option rstate :=
  pc ← r_thr s !! c;
  match pc with
  | R0 =>
      a ← offs !! c; b ← offs !! S c;
      let off := if is_dense offs minpts c then r_dense s else r_sparse s in
      let goto d p := RState d p (r_idx s) (r_perm s) (<[c := rloop c a off]> (r_thr s)) in
      Some (if is_dense offs minpts c then goto (r_dense s + (b - a)) (r_sparse s) else goto (r_dense s) (r_sparse s + (b - a)))
  | R1 j off =>
      x ← idx !! j;
      o ← wr (r_idx s) off (Some x);
      Some (RState (r_dense s) (r_sparse s) o (r_perm s) (<[c := R2 j off]> (r_thr s)))
  | R2 j off =>
      x ← pm !! j;
      o ← wr (r_perm s) off (Some x);
      Some (RState (r_dense s) (r_sparse s) (r_idx s) o (<[c := rloop c (S j) (S off)]> (r_thr s)))
  | RDone => None
  end.
(** RE:253-264: dense_offset = 0, sparse_offset = num_points_in_dense_cells, uninitialised outputs of the same size;
    one thread per nonempty cell *)
Definition rinit : rstate :=
  RState 0 (num_dense_points offs minpts) (replicate (length idx) None) (replicate (length pm) None) (replicate (length offs - 1) R0).
Definition rlive (s : rstate) (c : nat) : Prop := exists pc, r_thr s !! c = Some pc /\ pc <> RDone.
Fixpoint rrun (s : rstate) (ts : list nat) : option rstate :=
  match ts with
  | [] => Some s
  | t :: ts => match r_thr s !! t with Some RDone => rrun s ts | _ => s' ← rstep s t; rrun s' ts end
  end.
End Step.
