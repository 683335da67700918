(** Model of /repo/src/cluster/ArborX_DBSCAN.hpp (cited as DB) with the FDBSCAN implementation,
    /repo/src/cluster/detail/ArborX_FDBSCAN.hpp (cited as FD).

    Points are identified with their indices 0..n-1.  [near a b] is the outcome of the floating-point test that point b
    is within eps of point a (PredicateIntersects of a sphere, DB:253-327); it is the same test in the counting
    query and in the half traversal.  Kernels run one after another (Kokkos fences between dependent kernels on one
    execution space instance). *)
From Verif Require Export Base Interleave TraversalModel UnionFindModel.
From Coq Require Export ZArith.
Local Open Scope nat_scope.

(** FD:30-46 CountUpToN as callback of one query: increment the query's own counter, stop at core_min_size.
    The counter of query i is touched by the thread of query i only (DB:299-305, predicates carry their index). *)
Definition count_callback (minpts : nat) (c : nat) (_ : nat) : nat * bool := (S c, minpts <=? S c).
Definition num_neigh {V} (T : tree V) (near : nat -> nat -> bool) (pv : nat -> V -> bool) (minpts i : nat) : res nat :=
  spatial_query T (near i) (pv i) (count_callback minpts) 0.

(** DB:38-53: CCSCorePoints is true everywhere, DBSCANCorePoints compares num_neigh(i) with core_min_size. *)
Definition is_core (counts : list nat) (minpts i : nat) : bool := minpts <=? default 0 (counts !! i).

(** FD:58-110 FDBSCANCallback on the pair (i, j).  HalfTraversal ignores the returned control value. *)
Definition fdbscan_callback (star : bool) (core : nat -> bool) (p : nat * nat) : list uop :=
  let '(i, j) := p in
  if star && (negb (core i) || negb (core j)) then []
  else if negb (core i) then (if core j then [Into i j] else [])
  else if core j then [Merge i j] else [Into j i].
Definition fdbscan_progs (star : bool) (core : nat -> bool) (outs : list (list (nat * nat))) : list (list uop) :=
  map (flat_map (fdbscan_callback star core)) outs.

(** DB:490-506 the kernel finalize_labels: thread i follows the labels down from labels(i), stores the end of the chain
    and counts itself in cluster_sizes.  Every access to labels or cluster_sizes is one step. *)
Inductive fpc :=
| F0                    (* DB:496 read labels(i) *)
| F1 (v old : nat)      (* DB:498 read labels(vstat) *)
| F2 (v old : nat)      (* DB:502-503 *)
| F3                    (* DB:505 read labels(i) *)
| F4 (l : nat)          (* DB:505 atomic_inc *)
| FDone.
Record fstate := FState { f_labels : list nat; f_sizes : list nat; f_thr : list fpc }.
Definition fstep (s : fstate) (i : nat) : option fstate :=
  pc ← f_thr s !! i;
  let goto pc' := FState (f_labels s) (f_sizes s) (<[i := pc']> (f_thr s)) in
  match pc with
  | F0 => v ← f_labels s !! i; Some (goto (F1 v v))
  | F1 v old => next ← f_labels s !! v; Some (goto (if next <? v then F1 next old else F2 v old))
  | F2 v old =>
      l' ← (if v =? old then Some (f_labels s) else wr (f_labels s) i v);
      Some (FState l' (f_sizes s) (<[i := F3]> (f_thr s)))
  | F3 => l ← f_labels s !! i; Some (goto (F4 l))
  | F4 l =>
      c ← f_sizes s !! l;
      Some (FState (f_labels s) (<[l := S c]> (f_sizes s)) (<[i := FDone]> (f_thr s)))
  | FDone => None
  end.
Definition finit (labels : list nat) : fstate :=
  FState labels (replicate (length labels) 0) (replicate (length labels) F0).
Definition fall_done (s : fstate) : Prop := forall t pc, f_thr s !! t = Some pc -> pc = FDone.

(** DB:513-518 the kernel mark_noise: thread i reads and writes labels(i) only, cluster_sizes is not written, so the
    order of the threads is irrelevant.  [None]: out-of-bounds read. *)
Definition mark_noise (special : bool) (core : nat -> bool) (sizes labels : list nat) : option (list Z) :=
  mapM (fun p => c ← sizes !! snd p;
     Some (if (c =? 1) && (special || negb (core (fst p))) then (-1)%Z else Z.of_nat (snd p)))
    (zip (seq 0 (length labels)) labels).

Fixpoint frun (s : fstate) (ts : list nat) : option fstate :=
  match ts with
  | [] => Some s
  | t :: ts => match f_thr s !! t with
               | Some FDone => frun s ts
               | _ => s' ← fstep s t; frun s' ts
               end
  end.

(** ** Composition *)
Definition ulive (s : ustate) (t : nat) : Prop := exists th, u_thr s !! t = Some th /\ snd th <> None.
Definition flive (s : fstate) (t : nat) : Prop := exists pc, f_thr s !! t = Some pc /\ pc <> FDone.

(** DB:281-327 the clustering half traversal; for core_min_size = 2 every point counts as core point and the DBSCAN and
    DBSCAN* variants coincide (DB:285-296). *)
Definition merge_progs (star : bool) (minpts : nat) (counts : list nat) (outs : list (list (nat * nat))) : list (list uop) :=
  if minpts =? 2 then fdbscan_progs false (fun _ => true) outs
  else fdbscan_progs star (is_core counts minpts) outs.

(** DB:486-518 finalization of the labels, then [post] of the result. *)
Definition finish (minpts : nat) (counts labels : list nat) (post : list Z -> Prop) : Prop :=
  Kernel fstep flive (finit labels) (fun s =>
    exists out, mark_noise (minpts =? 2) (is_core counts minpts) (f_sizes s) (f_labels s) = Some out /\ post out).

(** DB:271-327 and 486-518: the FDBSCAN implementation after the tree has been built and the counting query has run. *)
Definition fdbscan (star : bool) (n minpts : nat) (counts : list nat) (outs : list (list (nat * nat))) (post : list Z -> Prop) : Prop :=
  Kernel ustep ulive (uinit (seq 0 n) (merge_progs star minpts counts outs)) (fun s => finish minpts counts (u_labels s) post).
