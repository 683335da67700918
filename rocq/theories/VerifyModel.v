(** The verifier of DBSCAN clusterings (benchmarks/cluster/ArborX_DBSCANVerification.hpp), which the tests and the benchmarks rely on.
    The neighbours of all points are one array, the rows of which start at the offsets.  An access out of bounds or a failing assertion is None. *)
From Verif Require Export Base.
Local Open Scope nat_scope.

(** PairIndexLabel and TupleIndexRankLabel (benchmarks/cluster/ArborX_DBSCANVerification.hpp:38-52); the serial one has no rank, here 0. *)
Record entry := Entry { e_index : nat; e_rank : nat; e_label : Z; e_core : bool }.
Definition with_label (e : entry) (l : Z) : entry := Entry (e_index e) (e_rank e) l (e_core e).
Definition with_core (e : entry) (c : bool) : entry := Entry (e_index e) (e_rank e) (e_label e) c.

Section Checks.
Variable offset : list nat.

(** neighbors(offset(i)) (benchmarks/cluster/ArborX_DBSCANVerification.hpp:94) *)
Definition self (nb : list entry) (i : nat) : option entry := o ← offset !! i; nb !! o.
(** The entries a loop from offset(i) + skip to offset(i + 1) reads (benchmarks/cluster/ArborX_DBSCANVerification.hpp:122-124).
    Simplified: loops that stop early read only the first of them. *)
Definition row (skip : nat) (nb : list entry) (i : nat) : option (list entry) :=
  b ← offset !! i; e ← offset !! S i; mapM (fun j => nb !! j) (seq (b + skip) (e - (b + skip))).
(** offset.size() - 1 (benchmarks/cluster/ArborX_DBSCANVerification.hpp:87) *)
Definition rows_number : nat := length offset - 1.

(** parallel_reduce of a sum over the rows, then "num_incorrect == 0" (benchmarks/cluster/ArborX_DBSCANVerification.hpp:89-103).
    Simplified: the sum does not depend on the order, and cannot exceed the number of entries, an int. *)
Definition none_incorrect (f : nat -> option nat) : option bool := (fun l => sum_list l =? 0) <$> mapM f (seq 0 rows_number).

(** verifyCorePointsNonnegativeIndex (benchmarks/cluster/ArborX_DBSCANVerification.hpp:81-104) *)
Definition core_nonnegative (nb : list entry) : option bool :=
  none_incorrect (fun i => s ← self nb i; Some (if e_core s && (e_label s <? 0)%Z then 1 else 0)).

(** verifyConnectedCorePointsShareIndex (benchmarks/cluster/ArborX_DBSCANVerification.hpp:106-137) *)
Definition connected_share (nb : list entry) : option bool :=
  none_incorrect (fun i => s ← self nb i;
    if e_core s then r ← row 1 nb i; Some (length (List.filter (fun e => e_core e && negb (e_label s =? e_label e)%Z) r)) else Some 0).

(** verifyNoisePoints (benchmarks/cluster/ArborX_DBSCANVerification.hpp:139-171) *)
Definition noise_points (nb : list entry) : option bool :=
  none_incorrect (fun i => s ← self nb i;
    if e_core s then Some 0 else r ← row 1 nb i; Some (if existsb e_core r then 0 else if negb (e_label s =? -1)%Z then 1 else 0)).

(** The loop of verifyConnectedBorderPoints: is_border and have_shared_core (benchmarks/cluster/ArborX_DBSCANVerification.hpp:189-203) *)
Fixpoint border_scan (label : Z) (r : list entry) (is_border : bool) : bool * bool :=
  match r with
  | [] => (is_border, false)
  | e :: r => if e_core e then if (label =? e_label e)%Z then (true, true) else border_scan label r true else border_scan label r is_border
  end.
(** verifyConnectedBorderPoints (benchmarks/cluster/ArborX_DBSCANVerification.hpp:173-215) *)
Definition border_points (nb : list entry) : option bool :=
  none_incorrect (fun i => s ← self nb i;
    if e_core s then Some 0 else r ← row 1 nb i; let '(is_border, shared) := border_scan (e_label s) r false in Some (if is_border && negb shared then 1 else 0)).

(** verifyIgnoredBorderPoints (benchmarks/cluster/ArborX_DBSCANVerification.hpp:217-253) *)
Definition ignored_border (nb : list entry) : option bool :=
  none_incorrect (fun i => s ← self nb i;
    if e_core s then Some 0 else r ← row 1 nb i; Some (if existsb e_core r && negb (e_label s =? -1)%Z then 1 else 0)).

(** neighbors(offset(i)).label = l (benchmarks/cluster/ArborX_DBSCANVerification.hpp:281, 321) *)
Definition set_label (nb : list entry) (i : nat) (l : Z) : option (list entry) := o ← offset !! i; s ← nb !! o; wr nb o (with_label s l).
(** Border points are left out (benchmarks/cluster/ArborX_DBSCANVerification.hpp:271-286) *)
Fixpoint drop_border (is : list nat) (nb : list entry) : option (list entry) :=
  match is with
  | [] => Some nb
  | i :: is => s ← self nb i;
      if e_core s then drop_border is nb
      else r ← row 0 nb i; if existsb e_core r then nb' ← set_label nb i (-1); drop_border is nb' else drop_border is nb
  end.
(** The depth-first search (benchmarks/cluster/ArborX_DBSCANVerification.hpp:313-329); the head of the list is the top of the stack.
    None when the fuel runs out; the theorems show that it never does. *)
Fixpoint dfs (fuel : nat) (id : Z) (stack : list nat) (nb : list entry) : option (list entry) :=
  match fuel, stack with
  | O, _ => None
  | S fuel, [] => Some nb
  | S fuel, k :: stack => s ← self nb k;
      if (0 <=? e_label s)%Z then
        nb' ← set_label nb k (-1); r ← row 0 nb' k;
        dfs fuel id (rev (e_index <$> List.filter (fun e => e_core e || (e_label e =? id)%Z) r) ++ stack) nb'
      else dfs fuel id stack nb
  end.
(** The loop over the points (benchmarks/cluster/ArborX_DBSCANVerification.hpp:301-331): the ids inserted into cluster_sets (with repetitions)
    and the number of clusters. *)
Fixpoint components (is : list nat) (nb : list entry) (ids : list Z) (num : nat) : option (list Z * nat) :=
  match is with
  | [] => Some (ids, num)
  | i :: is => s ← self nb i;
      if (0 <=? e_label s)%Z then nb' ← dfs (S (S (length nb))) (e_label s) [i] nb; components is nb' (e_label s :: ids) (S num)
      else components is nb ids num
  end.
(** verifyClustersAreUnique (benchmarks/cluster/ArborX_DBSCANVerification.hpp:255-346); a std::set is a list without repetitions. *)
Definition clusters_unique (nb : list entry) : option bool :=
  nb ← drop_border (seq 0 rows_number) nb;
  ls ← mapM (fun i => e_label <$> self nb i) (seq 0 rows_number);
  let unique := length (remove_dups (List.filter (fun l => negb (l =? -1)%Z) ls)) in
  '(ids, num) ← components (seq 0 rows_number) nb [] 0;
  Some (if negb (length (remove_dups ids) =? unique) then false else if negb (num =? unique) then false else true).

(** std::all_of over the checks, which stops at the first that fails (benchmarks/cluster/ArborX_DBSCANVerification.hpp:426-428) *)
Fixpoint all_of (checks : list (list entry -> option bool)) (nb : list entry) : option bool :=
  match checks with
  | [] => Some true
  | c :: checks => b ← c nb; if b : bool then all_of checks nb else Some false
  end.

(** "Place self first" and the assertion (benchmarks/cluster/ArborX_DBSCANVerification.hpp:408-412, 518-523); self_index starts as -1, here None.
    [found]: the position of the last matching entry. *)
Definition place_self (i rank : nat) (nb : list entry) : option (list entry) :=
  b ← offset !! i; r ← row 0 nb i;
  let found := foldl (fun acc '(k, e) => if (e_index e =? i) && (e_rank e =? rank) then Some (b + k) else acc) None (imap pair r) in
  p ← found; x ← nb !! b; y ← nb !! p; nb' ← wr nb b y; nb'' ← wr nb' p x;
  s ← nb'' !! b; if (e_index s =? i) && (e_rank s =? rank) then Some nb'' else None.

(** is_core of every neighbour of a row (benchmarks/cluster/ArborX_DBSCANVerification.hpp:399-404) *)
Fixpoint mark_core (minpts : nat) (js : list nat) (nb : list entry) : option (list entry) :=
  match js with
  | [] => Some nb
  | j :: js => e ← nb !! j; a ← offset !! e_index e; b ← offset !! S (e_index e); nb' ← wr nb j (with_core e (minpts <=? b - a)); mark_core minpts js nb'
  end.
(** set_neighbors (benchmarks/cluster/ArborX_DBSCANVerification.hpp:396-413).  Simplified: the threads, each on its own row, run one after the
    other, in any order. *)
Fixpoint set_neighbors (minpts : nat) (order : list nat) (nb : list entry) : option (list entry) :=
  match order with
  | [] => Some nb
  | i :: order => b ← offset !! i; e ← offset !! S i; nb' ← mark_core minpts (seq b (e - b)) nb; nb'' ← place_self i 0 nb'; set_neighbors minpts order nb''
  end.
(** set_neighbors of the distributed version (benchmarks/cluster/ArborX_DBSCANVerification.hpp:508-524) *)
Fixpoint set_neighbors_mpi (rank : nat) (order : list nat) (nb : list entry) : option (list entry) :=
  match order with
  | [] => Some nb
  | i :: order => nb' ← place_self i rank nb; set_neighbors_mpi rank order nb'
  end.
End Checks.

(** verifyDBSCAN (benchmarks/cluster/ArborX_DBSCANVerification.hpp:361-429).  [offset] and [indices]: what the query returns. *)
Definition verify_dbscan (star : bool) (minpts : nat) (labels : list Z) (order offset indices : list nat) : option bool :=
  nb ← mapM (fun j => l ← labels !! j; Some (Entry j 0 l false)) indices;
  nb ← set_neighbors offset minpts order nb;
  all_of [core_nonnegative offset; connected_share offset; noise_points offset; if star then ignored_border offset else border_points offset; clusters_unique offset] nb.

(** The four checks of the distributed verifyDBSCAN on one rank (benchmarks/cluster/ArborX_DBSCANVerification.hpp:500-539).  [out]: what the second
    query returns; the callback runs on the rank of the neighbour, with the labels and is_core of that rank. *)
Definition verify_rank (rank : nat) (order offset : list nat) (out : list entry) : option bool :=
  nb ← set_neighbors_mpi offset rank order out;
  all_of [core_nonnegative offset; connected_share offset; noise_points offset; border_points offset] nb.
(** is_core from the offsets of the first query (benchmarks/cluster/ArborX_DBSCANVerification.hpp:490-494) *)
Definition core_flags (minpts : nat) (offset : list nat) : option (list bool) :=
  mapM (fun i => a ← offset !! i; b ← offset !! S i; Some (minpts <=? b - a)) (seq 0 (length offset - 1)).
(** IndexRankLabelCoreCallback (benchmarks/cluster/ArborX_DBSCANVerification.hpp:432-446) *)
Definition neighbour_entry (labels : list (list Z)) (cores : list (list bool)) (q : nat * nat) : option entry :=
  ls ← labels !! q.1; l ← ls !! q.2; cs ← cores !! q.1; c ← cs !! q.2; Some (Entry q.2 q.1 l c).
(** The distributed verifyDBSCAN (benchmarks/cluster/ArborX_DBSCANVerification.hpp:448-545): per rank the offsets of the first query, the offsets and
    the neighbours (rank, index) of the second, and the order of the threads; MPI_Allreduce with MPI_MIN. *)
Definition verify_mpi (minpts : nat) (labels : list (list Z)) (orders first second : list (list nat)) (nbs : list (list (nat * nat))) : option bool :=
  cores ← mapM (core_flags minpts) first;
  oks ← mapM (fun rank => order ← orders !! rank; offset ← second !! rank; ids ← nbs !! rank; out ← mapM (neighbour_entry labels cores) ids; verify_rank rank order offset out) (seq 0 (length labels));
  Some (forallb (fun b => b) oks).
