(** Model of the point-to-point communication plan,
    /repo/src/distributed/detail/ArborX_Distributor.hpp (cited below as Dist).

    Ranks are natural numbers; the code's rank -1 ("already placed") is [None].  Integers are unbounded here (the
    code uses int).  MPI is modelled by what the standard promises: MPI_Alltoall transposes the matrix of counts,
    MPI_Dist_graph_neighbors returns every incoming edge exactly once in some order, and a message sent with
    MPI_Isend is delivered unchanged to the matching MPI_Irecv at some later time, so the receive buffer is filled
    in any order of the sources.  Kokkos::parallel_scan hands each iteration the number of earlier contributions.
    An element of a view that was allocated without initialisation is [None]. *)
From Verif Require Import Base KernelAlgModel.

(** Dist:535-539: what createFromSends stores for the sending side. [sp_perm] is empty when no permutation is needed. *)
Record send_plan := SendPlan {
  sp_perm : list (option nat);
  sp_dests : list nat;
  sp_offs : list nat
}.

(** ** Layout of unsorted destinations *)

(** KokkosExt::max_reduce over ranks where -1 is the least value. *)
Definition omax (a b : option nat) : option nat :=
  match a, b with None, _ => b | _, None => a | Some x, Some y => Some (x `max` y) end.
Definition max_reduce (dup : list (option nat)) : option nat := foldr omax None dup.

(** Dist:172-190, the parallel_scan of one round: items of the largest rank get the next positions (from [offset])
    and are marked -1. [upd] counts the items placed so far in this round. *)
Fixpoint place_largest (m offset upd : nat) (dup perm : list (option nat))
    : list (option nat) * list (option nat) * nat :=
  match dup, perm with
  | d :: dup, p :: perm =>
    if decide (d = Some m) then
      let '(dup', perm', upd') := place_largest m offset (S upd) dup perm in
      (None :: dup', Some (upd + offset) :: perm', upd')
    else
      let '(dup', perm', upd') := place_largest m offset upd dup perm in
      (d :: dup', p :: perm', upd')
  | _, _ => (dup, perm, upd)
  end.

(** Dist:162-193, the loop; [None]: out of fuel. *)
Fixpoint layout_loop (fuel : nat) (offset : nat) (dup perm : list (option nat)) (uniq offs : list nat)
    : option send_plan :=
  match fuel with
  | O => None
  | S fuel =>
    match max_reduce dup with
    | None => Some (SendPlan perm uniq offs)
    | Some m =>
      let '(dup', perm', result) := place_largest m offset 0 dup perm in
      layout_loop fuel (offset + result) dup' perm' (uniq ++ [m]) (offs ++ [offset + result])
    end
  end.

(** Dist:129-196 sortAndDetermineBufferLayout. *)
Definition sortAndDetermineBufferLayout (ranks : list nat) : option send_plan :=
  match ranks with
  | [] => Some (SendPlan [] [] [0])
  | _ => layout_loop (S (length ranks)) 0 (Some <$> ranks) (replicate (length ranks) None) [] [0]
  end.

(** KokkosExt::minmax_reduce on a nonempty view. *)
Definition min_of (r : nat) (rs : list nat) : nat := foldr Nat.min r rs.
Definition max_of (r : nat) (rs : list nat) : nat := foldr Nat.max r rs.

(** Dist:233-273 createFromSends, sending side. *)
Definition createFromSends (ranks : list nat) : option send_plan :=
  match ranks with
  | [] => Some (SendPlan [] [] [0])
  | r :: rs =>
    if min_of r rs =? max_of r rs then Some (SendPlan [] [min_of r rs] [0; length ranks])
    else sortAndDetermineBufferLayout ranks
  end.

(** ** Layout of batches *)

(** Dist:76-92, the parallel_scan: the last batch of every run of equal ranks is kept, with the offset after it. *)
Fixpoint compact_runs (ranks offs_after : list nat) : list (nat * nat) :=
  match ranks, offs_after with
  | r :: ranks', o :: offs' =>
    match ranks' with
    | [] => [(r, o)]
    | r' :: _ => if r' =? r then compact_runs ranks' offs' else (r, o) :: compact_runs ranks' offs'
    end
  | _, _ => []
  end.

(** Dist:113-123: runs without items are dropped. *)
Fixpoint drop_empty (prev : nat) (runs : list (nat * nat)) : list nat * list nat :=
  match runs with
  | [] => ([], [])
  | (r, o) :: runs =>
    let '(us, os) := drop_empty o runs in
    if 0 <? o - prev then (r :: us, o :: os) else (us, os)
  end.

(** Dist:38-124 determineBufferLayout (and Dist:210-231): one entry per batch; offsets has one more entry. *)
Definition createFromSends_batched (ranks offsets : list nat) : option send_plan :=
  if length offsets =? S (length ranks) then
    l ← last offsets;
    match ranks with
    | [] => Some (SendPlan [] [] [0])
    | _ =>
      if l =? 0 then Some (SendPlan [] [] [0])
      else let '(us, os) := drop_empty 0 (compact_runs ranks (tail offsets)) in
           Some (SendPlan [] us (0 :: os))
    end
  else None.

(** ** The receiving side *)

(** Dist:460-466: counts per destination, dense. [None]: a rank outside the communicator. *)
Fixpoint dense_counts (dests offs : list nat) (acc : list nat) : option (list nat) :=
  match dests, offs with
  | d :: dests, o :: ((o' :: _) as offs) => acc' ← wr acc d (o' - o); dense_counts dests offs acc'
  | [], _ => Some acc
  | _, _ => None
  end.

(** Dist:467-468 MPI_Alltoall: rank r receives entry r of every rank's counts. *)
Definition alltoall (mat : list (list nat)) (r : nat) : option (list nat) :=
  mapM (fun row : list nat => row !! r) mat.

(** Dist:470-476: sources with a positive count, ascending, and running offsets ([base] is _src_offsets.back()). *)
Fixpoint keep_positive (i base : nat) (counts : list nat) : list nat * list nat :=
  match counts with
  | [] => ([], [])
  | c :: counts =>
    if 0 <? c then
      let '(ss, os) := keep_positive (S i) (base + c) counts in (i :: ss, base + c :: os)
    else keep_positive (S i) base counts
  end.

(** Dist:450-476 preparePointToPointCommunication, OpenMPI branch, seen from rank [r]. *)
Definition receive_dense (plans : list send_plan) (r : nat) : option (list nat * list nat) :=
  mat ← mapM (fun p => dense_counts (sp_dests p) (sp_offs p) (replicate (length plans) 0)) plans;
  counts ← alltoall mat r;
  let '(ss, os) := keep_positive 0 0 counts in Some (ss, 0 :: os).

(** Dist:481-510: the weighted edges of the distributed graph that end in rank [r] (source, weight). *)
Fixpoint edges_to (s r : nat) (dests offs : list nat) : list (nat * nat) :=
  match dests, offs with
  | d :: dests, o :: ((o' :: _) as offs) =>
    (if d =? r then [(s, o' - o)] else []) ++ edges_to s r dests offs
  | _, _ => []
  end.
Definition in_edges (plans : list send_plan) (r : nat) : list (nat * nat) :=
  concat (imap (fun s p => edges_to s r (sp_dests p) (sp_offs p)) plans).

(** Dist:521-529: running offsets of the sorted sources. *)
Fixpoint run_offsets (base : nat) (ws : list nat) : list nat :=
  match ws with [] => [] | w :: ws => base + w :: run_offsets (base + w) ws end.

(** Dist:477-530, the other branch. [sorted] is what std::sort by source makes of the edges MPI returned. *)
Definition receive_graph (sorted : list (nat * nat)) : list nat * list nat :=
  (sorted.*1, 0 :: run_offsets 0 sorted.*2).

(** A plan on every rank: sending sides, and sources with their offsets. [graph] selects the branch compiled in:
    [None] is the OpenMPI branch, [Some sorted] the other one, with the sorted edges of every rank. *)
Record plan := Plan { pl_send : list send_plan; pl_recv : list (list nat * list nat) }.
Definition prepare (graph : option (nat -> list (nat * nat))) (plans : list send_plan) : option plan :=
  recvs ← mapM (fun r => match graph with
                         | None => receive_dense plans r
                         | Some sorted => Some (receive_graph (sorted r))
                         end) (seq 0 (length plans));
  Some (Plan plans recvs).

(** ** Posting the messages *)

Section Posts.
Context {A : Type}.

(** Dist:307-331: exports in sending order. [order]: the order in which the copy kernel's iterations run. *)
Definition permuted_exports (p : send_plan) (order : list nat) (exports : list (option A)) : option (list (option A)) :=
  match sp_perm p with
  | [] => Some exports
  | perm =>
    if length perm =? length exports then
      par_writes (fun i => mjoin (perm !! i)) (fun i => exports !! i) order (replicate (length exports) None)
    else None
  end.

(** Dist:398-407: the bytes a rank sends to destination [d]: slice [i] where _destinations[i] = d. *)
Definition slice (l : list (option A)) (lo hi : nat) : option (list (option A)) :=
  if (lo <=? hi) && (hi <=? length l) then Some (take (hi - lo) (drop lo l)) else None.
Definition outgoing (p : send_plan) (sorted_exports : list (option A)) (d : nat) : option (list (option A)) :=
  i ← head (List.filter (fun i => match sp_dests p !! i with Some d' => d' =? d | None => false end)
              (seq 0 (length (sp_dests p))));
  lo ← sp_offs p !! i; hi ← sp_offs p !! (S i); slice sorted_exports lo hi.

(** Dist:379-391 and 411-424: the message from the i-th source lands in imports[src_offsets[i], src_offsets[i+1]).
    [None]: the message does not have the size posted by MPI_Irecv, or the buffer is too small. *)
Definition deliver (lo hi : nat) (msg imports : list (option A)) : option (list (option A)) :=
  if (lo <=? hi) && (hi <=? length imports) && (length msg =? hi - lo) then
    Some (take lo imports ++ msg ++ drop hi imports)
  else None.

(** Dist:276-440 doPostsAndWaits, seen from receiving rank [r]: sources [srcs], offsets [soffs]; [sent] are all
    ranks' plans with their exports in sending order; [arrival] is the order in which the messages land (the copy
    from the rank to itself is the last one in the code, which is one of these orders). The mirror copies between
    host and device are left out. *)
Fixpoint doPosts (r : nat) (sent : list (send_plan * list (option A))) (srcs soffs : list nat) (arrival : list nat)
    (imports : list (option A)) : option (list (option A)) :=
  match arrival with
  | [] => Some imports
  | i :: arrival =>
    s ← srcs !! i; lo ← soffs !! i; hi ← soffs !! (S i);
    '(p, ex) ← sent !! s;
    msg ← outgoing p ex r;
    imports' ← deliver lo hi msg imports;
    doPosts r sent srcs soffs arrival imports'
  end.

(** doPostsAndWaits called on all ranks with a common plan: [order s] and [arrival r] are the schedules of rank s's
    copy kernel and of the messages reaching rank r. The receive buffer has getTotalReceiveLength() elements. *)
Definition exchange (pl : plan) (order arrival : nat -> list nat) (exports : list (list (option A)))
    : option (list (list (option A))) :=
  if length exports =? length (pl_send pl) then
    sent ← mapM (fun s => p ← pl_send pl !! s; ex ← exports !! s;
                          px ← permuted_exports p (order s) ex; Some (p, px)) (seq 0 (length (pl_send pl)));
    mapM (fun r => '(srcs, soffs) ← pl_recv pl !! r; n ← last soffs;
                   doPosts r sent srcs soffs (arrival r) (replicate n None)) (seq 0 (length (pl_send pl)))
  else None.

End Posts.
