(** Model of the neighbour lists: /repo/src/spatial/detail/ArborX_NeighborList.hpp (cited as NL) and
    /repo/src/spatial/detail/ArborX_ExpandHalfToFull.hpp (cited as EX).

    [outs] lists, per thread of HalfTraversal, the pairs (value1.index, value2.index) handed to the callback, in
    order (TraversalModel.half_thread).  The two passes run the same traversal.  Atomic increments and the stores
    that follow them are the steps of CrsModel.pstep. *)
From Verif Require Import Base CrsModel.

(** The key of an event is the entry of [counts] that is incremented, its value what is stored. *)
Definition half_prog (outs : list (list (nat * nat))) : list (list (nat * nat)) :=
  map (map (fun p => (snd p, fst p))) outs.
Definition full_count_prog (outs : list (list (nat * nat))) : list (list (nat * nat)) :=
  map (flat_map (fun p => [(fst p, 0); (snd p, 0)])) outs.

(** NL:47-107 findHalfNeighborList: count (NL:80-87), exclusive_scan and allocation (NL:88-90), fill (NL:95-103).
    The counters of the first pass are the n+1 entries of offsets themselves. *)
Definition findHalfNeighborList (outs : list (list (nat * nat))) (n : nat) (ts1 ts2 : list nat) : outcome nat :=
  ok (prun slot_count ts1 (pinit (replicate (n + 1) 0) [] (half_prog outs))) (fun s1 =>
  if negb (pfinished s1) then Unfinished else
  let offsets := excl_scan 0 (p_counts s1) in
  ok (list.last offsets) (fun m =>
  ok (prun slot_second ts2 (pinit (take n offsets) (replicate m None) (half_prog outs))) (fun s2 =>
  if negb (pfinished s2) then Unfinished else Done (p_out s2) offsets))).

(** The copy kernel of NL:169-184: one thread per (i, j): read k = indices(first + j), then
    atomic_fetch_inc(&counts(k)), then store i.  (TeamVectorRange may run several j in one thread; one thread per
    item allows every interleaving of that and more.) *)
Inductive cthread := ToRead (r i : nat) | ToInc (k i : nat) | ToWrite (d i : nat) | CDone.
Record cstate := CState { c_counts : list nat; c_ind : list (option nat); c_thr : list cthread }.

Definition cstep (s : cstate) (t : nat) : option cstate :=
  match c_thr s !! t with
  | None | Some CDone => Some s
  | Some (ToRead r i) =>
    v ← c_ind s !! r; k ← v;      (* reading an uninitialised entry is an error *)
    Some (CState (c_counts s) (c_ind s) (<[t := ToInc k i]> (c_thr s)))
  | Some (ToInc k i) =>
    old ← c_counts s !! k;
    Some (CState (<[k := S old]> (c_counts s)) (c_ind s) (<[t := ToWrite old i]> (c_thr s)))
  | Some (ToWrite d i) =>
    ind ← wr (c_ind s) d (Some i);
    Some (CState (c_counts s) ind (<[t := CDone]> (c_thr s)))
  end.
Fixpoint crun (ts : list nat) (s : cstate) : option cstate :=
  match ts with [] => Some s | t :: ts => s' ← cstep s t; crun ts s' end.
Definition cfinished (s : cstate) : bool :=
  forallb (fun th => match th with CDone => true | _ => false end) (c_thr s).

(** The items (i, j): j ranges over offsets(i) .. counts_copy(i) - 1. *)
Definition copy_items (n : nat) (offsets counts_copy : list nat) : list cthread :=
  flat_map (fun i => let first := default 0 (offsets !! i) in
    map (fun j => ToRead (first + j) i) (seq 0 (default 0 (counts_copy !! i) - first))) (seq 0 n).

(** NL:109-188 findFullNeighborList. *)
Definition findFullNeighborList (outs : list (list (nat * nat))) (n : nat) (ts1 ts2 ts3 : list nat) : outcome nat :=
  ok (prun slot_count ts1 (pinit (replicate (n + 1) 0) [] (full_count_prog outs))) (fun s1 =>
  if negb (pfinished s1) then Unfinished else
  let offsets := excl_scan 0 (p_counts s1) in
  ok (list.last offsets) (fun m =>
  ok (prun slot_second ts2 (pinit (take n offsets) (replicate m None) (half_prog outs))) (fun s2 =>
  if negb (pfinished s2) then Unfinished else
  ok (crun ts3 (CState (p_counts s2) (p_out s2) (copy_items n offsets (p_counts s2)))) (fun s3 =>
  if negb (cfinished s3) then Unfinished else Done (c_ind s3) offsets)))).

(** EX:23-68 expandHalfToFull on a half list given by offsets and (initialised) indices.  Count: per thread i, for each
    of its entries k, one increment of i and one of k (EX:34-42).  Rewrite: one thread per (i, j), storing k under i
    and then i under k (EX:48-66); [counts] is a copy of all n+1 offsets.  [slice] is total: the input is assumed to be a
    well-formed compressed-row list. *)
Definition slice (offsets indices : list nat) (i : nat) : list nat :=
  let a := default 0 (offsets !! i) in take (default 0 (offsets !! S i) - a) (drop a indices).
Definition expand_count_prog (n : nat) (offsets indices : list nat) : list (list (nat * nat)) :=
  map (fun i => flat_map (fun k => [(i, 0); (k, 0)]) (slice offsets indices i)) (seq 0 n).
Definition expand_prog (n : nat) (offsets indices : list nat) : list (list (nat * nat)) :=
  flat_map (fun i => map (fun k => [(i, k); (k, i)]) (slice offsets indices i)) (seq 0 n).

Definition expandHalfToFull (offsets indices : list nat) (ts1 ts2 : list nat) : outcome nat :=
  let n := length offsets - 1 in
  ok (prun slot_count ts1 (pinit (replicate (n + 1) 0) [] (expand_count_prog n offsets indices))) (fun s1 =>
  if negb (pfinished s1) then Unfinished else
  let offsets' := excl_scan 0 (p_counts s1) in
  ok (list.last offsets') (fun m =>
  ok (prun slot_second ts2 (pinit offsets' (replicate m None) (expand_prog n offsets indices))) (fun s2 =>
  if negb (pfinished s2) then Unfinished else Done (p_out s2) offsets'))).
