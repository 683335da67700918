(** Model of the queries on a distributed tree:
    /repo/src/distributed/detail/ArborX_DistributedTreeUtils.hpp (Utils), ArborX_DistributedTreeSpatial.hpp (Spatial),
    ArborX_DistributedTreeNearest.hpp (Nearest), ArborX_DistributedTreeNearestHelpers.hpp (Helpers).

    A collective operation is a statement about all ranks at once: entry s of every outer list belongs to rank s.
    A kernel or collective is written in continuation style: [K post] says that whatever schedule it gets, it does
    not fail, and [post] holds of what it leaves behind.  An element of a view allocated without initialisation is
    [None]; [init] is the demand that a view which is read holds none.

    The trees of the single ranks enter only through what their queries return ([Ans r q l]: rank r may answer query
    q by l): the theorems about the trees are C03, C05, C11, C12.  Any answer in compressed rows is allowed whose
    rows are, up to order, such lists ([CrsAnswer]). *)
From Coq Require Import Sorting.Sorted.
From Verif Require Import Base KernelAlgModel CrsModel CrsSpec HeapModel DistributorModel.

Definition init {X} (l : list (option X)) : option (list X) := mapM id l.

(** ** Building blocks *)

(** A kernel of n iterations q = 0..n-1, each writing xs(q) into its cells offset(q) .. offset(q+1)-1 of a new view
    (Utils:78-83, 105-110, 140-145, 197-204).  [order] is the order in which the single writes happen. *)
Definition cells (offset : list nat) : list (nat * nat) :=
  concat (map (fun q => let lo := default 0 (offset !! q) in let hi := default 0 (offset !! S q) in
                        map (pair q) (seq lo (hi - lo))) (seq 0 (length offset - 1))).
Fixpoint fill {X} (order : list (nat * nat)) (xs : list X) (buf : list (option X)) : option (list (option X)) :=
  match order with
  | [] => Some buf
  | (q, i) :: order => x ← xs !! q; buf' ← wr buf i (Some x); fill order xs buf'
  end.
Definition FillAll {X} (offsets : list (list nat)) (xss : list (list X)) (post : list (list (option X)) -> Prop) : Prop :=
  forall order, (forall s off, offsets !! s = Some off -> order s ≡ₚ cells off) ->
  exists bufs, mapM (fun s => off ← offsets !! s; xs ← xss !! s; n ← last off; fill (order s) xs (replicate n None))
    (seq 0 (length offsets)) = Some bufs /\ post bufs.

(** createFromSends and doPostsAndWaits on all ranks (DistributorModel), under every schedule. *)
Definition WithPlan (plans : option (list send_plan)) (post : plan -> Prop) : Prop :=
  exists ps, plans = Some ps /\
  forall graph, (forall sorted r, graph = Some sorted -> r < length ps ->
      sorted r ≡ₚ in_edges ps r /\ StronglySorted (fun a b : nat * nat => a.1 <= b.1) (sorted r)) ->
  exists pl, prepare graph ps = Some pl /\ post pl.
Definition ExchangeAll {X} (pl : plan) (exports : list (list (option X))) (post : list (list (option X)) -> Prop) : Prop :=
  forall order arrival, (forall s xs, exports !! s = Some xs -> order s ≡ₚ seq 0 (length xs)) ->
  (forall r srcs soffs, pl_recv pl !! r = Some (srcs, soffs) -> arrival r ≡ₚ seq 0 (length srcs)) ->
  exists imports, exchange pl order arrival exports = Some imports /\ post imports.

(** Utils:90-94 and 180-183: a view with the sender's rank everywhere. *)
Definition own_rank (offsets : list (list nat)) : list (list (option nat)) :=
  imap (fun s off => replicate (default 0 (last off)) (Some s)) offsets.

Section Forward.
Context {Q B : Type}.

(** Utils:52-115 forwardQueries: queries, sender's rank and position of the query, one copy per rank concerned. *)
Definition forwardQueries (preds : list (list Q)) (ranks_to offsets : list (list nat))
    (post : list (list (option Q)) -> list (list (option nat)) -> list (list (option nat)) -> Prop) : Prop :=
  WithPlan (mapM createFromSends ranks_to) (fun pl =>
  FillAll offsets preds (fun export_queries =>
  ExchangeAll pl export_queries (fun fwd_queries =>
  ExchangeAll pl (own_rank offsets) (fun fwd_ranks =>
  FillAll offsets (map (fun p => seq 0 (length p)) preds) (fun export_ids =>
  ExchangeAll pl export_ids (fun fwd_ids => post fwd_queries fwd_ranks fwd_ids)))))).

(** bottom_tree.query on every rank (Utils:250), answered in compressed rows. *)
Definition BottomQuery (Ans : nat -> Q -> list B -> Prop) (fwd_queries : list (list (option Q)))
    (post : list (list (option B)) -> list (list nat) -> Prop) : Prop :=
  exists qss, mapM init fwd_queries = Some qss /\
  forall outs offs, length outs = length qss -> length offs = length qss ->
  (forall r qs out off, qss !! r = Some qs -> outs !! r = Some out -> offs !! r = Some off ->
     exists R, Forall2 (Ans r) qs R /\ CrsAnswer R out off) -> post outs offs.

(** Utils:153-224 communicateResultsBack. The imported ranks (Utils:189-190) are not used afterwards. *)
Definition communicateResultsBack (outs : list (list (option B))) (offs : list (list nat))
    (ranks ids : list (list (option nat)))
    (post : list (list (option nat)) -> list (list (option B)) -> Prop) : Prop :=
  exists rks, mapM init ranks = Some rks /\ exists is, mapM init ids = Some is /\
  WithPlan (mapM (fun r => rk ← rks !! r; off ← offs !! r; createFromSends_batched rk off) (seq 0 (length rks))) (fun pl =>
  ExchangeAll pl (own_rank offs) (fun _ =>
  FillAll offs is (fun export_ids =>
  ExchangeAll pl export_ids (fun import_ids =>
  ExchangeAll pl outs (fun import_out => post import_ids import_out))))).

(** Utils:33-47 countResults: atomic increments in any order, then an exclusive scan. *)
Fixpoint increments (ids : list nat) (counts : list nat) : option (list nat) :=
  match ids with
  | [] => Some counts
  | i :: ids => c ← counts !! i; counts' ← wr counts i (S c); increments ids counts'
  end.
(** Utils:258-260 on one rank. KokkosExt::sortByKey is any sort by the keys, not necessarily stable. *)
Definition MergeResults (n : nat) (ids : list (option nat)) (values : list (option B))
    (post : list (option B) -> list nat -> Prop) : Prop :=
  exists is, init ids = Some is /\
  forall order, order ≡ₚ is -> exists counts, increments order (replicate (S n) 0) = Some counts /\
  forall sorted : list (nat * option B), sorted ≡ₚ zip is values -> StronglySorted (fun a b => a.1 <= b.1) sorted ->
  post (map snd sorted) (excl_scan 0 counts).

(** Utils:226-263 forwardQueriesAndCommunicateResults. [post s values offset]: what rank s is left with. *)
Definition forwardQueriesAndCommunicateResults (Ans : nat -> Q -> list B -> Prop) (preds : list (list Q))
    (ranks_to offsets : list (list nat)) (post : nat -> list (option B) -> list nat -> Prop) : Prop :=
  forwardQueries preds ranks_to offsets (fun fwd_queries fwd_ranks fwd_ids =>
  BottomQuery Ans fwd_queries (fun outs offs =>
  communicateResultsBack outs offs fwd_ranks fwd_ids (fun import_ids import_out =>
  length import_ids = length preds /\ length import_out = length preds /\
  forall s p ids vals, preds !! s = Some p -> import_ids !! s = Some ids -> import_out !! s = Some vals ->
    length ids = length vals /\ MergeResults (length p) ids vals (post s)))).

(** Utils:117-149 forwardQueries, the overload that forwards nothing but the queries. *)
Definition forwardQueries_only (preds : list (list Q)) (ranks_to offsets : list (list nat))
    (post : list (list (option Q)) -> Prop) : Prop :=
  WithPlan (mapM createFromSends ranks_to) (fun pl =>
  FillAll offsets preds (fun export_queries => ExchangeAll pl export_queries post)).

(** top_tree.query (Spatial:54-55, 86-87, Nearest:56-58, 143-147): every rank asks its copy of the top tree; the
    answer lists ranks.  [Top q rs]: the top tree may answer query q by the ranks rs. *)
Definition TopQuery {Q'} (Top : Q' -> list nat -> Prop) (preds : list (list Q'))
    (post : list (list nat) -> list (list nat) -> Prop) : Prop :=
  forall ranks offs, length ranks = length preds -> length offs = length preds ->
  (forall s p rk off, preds !! s = Some p -> ranks !! s = Some rk -> offs !! s = Some off ->
     exists R, Forall2 Top p R /\ CrsAnswer R rk off) ->
  exists rks, mapM init ranks = Some rks /\ post rks offs.

(** Spatial:27-60 queryDispatch(SpatialPredicateTag) with output views; [sizes] is the number of values on each rank,
    tree.empty() that their sum is 0 (ArborX_DistributedTree.hpp:229-246).  [post s values offset] as above. *)
Definition spatial_queryDispatch (sizes : list nat) (Top : Q -> list nat -> Prop) (Ans : nat -> Q -> list B -> Prop)
    (preds : list (list Q)) (post : nat -> list (option B) -> list nat -> Prop) : Prop :=
  if sum_list sizes =? 0 then forall s p, preds !! s = Some p -> post s [] (replicate (S (length p)) 0)
  else TopQuery Top preds (fun ranks offs => forwardQueriesAndCommunicateResults Ans preds ranks offs post).

(** bottom_tree.query without output (Spatial:95): rank r calls the callback for the pairs listed in [calls r], in
    some order.  [Hits r q l]: rank r may find l for query q. *)
Definition BottomCalls (Hits : nat -> Q -> list B -> Prop) (fwd_queries : list (list (option Q)))
    (post : list (list (Q * B)) -> Prop) : Prop :=
  exists qss, mapM init fwd_queries = Some qss /\
  forall calls, length calls = length qss ->
  (forall r qs cs, qss !! r = Some qs -> calls !! r = Some cs ->
     exists R, Forall2 (Hits r) qs R /\ cs ≡ₚ concat (zip_with (fun q l => map (pair q) l) qs R)) -> post calls.

(** Spatial:62-96 queryDispatch(SpatialPredicateTag) with a callback and no output. *)
Definition spatial_queryDispatch_pure (sizes : list nat) (Top : Q -> list nat -> Prop) (Hits : nat -> Q -> list B -> Prop)
    (preds : list (list Q)) (post : list (list (Q * B)) -> Prop) : Prop :=
  if sum_list sizes =? 0 then post (replicate (length preds) [])
  else TopQuery Top preds (fun ranks offs => forwardQueries_only preds ranks offs (fun fwd => BottomCalls Hits fwd post)).

End Forward.

(** ** Nearest queries *)
Section Nearest.
Context {Q V C D : Type} (ltb : D -> D -> bool) (getK : Q -> nat).

(** The entries offset(q) .. offset(q+1)-1 of a view. [None]: the range leaves the view. *)
Definition row {X} (offset : list nat) (l : list X) (q : nat) : option (list X) :=
  lo ← offset !! q; hi ← offset !! S q;
  if (lo <=? hi) && (hi <=? length l) then Some (take (hi - lo) (drop lo l)) else None.

(** Nearest:72-81: how many of the nearest ranks are needed for k leaves. *)
Fixpoint needed (k : nat) (sizes : list nat) (leaves : nat) (rs : list nat) : option nat :=
  match rs with
  | [] => Some 0
  | r :: rs =>
    n ← sizes !! r;
    if (n =? 0) || (k <=? leaves) then Some 0
    else m ← needed k sizes (leaves + n) rs; Some (S m)
  end.
(** Nearest:91-96: one write per pair (query, cell of the new view), in any order. *)
Fixpoint copy_rows (order : list (nat * nat)) (offset new_offset ranks buf : list nat) : option (list nat) :=
  match order with
  | [] => Some buf
  | (q, c) :: order =>
    o ← offset !! q; n ← new_offset !! q; r ← ranks !! (o + (c - n)); buf' ← wr buf c r;
    copy_rows order offset new_offset ranks buf'
  end.
(** Nearest:64-99 on all ranks. *)
Definition Truncate (sizes : list nat) (preds : list (list Q)) (rankss offsets : list (list nat))
    (post : list (list nat) -> list (list nat) -> Prop) : Prop :=
  exists countss, mapM (fun s => p ← preds !! s; ranks ← rankss !! s; offset ← offsets !! s;
      mapM (fun i => q ← p !! i; rs ← row offset ranks i; needed (getK q) sizes 0 rs) (seq 0 (length p)))
    (seq 0 (length preds)) = Some countss /\
  let new_offsets := map (fun counts => excl_scan 0 (counts ++ [0])) countss in
  forall order, (forall s off, new_offsets !! s = Some off -> order s ≡ₚ cells off) ->
  exists new_ranks, mapM (fun s => ranks ← rankss !! s; offset ← offsets !! s; new_offset ← new_offsets !! s;
      n ← last new_offset; copy_rows (order s) offset new_offset ranks (replicate n 0)) (seq 0 (length preds)) = Some new_ranks /\
  post new_ranks new_offsets.

(** Nearest:114-125, one query. The queries work on disjoint parts of [distances], so one query is one step here. *)
Definition farthest_step (p : list Q) (offset : list nat) (i : nat) (st : list D * list D) : option (list D * list D) :=
  let '(distances, farthest) := st in
  lo ← offset !! i; hi ← offset !! S i;
  if hi - lo =? 0 then Some st
  else
    q ← p !! i;
    if getK q =? 0 then None (* the pivot would lie before the range *)
    else
      let k := min (getK q) (hi - lo) - 1 in
      distances' ← nth_element ltb distances lo (lo + k) hi;
      v ← distances' !! (lo + k);
      farthest' ← wr farthest i v;
      Some (distances', farthest').
Fixpoint farthest_loop (p : list Q) (offset order : list nat) (st : list D * list D) : option (list D * list D) :=
  match order with
  | [] => Some st
  | i :: order => st' ← farthest_step p offset i st; farthest_loop p offset order st'
  end.
(** On one rank. [garbage]: what the view farthest_distances (Nearest:199-202) held when it was allocated. *)
Definition Farthest (p : list Q) (distances : list (option D)) (offset : list nat) (garbage : list D)
    (post : list D -> Prop) : Prop :=
  exists ds, init distances = Some ds /\
  forall order, order ≡ₚ seq 0 (length p) ->
  exists ds' farthest, farthest_loop p offset order (ds, garbage) = Some (ds', farthest) /\ post farthest.

(** Utils:313-337, one query: all candidates into the queue, then out again until k are found. The queue has the
    closest candidate on top (Utils:297-305). *)
Definition closer (a b : C * D) : bool := ltb b.2 a.2.
Fixpoint push_all (cap : nat) (items queue : list (C * D)) : option (list (C * D)) :=
  match items with
  | [] => Some queue
  | x :: items => queue' ← pq_push closer cap queue x; push_all cap items queue'
  end.
Fixpoint pop_upto (m : nat) (queue : list (C * D)) : option (list (C * D)) :=
  match m, queue with
  | O, _ | _, [] => Some []
  | S m, _ => t ← pq_top queue; queue' ← pq_pop closer queue; rest ← pop_upto m queue'; Some (t :: rest)
  end.
Definition filter_query (k : nat) (items : list (C * D)) : option (list (C * D)) :=
  match items with
  | [] => Some []
  | _ => queue ← push_all (length items) items []; pop_upto k queue
  end.
Fixpoint write_at (n : nat) (l : list C) (buf : list (option C)) : option (list (option C)) :=
  match l with
  | [] => Some buf
  | x :: l => buf' ← wr buf n (Some x); write_at (S n) l buf'
  end.
(** Utils:320-337, the queries in any order; each works on its own part of the views, so it is one step here. *)
Fixpoint filter_loop (p : list Q) (values : list C) (distances : list D) (offset new_offset order : list nat)
    (buf : list (option C)) : option (list (option C)) :=
  match order with
  | [] => Some buf
  | i :: order =>
    q ← p !! i; vs ← row offset values i; ds ← row offset distances i;
    popped ← filter_query (getK q) (zip vs ds);
    n ← new_offset !! i;
    buf' ← write_at n (map fst popped) buf;
    filter_loop p values distances offset new_offset order buf'
  end.
(** Utils:265-341 filterResults on one rank. *)
Definition filterResults (p : list Q) (values : list C) (distances : list D) (offset : list nat)
    (post : list (option C) -> list nat -> Prop) : Prop :=
  exists counts, mapM (fun i => q ← p !! i; lo ← offset !! i; hi ← offset !! S i; Some (min (hi - lo) (getK q)))
    (seq 0 (length p)) = Some counts /\
  let new_offset := excl_scan 0 (counts ++ [0]) in
  forall order, order ≡ₚ seq 0 (length p) ->
  exists n out, last new_offset = Some n /\
    filter_loop p values distances offset new_offset order (replicate n None) = Some out /\ post out new_offset.

(** Nearest:39-126 phaseI.  [Top q rs]: answer of the top tree.  [Ans r q l]: answer of the tree of rank r to the
    nearest query q.  [dist q v]: Helpers:226. *)
Definition phaseI (sizes : list nat) (Top : Q -> list nat -> Prop) (Ans : nat -> Q -> list V -> Prop) (dist : Q -> V -> D)
    (preds : list (list Q)) (garbage : nat -> list D) (post : nat -> list D -> Prop) : Prop :=
  TopQuery Top preds (fun ranks offs =>
  Truncate sizes preds ranks offs (fun new_ranks new_offs =>
  forwardQueriesAndCommunicateResults (fun r q l => exists vs, Ans r q vs /\ l = map (dist q) vs)
    preds new_ranks new_offs (fun s distances offset =>
  forall p, preds !! s = Some p -> Farthest p distances offset (garbage s) (post s)))).

(** Nearest:128-176 phaseII.  [Within (q, radius) rs]: answer of the top tree to the query of Helpers:159-181.
    [cb q v]: the one output of the callback (Helpers:205-223). *)
Definition phaseII (Within : Q * D -> list nat -> Prop) (Ans : nat -> Q -> list V -> Prop) (dist : Q -> V -> D)
    (cb : Q -> V -> C) (preds : list (list Q)) (farthest : list (list D))
    (post : nat -> list (option C) -> list nat -> Prop) : Prop :=
  TopQuery Within (zip_with zip preds farthest) (fun ranks offs =>
  forwardQueriesAndCommunicateResults (fun r q l => exists vs, Ans r q vs /\ l = map (fun v => (cb q v, dist q v)) vs)
    preds ranks offs (fun s out offset =>
  exists pairs, init out = Some pairs /\
  forall p, preds !! s = Some p -> filterResults p (map fst pairs) (map snd pairs) offset (post s))).

(** Nearest:178-218 queryDispatch2RoundImpl, all ranks finishing phase I before any of them can finish its top-tree
    query of phase II: the ranks meet in the collectives between. *)
Definition queryDispatch2RoundImpl (sizes : list nat) (Top : Q -> list nat -> Prop) (Within : Q * D -> list nat -> Prop)
    (Ans : nat -> Q -> list V -> Prop) (dist : Q -> V -> D) (cb : Q -> V -> C) (preds : list (list Q))
    (post : nat -> list (option C) -> list nat -> Prop) : Prop :=
  forall garbage, (forall s p, preds !! s = Some p -> length (garbage s) = length p) ->
  exists Far : nat -> list D -> Prop, phaseI sizes Top Ans dist preds garbage Far /\
  forall farthest, length farthest = length preds -> (forall s fs, farthest !! s = Some fs -> Far s fs) ->
  phaseII Within Ans dist cb preds farthest post.

(** Nearest:234-261 queryDispatch(NearestPredicateTag). *)
Definition nearest_queryDispatch (sizes : list nat) (Top : Q -> list nat -> Prop) (Within : Q * D -> list nat -> Prop)
    (Ans : nat -> Q -> list V -> Prop) (dist : Q -> V -> D) (cb : Q -> V -> C) (preds : list (list Q))
    (post : nat -> list (option C) -> list nat -> Prop) : Prop :=
  if sum_list sizes =? 0 then forall s p, preds !! s = Some p -> post s [] (replicate (S (length p)) 0)
  else queryDispatch2RoundImpl sizes Top Within Ans dist cb preds post.

End Nearest.
