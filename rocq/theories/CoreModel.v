(** Model of hdbscan (/repo/src/cluster/ArborX_HDBSCAN.hpp:22-51, cited as HD) from the built tree on: core distances
    (/repo/src/cluster/ArborX_MinimumSpanningTree.hpp:63-85, cited as MST, with
    /repo/src/cluster/detail/ArborX_MutualReachabilityDistance.hpp:26-50), then one of the two implementations.  The
    construction of the tree is C01; [dl a b] is the distance of points a and b. *)
From Verif Require Import TraversalModel DendrogramModel.
From Verif Require Export HdbscanModel.
Local Open Scope nat_scope.

Section All.
Context {V W : Type} (T : tree V) (ltb : W -> W -> bool) (zero inf : W).
Variable dl : nat -> nat -> W.
Variable dv : nat -> V -> W.
Variable cap : nat.

(** The callback MaxDistance, called by the thread of predicate j for the reported values in turn; distances(j) starts as zero
    and is written by this thread only. *)
Definition core_distance (k j : nat) : option W :=
  match nearest_query T ltb zero inf (dl j) (dv j) k cap with
  | Ok out => Some (fold_left (fun d i => wmax ltb d (dl i j)) out zero)
  | _ => None
  end.
Definition core_distances (k : nat) : option (list W) := mapM (core_distance k) (seq 0 (t_size T)).
(** MST:63-85 the metric, passed on *)
Definition with_metric (k : nat) (go : (nat -> nat -> W -> W) -> Prop) : Prop :=
  if 1 <? k then
    match core_distances k with
    | None => False
    | Some core => go (mutual_reachability ltb (fun i => default zero (core !! i)))
    end
  else go euclidean.

(** HD:33-40 *)
Definition hdbscan_boruvka (bits : W -> Z) (shared bounded : bool) (k fuel : nat) (order par0 : list nat) (garbage : list Z) (edges0 : list (wedge W))
  (map0 : list nat) (sided0 parents0 : list Z) (post : list Z -> list W -> Prop) : Prop :=
  with_metric k (fun metric =>
    hdbscan T ltb zero inf dl dv metric cap shared bounded bits fuel order par0 garbage edges0 map0 sided0 parents0 (fun _ par heights => post par heights)).

(** ArborX_Dendrogram.hpp:48-98: the edges sorted by weight, with equal weights in any order.  An entry of parents that was
    never written is a failure. *)
Definition dendrogram_of (es : list (wedge W)) (post : list Z -> list W -> Prop) : Prop :=
  forall sorted, sorted ≡ₚ (fun e => (w_weight e, (N.to_nat (w_source e), N.to_nat (w_target e)))) <$> es ->
  Sorted (fun x y => ltb (fst y) (fst x) = false) sorted ->
  match (par ← dendrogram (snd <$> sorted); mapM (fun p => p) par) with
  | None => False
  | Some par => post par (fst <$> sorted)
  end.
(** HD:42-50 *)
Definition hdbscan_union_find (shared bounded : bool) (k fuel : nat) (order par0 : list nat) (garbage : list Z) (edges0 : list (wedge W))
  (post : list Z -> list W -> Prop) : Prop :=
  with_metric k (fun metric =>
    mst T ltb zero inf dl dv metric cap shared bounded fuel order par0 garbage edges0 (fun es => dendrogram_of es post)).
End All.
