(** Model of the timers of the clustering benchmarks, /repo/benchmarks/cluster/print_timers.cpp (cited as PT), and of the
    regions that the HDBSCAN benchmark, /repo/benchmarks/cluster/hdbscan.cpp (cited as HB), enters with the dendrogram of
    Boruvka's algorithm.  Times are integers (the ticks of the clock). *)
From Verif Require Import Base.
From Coq Require Import ZArith String.
Local Open Scope string_scope.
Local Open Scope list_scope.
Local Open Scope Z_scope.

(** PT:23-29, the duration of an unfinished timer is not used *)
Record timer := Timer { t_label : string; t_tick : Z }.
(** PT:31-32: the stack of the running timers, and the finished ones with their durations in the order of finishing *)
Record timers := Timers { current_timers : list timer; done_timers : list (string * Z) }.
(** The calls of the two callbacks, with the times that the clock shows. *)
Inductive event := Push (label : string) (now : Z) | Pop (now : Z).
(** PT:34-39 *)
Definition push_region (s : timers) (label : string) (now : Z) : timers :=
  Timers (Timer label now :: current_timers s) (done_timers s).
(** PT:41-49; [None]: top of an empty stack is undefined *)
Definition pop_region (s : timers) (now : Z) : option timers :=
  match current_timers s with
  | [] => None
  | t :: ts => Some (Timers ts (done_timers s ++ [(t_label t, now - t_tick t)]))
  end.
Definition on_event (s : timers) (e : event) : option timers :=
  match e with Push l now => Some (push_region s l now) | Pop now => pop_region s now end.
Fixpoint on_events (s : timers) (es : list event) : option timers :=
  match es with [] => Some s | e :: es' => match on_event s e with Some s' => on_events s' es' | None => None end end.
(** PT:53-64; [None] is the abort *)
Fixpoint find_time (ts : list (string * Z)) (label : string) : option Z :=
  match ts with [] => None | (l, d) :: ts' => if String.eqb l label then Some d else find_time ts' label end.
Definition get_time (s : timers) (label : string) : option Z := find_time (done_timers s) label.

(** A region entered at the time [a] and left at the time [b], with the regions in it; [Next] puts regions one after the
    other. *)
Inductive regions := Nothing | Next (label : string) (a b : Z) (inner rest : regions).
(** The calls of the callbacks. *)
Fixpoint events (r : regions) : list event :=
  match r with Nothing => [] | Next l a b i r' => (Push l a :: events i) ++ Pop b :: events r' end.

(** /repo/src/cluster/ArborX_MinimumSpanningTree.hpp:190-265, a loop of Boruvka iterations: the first has the region of
    the vertex parents (246-251), all others that of the sided parents (244-245 and
    /repo/src/cluster/detail/ArborX_BoruvkaHelpers.hpp:500).  [ds] are the times of the latter, one for each further iteration.
    The regions of the iterations themselves (194) and others that are not reported are left out. *)
Fixpoint sided_parents (ds : list (Z * Z)) (rest : regions) : regions :=
  match ds with [] => rest | (a, b) :: ds' => Next "ArborX::MST::update_sided_parents" a b Nothing (sided_parents ds' rest) end.
(** HB:53-56 with MinimumSpanningTree.hpp:65-91 and BoruvkaHelpers.hpp:559.  The times are those of the total, the
    construction, the core distances, the Boruvka part, the vertex parents and the edge parents; [core] is core_min_size > 1. *)
Definition hdbscan_regions (core : bool) (t c d b v e : Z * Z) (ds : list (Z * Z)) : regions :=
  let boruvka := Next "ArborX::MST::boruvka" b.1 b.2
    (Next "ArborX::MST::compute_vertex_parents" v.1 v.2 Nothing
      (sided_parents ds (Next "ArborX::MST::compute_edge_parents" e.1 e.2 Nothing Nothing))) Nothing in
  Next "ArborX::HDBSCAN::total" t.1 t.2
    (Next "ArborX::MST::construction" c.1 c.2 Nothing
      (if core then Next "ArborX::MST::compute_core_distances" d.1 d.2 Nothing boruvka else boruvka)) Nothing.
(** HB:61-86: the numbers printed, or the abort *)
Fixpoint all_times (s : timers) (ls : list string) : option (list Z) :=
  match ls with [] => Some [] | l :: ls' =>
    match get_time s l, all_times s ls' with Some d, Some ds => Some (d :: ds) | _, _ => None end end.
Definition hdbscan_labels (core : bool) : list string :=
  (["ArborX::MST::construction"] ++ (if core then ["ArborX::MST::compute_core_distances"] else []) ++
   ["ArborX::MST::boruvka"; "ArborX::MST::update_sided_parents"; "ArborX::MST::compute_vertex_parents";
    "ArborX::MST::compute_edge_parents"; "ArborX::HDBSCAN::total"]).
Definition hdbscan_report (core : bool) (r : regions) : option (list Z) :=
  match on_events (Timers [] []) (events r) with Some s => all_times s (hdbscan_labels core) | None => None end.
