(** Model of the minimum spanning tree in mode BoruvkaMode::HDBSCAN, which also builds the dendrogram:
    /repo/src/cluster/ArborX_MinimumSpanningTree.hpp:170-313 (cited as MST) and
    /repo/src/cluster/detail/ArborX_BoruvkaHelpers.hpp:448-730 (cited as BH).

    The search for the outgoing edges and the update of the labels are those of BoruvkaModel.v.  Edge indices are [nat];
    sided parents and parents are [Z] as in the code (int).  [None] is an access outside an array, an int overflow, a
    failed assertion or exhausted fuel.  A kernel whose thread i touches only entry i of the arrays that the kernel writes
    is a [mapM]; the others are machines or sequences of stores in any order. *)
From Verif Require Export BoruvkaModel.
From Coq Require Export Sorting.Sorted.
Local Open Scope nat_scope.

(** BH:34-35 *)
Definition root_chain_value : Z := -2.
Definition follow_chain_value : Z := -3.
Definition int_max : Z := 2 ^ 31 - 1.
(** BH:577 *)
Definition shift : Z := 32.
Definition z_index (z : Z) : option nat := if (0 <=? z)%Z then Some (Z.to_nat z) else None.

Section Hdbscan.
Context {V W : Type} (T : tree V) (ltb : W -> W -> bool) (zero inf : W).
Variable dl : nat -> nat -> W.
Variable dv : nat -> V -> W.
Variable metric : nat -> nat -> W -> W.
Variable cap : nat.
Variable shared : bool.
Variable bounded : bool.
Variable bits : W -> Z.                  (* Kokkos::bit_cast<int>, BH:613 *)

Section Round.
Variable labels : list Z.
Variable out : list (dedge W).

(** ** BH:448-464 the kernel update_unidirectional_edges in mode HDBSCAN: one more store *)
Inductive hpc := HStart | HInc (e : wedge W) | HWrite (back : nat) (e : wedge W) | HMap (back : nat) | HDone.
Record hstate := HState { h_num : nat; h_edges : list (wedge W); h_map : list nat; h_thr : list hpc }.
Definition hstep (s : hstate) (i : nat) : option hstate :=
  pc ← h_thr s !! i;
  match pc with
  | HStart =>
      c ← component labels i;
      pc ← (if negb (i =? c) then Some HDone
            else next ← next_component labels out c;
                 if next =? c then Some HDone else e ← out !! i; Some (HInc (to_weighted e)));
      Some (HState (h_num s) (h_edges s) (h_map s) (<[i := pc]> (h_thr s)))
  | HInc e => Some (HState (S (h_num s)) (h_edges s) (h_map s) (<[i := HWrite (h_num s) e]> (h_thr s)))
  | HWrite back e => edges ← wr (h_edges s) back e; Some (HState (h_num s) edges (h_map s) (<[i := HMap back]> (h_thr s)))
  | HMap back => map ← wr (h_map s) i back; Some (HState (h_num s) (h_edges s) map (<[i := HDone]> (h_thr s)))
  | HDone => None
  end.
Definition hlive (s : hstate) (t : nat) : Prop := exists pc, h_thr s !! t = Some pc /\ pc <> HDone.

(** ** BH:466-475 the kernel update_bidirectional_edges: a read of another entry of edge_mapping, then a store *)
Inductive gpc := GStart | GWrite (v : nat) | GDone.
Record gstate := GState { g_map : list nat; g_thr : list gpc }.
Definition gstep (s : gstate) (i : nat) : option gstate :=
  pc ← g_thr s !! i;
  match pc with
  | GStart =>
      c ← component labels i;
      pc ← (if negb (i =? c) then Some GDone
            else next ← next_component labels out c;
                 if negb (next =? c) then Some GDone
                 else t ← next_of out labels i; v ← g_map s !! t; Some (GWrite v));
      Some (GState (g_map s) (<[i := pc]> (g_thr s)))
  | GWrite v => map ← wr (g_map s) i v; Some (GState map (<[i := GDone]> (g_thr s)))
  | GDone => None
  end.
Definition glive (s : gstate) (t : nat) : Prop := exists pc, g_thr s !! t = Some pc /\ pc <> GDone.

(** ** BH:494-527 updateSidedParents *)
Definition sided_value (edges : list (wedge W)) (map : list nat) (e : nat) : option Z :=
  edge ← edges !! e;
  c ← component labels (N.to_nat (w_source edge));
  alpha ← map !! c;
  alpha_edge ← edges !! alpha;
  if wedge_lt ltb edge alpha_edge then
    z ← labels !! N.to_nat (w_source alpha_edge);
    let v := (2 * Z.of_nat alpha + (if z =? Z.of_nat c then 1 else 0))%Z in
    if (v <=? int_max)%Z then Some v else None
  else Some (follow_chain_value - Z.of_nat alpha)%Z.
Definition update_sided (edges : list (wedge W)) (map : list nat) (sided : list Z) (first last : nat) : option (list Z) :=
  if last <=? length sided then
    mapM (fun '(e, s) => if (first <=? e) && (e <? last) then sided_value edges map e else Some s) (zip (seq 0 (length sided)) sided)
  else None.

(** ** BH:529-550 assignVertexParents: the stores are executed in the given [order] of the threads *)
Definition vertex_thread (e : nat) : option nat := edge ← out !! e; component labels (N.to_nat (source (directed_edge edge))).
Definition assign_vertex_parents (map : list nat) (order : list nat) (parents : list Z) : option (list Z) :=
  par_writes (fun e => i ← vertex_thread e; v ← getValue T i; Some (v + (length map - 1)))
             (fun e => i ← vertex_thread e; m ← map !! i; Some (Z.of_nat m)) order parents.
End Round.

(** ** MST:192-269.  State: the state of BoruvkaModel.v, edges_mapping, sided_parents, dendrogram_parents, edges_start,
    edges_end, and whether iterations > 0. *)
Record dstate := DState { d_m : @mstate W; d_map : list nat; d_sided : list Z; d_parents : list Z; d_start : nat; d_end : nat; d_later : bool }.
Definition hround (par : list nat) (st : dstate) (post : dstate -> Prop) : Prop :=
  let n := t_size T in
  find_edges T ltb zero inf dl dv metric cap shared bounded par (m_labels (d_m st)) (m_lower (d_m st)) (fun labels out lower =>
    Kernel (hstep labels out) hlive (HState (m_num (d_m st)) (m_edges (d_m st)) (d_map st) (replicate n HStart)) (fun s5 =>
    Kernel (gstep labels out) glive (GState (h_map s5) (replicate n GStart)) (fun s6 =>
    forall order, order ≡ₚ seq 0 n ->
    match (if d_later st then update_sided labels (h_edges s5) (g_map s6) (d_sided st) (d_start st) (d_end st) else Some (d_sided st)),
          (if d_later st then Some (d_parents st) else assign_vertex_parents labels out (g_map s6) order (d_parents st)) with
    | Some sided, Some parents =>
      Kernel (bstep out) blive (BState labels (replicate n BStart)) (fun s7 =>
        post (DState (MState (b_labels s7) lower (h_edges s5) (h_num s5)) (g_map s6) sided parents (d_end st) (h_num s5) true))
    | _, _ => False
    end))).
Fixpoint hboruvka (fuel : nat) (par : list nat) (st : dstate) (post : dstate -> Prop) : Prop :=
  match fuel with
  | 0 => False
  | S fuel => hround par st (fun st => if (Z.of_nat (t_size T) - Z.of_nat (m_num (d_m st)) <=? 1)%Z then post st else hboruvka fuel par st post)
  end.

(** ** BH:552-730 computeParentsAndReorderEdges; chain_offsets and chain_levels (BH:673-706 in part, BH:710-730) are not
    modelled: nothing else reads them *)
Section Reorder.
Variable edges : list (wedge W).
Variable sided : list Z.
(** BH:587-601 the do-while loop *)
Fixpoint key_loop (fuel : nat) (edge : wedge W) (next : nat) : option Z :=
  match fuel with
  | 0 => None
  | S fuel =>
      key ← sided !! next;
      if (key <=? follow_chain_value)%Z then next ← z_index (follow_chain_value - key); key_loop fuel edge next
      else if (0 <=? key)%Z then
        next ← z_index (key / 2); next_edge ← edges !! next;
        if wedge_lt ltb edge next_edge then Some key else key_loop fuel edge next
      else if (key =? root_chain_value)%Z then Some key
      else key_loop fuel edge next
  end.
(** BH:579-614; the assertion excludes infinite weights (BH:611-612) *)
Definition edge_key (e : nat) : option Z :=
  key ← sided !! e; edge ← edges !! e;
  key ← (if (key <=? follow_chain_value)%Z then next ← z_index (follow_chain_value - key); key_loop (length edges) edge next else Some key);
  let key := if (key =? root_chain_value)%Z then int_max else key in
  if ltb (w_weight edge) inf then Some (Z.shiftl key shift + bits (w_weight edge))%Z else None.
Definition chain (k : Z) : Z := Z.shiftr k shift.

Variable keys : list Z.  (* sorted *)
(** BH:639-660 fix_same_weight_order, thread i.  It accesses entries of [permute] of its own chain only, so no other thread
    of the kernel accesses them: a thread is one step. *)
Fixpoint smallest (cnt : nat) (permute : list nat) (key : Z) (m k : nat) : option nat :=
  match cnt with
  | 0 => Some m
  | S cnt =>
      kk ← keys !! k;
      if (kk =? key)%Z then
        pk ← permute !! k; pm ← permute !! m; ek ← edges !! pk; em ← edges !! pm;
        smallest cnt permute key (if wedge_lt ltb ek em then k else m) (S k)
      else Some m
  end.
Definition chain_start (i : nat) : option bool :=
  match i with 0 => Some true | S j => a ← keys !! j; b ← keys !! i; Some (negb (chain a =? chain b)%Z) end.
Definition fix_thread (permute : list nat) (i : nat) : option (list nat) :=
  key ← keys !! i; start ← chain_start i;
  if start : bool then
    m ← smallest (length edges - S i) permute key i (S i);
    if m =? i then Some permute
    else pi ← permute !! i; pm ← permute !! m; p1 ← wr permute i pm; wr p1 m pi
  else Some permute.
Fixpoint fix_order (order : list nat) (permute : list nat) : option (list nat) :=
  match order with [] => Some permute | i :: order => p ← fix_thread permute i; fix_order order p end.
(** BH:662-671 rev_permute and update_vertex_parents: [m] edges come first in [parents] *)
Definition rev_permute (order : list nat) (permute garbage : list nat) : option (list nat) :=
  par_writes (fun i => permute !! i) (fun i => Some i) order garbage.
Definition vertex_parents (m : nat) (rev : list nat) (parents : list Z) : option (list Z) :=
  mapM (fun p => i ← z_index p; r ← rev !! i; Some (Z.of_nat r)) (drop m parents).
(** BH:673-704 parents(i) of an edge *)
Definition edge_parent (rev : list nat) (i : nat) : option Z :=
  if i =? length edges - 1 then Some (-1)%Z
  else a ← keys !! i; b ← keys !! (S i);
    if (chain a =? chain b)%Z then Some (Z.of_nat (S i))
    else j ← z_index (chain a / 2); r ← rev !! j; Some (Z.of_nat r).
End Reorder.

(** ArborX_SortUtils.hpp:25-45 sortObjects: [permute] sorts the keys *)
Definition sorts (keys : list Z) (permute : list nat) (sorted : list Z) : Prop :=
  permute ≡ₚ seq 0 (length keys) /\ mapM (fun i => keys !! i) permute = Some sorted /\ Sorted Z.le sorted.

(** MST:271-305 with finalizeEdges (MST:94); [post] gets edges, dendrogram_parents and dendrogram_parent_heights *)
Definition reorder (st : dstate) (post : list (wedge W) -> list Z -> list W -> Prop) : Prop :=
  let edges := m_edges (d_m st) in
  let m := length edges in
  let sided := take (d_start st) (d_sided st) ++ replicate (d_end st - d_start st) root_chain_value ++ drop (d_end st) (d_sided st) in
  d_end st <= length (d_sided st) /\
  match mapM (edge_key edges sided) (seq 0 m) with
  | None => False
  | Some keys =>
    forall permute sorted order1 order2 garbage,
      sorts keys permute sorted -> order1 ≡ₚ seq 0 (m - 1) -> order2 ≡ₚ seq 0 m -> length garbage = m ->
    match (permute ← fix_order edges sorted order1 permute;
           rev ← rev_permute order2 permute garbage;
           vp ← vertex_parents m rev (d_parents st);
           ep ← mapM (edge_parent edges sorted rev) (seq 0 m);
           es ← mapM (fun i => edges !! i) permute;
           fe ← mapM (finalize_edge T) es;
           Some (fe, ep ++ vp, w_weight <$> es)) with
    | None => False
    | Some (es, parents, heights) => post es parents heights
    end
  end.
(** The whole constructor; the arguments after [fuel] are the order of the stores of findParents and uninitialised arrays. *)
Definition hdbscan (fuel : nat) (order par0 : list nat) (garbage : list Z) (edges0 : list (wedge W)) (map0 : list nat) (sided0 parents0 : list Z)
  (post : list (wedge W) -> list Z -> list W -> Prop) : Prop :=
  let n := t_size T in
  match findParents T order par0 with
  | None => False
  | Some par =>
      hboruvka fuel par (DState (MState (map Z.of_nat (seq 0 n) ++ garbage) (replicate n zero) edges0 0) map0 sided0 parents0 0 0 false)
        (fun st => reorder st post)
  end.
End Hdbscan.
