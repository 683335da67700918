(** Model of the minimum spanning tree, /repo/src/cluster/ArborX_MinimumSpanningTree.hpp (cited as MST) in mode
    BoruvkaMode::MST, with /repo/src/cluster/detail/ArborX_BoruvkaHelpers.hpp (cited as BH).

    Weights are abstract with the comparison [ltb]; a <= b is the negation of b < a, which is the float comparison when
    NaN is excluded.  Every kernel is a machine whose threads take atomic steps in any order; an array that a kernel
    only reads is a parameter of its machine.  A step is [None] for an access outside an array and for a push beyond
    the local stack (cap = 64).  Node indices are [nat], labels are [Z] as in LabelModel.v. *)
From Verif Require Export LabelModel EdgeModel TraversalModel.
Local Open Scope nat_scope.

(** A label used as an array index. *)
Definition label_index (z : Z) : option nat := if (0 <=? z)%Z then Some (Z.to_nat z) else None.

Section Boruvka.
Context {V W : Type} (T : tree V) (ltb : W -> W -> bool) (zero inf : W).
Variable dl : nat -> nat -> W.           (* distance(point, point), by value index *)
Variable dv : nat -> V -> W.             (* distance(point, bounding volume) *)
Variable metric : nat -> nat -> W -> W.  (* _metric *)
Variable cap : nat.
Variable shared : bool.                  (* UseSharedRadii, MST:155-160 *)
Variable bounded : bool.                 (* use_lower_bounds, MST:145-150 *)
Definition leb (a b : W) : bool := negb (ltb b a).
(** Kokkos::atomic_min *)
Definition wmin (old new : W) : W := if ltb new old then new else old.
Definition wmax (a b : W) : W := if ltb a b then b else a.

Section Round.
Variable labels : list Z.  (* after reduceLabels; only the last kernel writes it *)
Definition component (i : nat) : option nat := z ← labels !! i; label_index z.

(** ** BH:738-783 resetSharedRadii: thread i executes two atomic_min. *)
Definition radius_prog (i : nat) : option (list (nat * W)) :=
  li ← labels !! i; lj ← labels !! (S i);
  if (li =? lj)%Z then Some []
  else vi ← getValue T i; vj ← getValue T (S i);
       ci ← label_index li; cj ← label_index lj;
       let r := metric vi vj (dl vi vj) in Some [(ci, r); (cj, r)].
Record rstate := RState { r_radii : list W; r_thr : list (list (nat * W)) }.
Definition rstep (s : rstate) (t : nat) : option rstate :=
  prog ← r_thr s !! t;
  match prog with
  | [] => None
  | (c, r) :: rest => old ← r_radii s !! c; Some (RState (<[c := wmin old r]> (r_radii s)) (<[t := rest]> (r_thr s)))
  end.
Definition rlive (s : rstate) (t : nat) : Prop := exists p rest, r_thr s !! t = Some (p :: rest).

(** ** BH:107-332 FindComponentNearestNeighbors, thread i. [r] is the local copy of the radius (191-192), used when radii
    are not shared. *)
Inductive npc :=
| NStart                                                                        (* 157-205 *)
| NNode (node : nat) (dn : W) (stack : list (nat * W)) (best : dedge W) (r : W) (* 227 *)
| NLeft (node : nat) (stack : list (nat * W)) (best : dedge W) (r : W)          (* 231-258 *)
| NLeftMin (node : nat) (stack : list (nat * W)) (best : dedge W) (r : W)       (* 248-251 *)
| NRight (node : nat) (stack : list (nat * W)) (best : dedge W) (r : W) (tl : bool)     (* 261-283 *)
| NRightMin (node : nat) (stack : list (nat * W)) (best : dedge W) (r : W) (tl : bool)  (* 273-276 *)
| NRead (best : dedge W)                                                        (* 322-323 *)
| NMin (best : dedge W)                                                         (* 325-326 *)
| NWrite (best : dedge W)                                                       (* 328 *)
| NDone.
Record nstate := NState { n_radii : list W; n_weights : list W; n_edges : list (dedge W); n_thr : list npc }.

Definition distance2node (i j : nat) : option W := v ← getValue T i; node_distance T (dl v) (dv v) j.
(** BH:236-258 and 261-283: offer one child; [true]: traverse, an edge: the new current_best. *)
Definition consider (i c : nat) (best : dedge W) (child : nat) (d rad : W) : option (bool * option (dedge W)) :=
  lab ← labels !! child;
  if negb (Z.of_nat c =? lab)%Z && leb d rad then
    if isLeaf T child then
      vi ← getValue T i; vj ← getValue T child;
      let e := mk_edge (N.of_nat i) (N.of_nat child) (metric vi vj d) in
      Some (false, if dedge_lt ltb e best then Some e else None)
    else Some (true, None)
  else Some (false, None).
(** BH:286-317: the next node, from the stack (most recent first, without the sentinel) or a child *)
Definition pop (stack : list (nat * W)) (best : dedge W) (r : W) : npc :=
  match stack with [] => NRead best | (node, d) :: stack => NNode node d stack best r end.
Definition advance (i node : nat) (stack : list (nat * W)) (best : dedge W) (r : W) (tl tr : bool) : option npc :=
  if negb tl && negb tr then Some (pop stack best r)
  else
    lc ← getLeftChild T node; rc ← mjoin (getRightChild T node);
    dL ← distance2node i lc; dR ← distance2node i rc;
    let go_left := tl && (leb dL dR || negb tr) in
    let node' := if go_left then lc else rc in
    let dn' := if go_left then dL else dR in
    if tl && tr then
      if length stack + 1 <? cap then Some (NNode node' dn' ((if go_left then rc else lc, if go_left then dR else dL) :: stack) best r)
      else None
    else Some (NNode node' dn' stack best r).

Variable lower : list W.  (* lower_bounds, read here *)
Definition nstep (s : nstate) (i : nat) : option nstate :=
  pc ← n_thr s !! i;
  c ← component i;
  let goto pc := NState (n_radii s) (n_weights s) (n_edges s) (<[i := pc]> (n_thr s)) in
  let radius r := if shared then n_radii s !! c else Some r in
  match pc with
  | NStart =>
      rc ← n_radii s !! c;
      skip ← (if bounded then b ← lower !! i; Some (negb (leb b rc)) else Some false);
      Some (goto (if skip : bool then NDone else NNode (getRoot T) zero [] (no_edge inf) rc))
  | NNode node dn stack best r =>
      rad ← radius r; Some (goto (if leb dn rad then NLeft node stack best r else pop stack best r))
  | NLeft node stack best r =>
      lc ← getLeftChild T node; d ← distance2node i lc; rad ← radius r;
      '(tl, cand) ← consider i c best lc d rad;
      Some (goto (match cand with Some e => NLeftMin node stack e r | None => NRight node stack best r tl end))
  | NLeftMin node stack best r =>
      if shared then
        old ← n_radii s !! c;
        Some (NState (<[c := wmin old (weight best)]> (n_radii s)) (n_weights s) (n_edges s) (<[i := NRight node stack best r false]> (n_thr s)))
      else Some (goto (NRight node stack best (weight best) false))
  | NRight node stack best r tl =>
      rc ← mjoin (getRightChild T node); d ← distance2node i rc; rad ← radius r;
      '(tr, cand) ← consider i c best rc d rad;
      match cand with
      | Some e => Some (goto (NRightMin node stack e r tl))
      | None => pc ← advance i node stack best r tl tr; Some (goto pc)
      end
  | NRightMin node stack best r tl =>
      if shared then
        old ← n_radii s !! c;
        pc ← advance i node stack best r tl false;
        Some (NState (<[c := wmin old (weight best)]> (n_radii s)) (n_weights s) (n_edges s) (<[i := pc]> (n_thr s)))
      else pc ← advance i node stack best (weight best) tl false; Some (goto pc)
  | NRead best =>
      w ← n_weights s !! c;
      Some (goto (if ltb (weight best) inf && leb (weight best) w then NMin best else NDone))
  | NMin best =>
      old ← n_weights s !! c;
      let new := wmin old (weight best) in
      Some (NState (n_radii s) (<[c := new]> (n_weights s)) (n_edges s) (<[i := if weq ltb new (weight best) then NWrite best else NDone]> (n_thr s)))
  | NWrite best =>
      edges ← wr (n_edges s) i best;
      Some (NState (n_radii s) (n_weights s) edges (<[i := NDone]> (n_thr s)))
  | NDone => None
  end.
Definition nlive (s : nstate) (t : nat) : Prop := exists pc, n_thr s !! t = Some pc /\ pc <> NDone.

(** ** BH:361-399 retrieveEdges *)
Variable weights : list W.
(** 368-382: thread i touches edges(i) only *)
Definition reset_component_edges (edges : list (dedge W)) : option (list (dedge W)) :=
  mapM (fun '(i, e) =>
    li ← labels !! i;
    if negb (Z.of_nat i =? li)%Z then Some e
    else w ← weights !! i; Some (if weq ltb (weight e) w then e else DEdge ullong_max w)) (zip (seq 0 (length edges)) edges).
(** 383-398: thread i reads edges(i), which is also written when i is a component, then executes atomic_min *)
Inductive epc := EStart | EMin (c : nat) (d : N) | EDone.
Record estate := EState { e_edges : list (dedge W); e_thr : list epc }.
Definition estep (s : estate) (i : nat) : option estate :=
  pc ← e_thr s !! i;
  match pc with
  | EStart =>
      c ← component i; w ← weights !! c; e ← e_edges s !! i;
      Some (EState (e_edges s) (<[i := if weq ltb (weight e) w then EMin c (directed_edge e) else EDone]> (e_thr s)))
  | EMin c d =>
      e ← e_edges s !! c;
      Some (EState (<[c := DEdge (N.min (directed_edge e) d) (weight e)]> (e_edges s)) (<[i := EDone]> (e_thr s)))
  | EDone => None
  end.
Definition elive (s : estate) (t : nat) : Prop := exists pc, e_thr s !! t = Some pc /\ pc <> EDone.

(** ** BH:345-359 updateLowerBounds: thread i touches lower_bounds(i) only *)
Variable out : list (dedge W).  (* component_out_edges, not written any more *)
Definition update_lower_bounds : option (list W) :=
  mapM (fun '(i, b) => c ← component i; e ← out !! c; Some (wmax b (weight e))) (zip (seq 0 (length lower)) lower).

(** ** BH:415-428 computeNextComponent *)
Definition next_of (ls : list Z) (c : nat) : option nat := e ← out !! c; z ← ls !! N.to_nat (target (directed_edge e)); label_index z.
Definition resolve (c next next_next : nat) : nat := if negb (next_next =? c) then next else Nat.min c next.
Definition next_component (c : nat) : option nat :=
  next ← next_of labels c; next_next ← next_of labels next; Some (resolve c next next_next).

(** ** BH:448-464 the kernel update_unidirectional_edges *)
Inductive apc := AStart | AInc (e : wedge W) | AWrite (back : nat) (e : wedge W) | ADone.
Record astate := AState { a_num : nat; a_edges : list (wedge W); a_thr : list apc }.
Definition astep (s : astate) (i : nat) : option astate :=
  pc ← a_thr s !! i;
  match pc with
  | AStart =>
      c ← component i;
      pc ← (if negb (i =? c) then Some ADone
            else next ← next_component c;
                 if next =? c then Some ADone else e ← out !! i; Some (AInc (to_weighted e)));
      Some (AState (a_num s) (a_edges s) (<[i := pc]> (a_thr s)))
  | AInc e => Some (AState (S (a_num s)) (a_edges s) (<[i := AWrite (a_num s) e]> (a_thr s)))
  | AWrite back e => edges ← wr (a_edges s) back e; Some (AState (a_num s) edges (<[i := ADone]> (a_thr s)))
  | ADone => None
  end.
Definition alive (s : astate) (t : nat) : Prop := exists pc, a_thr s !! t = Some pc /\ pc <> ADone.

(** ** BH:430-446 the kernel update_labels: reads labels that other threads overwrite *)
Inductive bpc := BStart | BNext (prev : nat) | BNext2 (prev next : nat) | BWrite (final : nat) | BDone.
Record bstate := BState { b_labels : list Z; b_thr : list bpc }.
Definition bstep (s : bstate) (i : nat) : option bstate :=
  pc ← b_thr s !! i;
  let goto pc := BState (b_labels s) (<[i := pc]> (b_thr s)) in
  match pc with
  | BStart => z ← b_labels s !! i; c ← label_index z; Some (goto (BNext c))
  | BNext prev => next ← next_of (b_labels s) prev; Some (goto (BNext2 prev next))
  | BNext2 prev next =>
      next_next ← next_of (b_labels s) next;
      let res := resolve prev next next_next in
      Some (goto (if res =? prev then BWrite res else BNext res))
  | BWrite f => ls ← wr (b_labels s) i (Z.of_nat f); Some (BState ls (<[i := BDone]> (b_thr s)))
  | BDone => None
  end.
Definition blive (s : bstate) (t : nat) : Prop := exists pc, b_thr s !! t = Some pc /\ pc <> BDone.
End Round.
Definition llive (s : lstate) (t : nat) : Prop := exists pc, ls_pcs s !! t = Some pc /\ pc <> LDone.

(** ** MST:192-269 one iteration of the loop.  State: labels, lower_bounds, edges, num_edges. *)
Record mstate := MState { m_labels : list Z; m_lower : list W; m_edges : list (wedge W); m_num : nat }.
(** MST:200-219 up to the search for the shortest outgoing edges; [k] continues with the labels, component_out_edges and
    lower_bounds *)
Definition find_edges (par : list nat) (labels0 : list Z) (lower0 : list W) (k : list Z -> list (dedge W) -> list W -> Prop) : Prop :=
  let n := t_size T in
  Kernel (lstep n par) llive (linit n labels0) (fun s1 => let labels := ls_labels s1 in
  match mapM (radius_prog labels) (seq 0 (n - 1)) with
  | None => False
  | Some progs =>
    Kernel rstep rlive (RState (replicate n inf) progs) (fun s2 =>
    Kernel (nstep labels lower0) nlive (NState (r_radii s2) (replicate n inf) (replicate n (no_edge inf)) (replicate n NStart)) (fun s3 =>
    match reset_component_edges labels (n_weights s3) (n_edges s3) with
    | None => False
    | Some edges =>
      Kernel (estep labels (n_weights s3)) elive (EState edges (replicate n EStart)) (fun s4 => let out := e_edges s4 in
      match (if bounded then update_lower_bounds labels lower0 out else Some lower0) with
      | None => False
      | Some lower => k labels out lower
      end)
    end))
  end).
Definition round (par : list nat) (st : mstate) (post : mstate -> Prop) : Prop :=
  let n := t_size T in
  find_edges par (m_labels st) (m_lower st) (fun labels out lower =>
    Kernel (astep labels out) alive (AState (m_num st) (m_edges st) (replicate n AStart)) (fun s5 =>
    Kernel (bstep out) blive (BState labels (replicate n BStart)) (fun s6 =>
      post (MState (b_labels s6) lower (a_edges s5) (a_num s5))))).
(** The loop; running out of fuel is a failure. *)
Fixpoint boruvka (fuel : nat) (par : list nat) (st : mstate) (post : mstate -> Prop) : Prop :=
  match fuel with
  | 0 => False
  | S fuel => round par st (fun st => if (Z.of_nat (t_size T) - Z.of_nat (m_num st) <=? 1)%Z then post st else boruvka fuel par st post)
  end.
(** BH:477-492 finalizeEdges: thread i touches edges(i) only *)
Definition finalize_edge (e : wedge W) : option (wedge W) :=
  s ← getValue T (N.to_nat (w_source e)); t ← getValue T (N.to_nat (w_target e)); Some (WEdge (N.of_nat s) (N.of_nat t) (w_weight e)).
(** MST:43-97 after the construction of the tree, with MST:104-122.  [order] is the order of the stores of findParents;
    [par0], [garbage] and [edges0] are uninitialised arrays. *)
Definition mst (fuel : nat) (order par0 : list nat) (garbage : list Z) (edges0 : list (wedge W)) (post : list (wedge W) -> Prop) : Prop :=
  let n := t_size T in
  match findParents T order par0 with
  | None => False
  | Some par =>
      boruvka fuel par (MState (map Z.of_nat (seq 0 n) ++ garbage) (replicate n zero) edges0 0) (fun st =>
        match mapM finalize_edge (m_edges st) with None => False | Some es => post es end)
  end.
End Boruvka.
(** ArborX_MutualReachabilityDistance.hpp:52-65 and 67-76 *)
Definition euclidean {W} (_ _ : nat) (d : W) : W := d.
Definition mutual_reachability {W} (ltb : W -> W -> bool) (core : nat -> W) (i j : nat) (d : W) : W := wmax ltb (wmax ltb (core i) (core j)) d.
