(** Model of the per-query tree traversals of src/spatial/detail/ArborX_TreeTraversal.hpp and
    src/spatial/detail/ArborX_HalfTraversal.hpp, reading the tree through HappyTreeFriends.

    Each query is handled by one thread that shares only read-only data (the tree), so a traversal is a
    sequential function.  Loops take fuel ([NoFuel] when exhausted, excluded by the theorems); [UB] is an
    access outside the tree or a rope followed past the end; [Overflow] is a push beyond the capacity of a
    fixed-size local array (undefined behaviour in C++, kept apart because one property is about it).
    Node indices are [nat], ROPE_SENTINEL / SENTINEL is [None].  The user callback is a state transformer
    [cb : St -> nat -> St * bool] whose boolean is "early exit" (ArborX_Callbacks.hpp:96-118); a value is
    identified by its index in the user's input. *)
From Verif Require Export TreeConstructionModel HeapModel.

Inductive res (A : Type) := Ok (a : A) | UB | NoFuel | Overflow.
Arguments Ok {A} a. Arguments UB {A}. Arguments NoFuel {A}. Arguments Overflow {A}.

Section Spatial.
Context {V St : Type} (T : tree V).
Variable pl : nat -> bool.            (* predicate(getIndexable(value)) *)
Variable pv : V -> bool.              (* predicate(internal bounding volume) *)
Variable cb : St -> nat -> St * bool. (* _callback(predicate, value) *)

(** ArborX_TreeTraversal.hpp:97-119, the do-while loop. *)
Fixpoint spatial_loop (fuel : nat) (node : option nat) (st : St) : res St :=
  match node with
  | None => Ok st
  | Some i =>
      match fuel with
      | O => NoFuel
      | S fuel =>
          if isLeaf T i then
            match getValue T i, getRope T i with
            | Some v, Some rp =>
                if pl v then let '(st', ex) := cb st v in if ex : bool then Ok st' else spatial_loop fuel rp st'
                else spatial_loop fuel rp st
            | _, _ => UB
            end
          else
            match getVolume T i, getLeftChild T i, getRope T i with
            | Some bv, Some lc, Some rp => spatial_loop fuel (if pv bv then Some lc else rp) st
            | _, _, _ => UB
            end
      end
  end.

(** ArborX_TreeTraversal.hpp:41-95: constructor dispatch on the size for one query; the one-leaf case does
    not look at the callback's return value (nothing follows anyway). *)
Definition spatial_query (st : St) : res St :=
  match t_size T with
  | 0 => Ok st
  | 1 => match getValue T 0 with
         | Some v => Ok (if pl v then fst (cb st v) else st)
         | None => UB
         end
  | n => spatial_loop (2 * n) (Some (getRoot T)) st
  end.
End Spatial.

Section Half.
Context {V : Type} (T : tree V).
Variable pl : nat -> nat -> bool.     (* _get_predicate(leaf_value)(getIndexable(value)) *)
Variable pv : nat -> V -> bool.       (* _get_predicate(leaf_value)(bounding volume) *)

(** ArborX_HalfTraversal.hpp:58-73: the loop of the thread owning leaf value [a]; returns the pairs passed
    to the callback, in order (the callback's return value is ignored at line 63). *)
Fixpoint half_loop (fuel : nat) (a : nat) (node : option nat) : res (list (nat * nat)) :=
  match node with
  | None => Ok []
  | Some i =>
      match fuel with
      | O => NoFuel
      | S fuel =>
          if isLeaf T i then
            match getValue T i, getRope T i with
            | Some v, Some rp =>
                match half_loop fuel a rp with
                | Ok l => Ok (if pl a v then (a, v) :: l else l)
                | r => r
                end
            | _, _ => UB
            end
          else
            match getVolume T i, getLeftChild T i, getRope T i with
            | Some bv, Some lc, Some rp => half_loop fuel a (if pv a bv then Some lc else rp)
            | _, _, _ => UB
            end
      end
  end.

(** ArborX_HalfTraversal.hpp:52-57 *)
Definition half_thread (i : nat) : res (list (nat * nat)) :=
  match getValue T i, getRope T i with
  | Some a, Some rp => half_loop (2 * t_size T) a rp
  | _, _ => UB
  end.

(** ArborX_HalfTraversal.hpp:30-50: the threads that are launched. *)
Definition half_threads : list nat := if t_size T <=? 1 then [] else seq 0 (t_size T).
End Half.

Section Nearest.
Context {V D : Type} (T : tree V).
Variable ltb : D -> D -> bool.   (* operator< on distances *)
Variable zero inf : D.
Variable dl : nat -> D.          (* predicate.distance(getIndexable(value)) *)
Variable dv : V -> D.            (* predicate.distance(internal bounding volume) *)
Variable k : nat.                (* getK(predicate), already known to be >= 1 *)
Variable cap : nat.              (* the constant 64 of the local arrays *)

(** ArborX_TreeTraversal.hpp:191-198 (nearest), compares the second components *)
Definition cmp_near (a b : nat * D) : bool := ltb (snd a) (snd b).

(** ArborX_TreeTraversal.hpp:209-215 / 433-439 *)
Definition node_distance (j : nat) : option D :=
  if isLeaf T j then dl <$> getValue T j else dv <$> getVolume T j.

(** heap and radius *)
Record kbest := { kb_heap : list (nat * D); kb_radius : D }.

(** ArborX_TreeTraversal.hpp:258-265 and 278-284: insert a leaf known to be closer than the radius. *)
Definition kb_insert (b : kbest) (leaf : nat) (d : D) : option kbest :=
  h ← (if length (kb_heap b) <? k then pq_push cmp_near k (kb_heap b) (leaf, d)
       else pq_popPush cmp_near (kb_heap b) (leaf, d));
  if length h =? k then t ← pq_top h; Some {| kb_heap := h; kb_radius := snd t |}
  else Some {| kb_heap := h; kb_radius := kb_radius b |}.

(** ArborX_TreeTraversal.hpp:255-271 and 273-290: offer one child; the boolean is traverse_left/right. *)
Definition offer (b : kbest) (child : nat) (d : D) : option (kbest * bool) :=
  if ltb d (kb_radius b) then
    if isLeaf T child then b' ← kb_insert b child d; Some (b', false) else Some (b, true)
  else Some (b, false).

(** ArborX_TreeTraversal.hpp:240-324: the loop.  [stack] holds the pushed (node, distance) pairs without
    the sentinel, most recent first; pushing needs [length stack + 1 < cap] because of the sentinel. *)
Fixpoint nearest_loop (fuel : nat) (node : nat) (dn : D) (stack : list (nat * D)) (b : kbest) : res kbest :=
  match fuel with
  | O => NoFuel
  | S fuel =>
      if ltb dn (kb_radius b) then
        match getLeftChild T node, getRightChild T node with
        | Some lc, Some (Some rc) =>
            match node_distance lc, node_distance rc with
            | Some dL, Some dR =>
                match offer b lc dL with
                | Some (b1, tl) =>
                    match offer b1 rc dR with
                    | Some (b2, tr) =>
                        if tl || tr then
                          let go_left := tl && (negb (ltb dR dL) || negb tr) in
                          let node' := if go_left then lc else rc in
                          let dn' := if go_left then dL else dR in
                          if tl && tr then
                            if length stack + 1 <? cap then
                              nearest_loop fuel node' dn'
                                ((if go_left then rc else lc, if go_left then dR else dL) :: stack) b2
                            else Overflow
                          else nearest_loop fuel node' dn' stack b2
                        else
                          match stack with
                          | [] => Ok b2
                          | (n', d') :: stack' => nearest_loop fuel n' d' stack' b2
                          end
                    | None => UB
                    end
                | None => UB
                end
            | _, _ => UB
            end
        | _, _ => UB
        end
      else
        match stack with
        | [] => Ok b
        | (n', d') :: stack' => nearest_loop fuel n' d' stack' b
        end
  end.

(** ArborX_TreeTraversal.hpp:168-335 for one query: values passed to the callback, in order.  Line 174 and
    187: nothing is reported for k < 1; line 168-178: the one-leaf tree reports its value unconditionally. *)
Definition nearest_query : res (list nat) :=
  if k <? 1 then Ok [] else
  match t_size T with
  | 0 => Ok []
  | 1 => match getValue T 0 with Some v => Ok [v] | None => UB end
  | n =>
      match nearest_loop n (getRoot T) zero [] {| kb_heap := []; kb_radius := inf |} with
      | Ok b =>
          match sortHeap cmp_near (kb_heap b) (length (kb_heap b)) with
          | Some h => match mapM (fun p => getValue T (fst p)) h with Some vs => Ok vs | None => UB end
          | None => UB
          end
      | UB => UB | NoFuel => NoFuel | Overflow => Overflow
      end
  end.

(** ** Ordered spatial traversal *)
Context {St : Type}.
Variable cb : St -> nat -> St * bool.

(** ArborX_TreeTraversal.hpp:415-422: reversed comparison, closest on top. *)
Definition cmp_far (a b : nat * D) : bool := ltb (snd b) (snd a).

Definition opush (h : list (nat * D)) (p : nat * D) : res (list (nat * D)) :=
  if length h <? cap then match pq_push cmp_far cap h p with Some h' => Ok h' | None => UB end else Overflow.

(** ArborX_TreeTraversal.hpp:441-487 *)
Fixpoint ordered_loop (fuel : nat) (node : nat) (h : list (nat * D)) (st : St) : res St :=
  match fuel with
  | O => NoFuel
  | S fuel =>
      if isLeaf T node then
        match getValue T node with
        | Some v =>
            let '(st', ex) := cb st v in
            if ex : bool then Ok st' else
            match h with
            | [] => Ok st'
            | t :: _ => match pq_pop cmp_far h with Some h' => ordered_loop fuel (fst t) h' st' | None => UB end
            end
        | None => UB
        end
      else
        match getLeftChild T node, getRightChild T node with
        | Some lc, Some (Some rc) =>
            match node_distance lc, node_distance rc with
            | Some dL, Some dR =>
                let closer := if ltb dL dR then (lc, dL) else (rc, dR) in
                let further := if ltb dL dR then (rc, dR) else (lc, dL) in
                let fin node' h' := if ltb (snd further) inf then
                                      match opush h' further with
                                      | Ok h'' => ordered_loop fuel node' h'' st
                                      | UB => UB | NoFuel => NoFuel | Overflow => Overflow
                                      end
                                    else ordered_loop fuel node' h' st in
                match h with
                | t :: _ =>
                    if ltb (snd t) (snd closer) then
                      match pq_pop cmp_far h with
                      | Some h' =>
                          if ltb (snd closer) inf then
                            match opush h' closer with
                            | Ok h'' => fin (fst t) h''
                            | UB => UB | NoFuel => NoFuel | Overflow => Overflow
                            end
                          else fin (fst t) h'
                      | None => UB
                      end
                    else fin (fst closer) h
                | [] => fin (fst closer) h
                end
            | _, _ => UB
            end
        | _, _ => UB
        end
  end.

(** ArborX_TreeTraversal.hpp:346-405: dispatch; one leaf: lines 386-400 (distance != inf). *)
Definition ordered_query (deq_inf : D -> bool) (st : St) : res St :=
  match t_size T with
  | 0 => Ok st
  | 1 => match getValue T 0 with
         | Some v => Ok (if deq_inf (dl v) then st else fst (cb st v))
         | None => UB
         end
  | n => ordered_loop (2 * n) (getRoot T) [] st
  end.
End Nearest.

(** ArborX_NearestBufferProvider.hpp:51-73: offsets of the per-query heaps, an exclusive scan of k (with the
    values the user passes, possibly negative); the buffer has the size of the last offset. *)
Fixpoint buffer_offsets (acc : Z) (ks : list Z) : list Z :=
  match ks with
  | [] => [acc]
  | k :: ks => acc :: buffer_offsets (acc + k)%Z ks
  end.
(** ArborX_LinearBVH.hpp:196-211 and ArborX_TreeConstruction.hpp:41-69: the tree over one value (and the empty
    tree). *)
Definition single_tree {V} (o : nat) : tree V :=
  {| t_size := 1; t_leaves := [{| l_rope := None; l_value := o |}]; t_nodes := [] |}.
Definition empty_tree {V} : tree V := {| t_size := 0; t_leaves := []; t_nodes := [] |}.

(** ArborX_LinearBVH.hpp:171-256: the constructor, given the codes and permutation delivered by the sort; any
    schedule of the hierarchy kernel may have run. *)
Definition built {V} (join : V -> V -> V) (bot : V) (vol : nat -> V) (w : Z) (codes : list Z) (perm : list nat) (T : tree V) : Prop :=
  match perm with
  | [] => T = empty_tree
  | [o] => T = single_tree o
  | _ => let m := length codes - 1 in
         exists ts s, exec join bot vol perm m (delta_code w codes m) (init_state m) ts s /\ all_done s /\ tree_of m s = Some T
  end.
