(** Model of src/spatial/detail/ArborX_TreeVisualization.hpp (TV), with the stack of src/misc/ArborX_Stack.hpp.

    Output streams are lists of statements; formatting of the text is left out (a label is "l" or "i" followed by a
    number, so labels of equal constructor and number are the same text and all others differ).  The TikZ visitor
    differs from the Graphviz one only in what it prints per node and is represented by the list of visited nodes. *)
From Verif Require Export TraversalModel KernelAlgModel.

Section Viz.
Context {V : Type} (T : tree V).

(** TV:134-151 visitAllIterative: the nodes passed to the visitor, in order.  [stack] is the stack, top first; its
    container is StaticVector<int, 64> (Stack.hpp:26, Containers.hpp:47), whose pushBack only asserts in debug
    builds: a push beyond [cap] is [Overflow].  The left child is pushed before the right one. *)
Fixpoint visit_loop (cap fuel : nat) (stack : list nat) : res (list nat) :=
  match stack with
  | [] => Ok []
  | node :: stack =>
      match fuel with
      | O => NoFuel
      | S fuel =>
          let rest :=
            if isLeaf T node then visit_loop cap fuel stack
            else match getLeftChild T node, getRightChild T node with
                 | Some lc, Some (Some rc) =>
                     if length stack + 2 <=? cap then visit_loop cap fuel (rc :: lc :: stack) else Overflow
                 | _, _ => UB
                 end in
          match rest with Ok l => Ok (node :: l) | r => r end
      end
  end.
(** TV:137-138; getRoot asserts more than one value in debug builds (HappyTreeFriends.hpp:25-30) *)
Definition visit_all (cap : nat) : res (list nat) := visit_loop cap (2 * t_size T) [getRoot T].

(** TV:36-45 getNodeLabel *)
Inductive label := Leaf (value : nat) | Internal (node : nat).
Definition node_label (node : nat) : option label :=
  if isLeaf T node then Leaf <$> getValue T node else Some (Internal node).
(** TV:47-58 and 68-105: statements of the Graphviz visitor; the booleans are the attributes [leaf] and [pendant] *)
Inductive stmt := NodeStmt (l : label) (leaf : bool) | EdgeStmt (a b : label) (pendant : bool).
Definition edge_stmt (node child : nat) : option stmt :=
  a ← node_label node; b ← node_label child; Some (EdgeStmt a b (isLeaf T child)).
Definition graphviz_visit (node : nat) : option (list stmt) :=
  a ← node_label node;
  if isLeaf T node then Some [NodeStmt a true]
  else lc ← getLeftChild T node; rc ← mjoin (getRightChild T node);
       e1 ← edge_stmt node lc; e2 ← edge_stmt node rc; Some [NodeStmt a false; e1; e2].
Definition graphviz (cap : nat) : res (list stmt) :=
  match visit_all cap with
  | Ok nodes => match mapM graphviz_visit nodes with Some l => Ok (concat l) | None => UB end
  | UB => UB | NoFuel => NoFuel | Overflow => Overflow
  end.

(** TV:192-196 compute_permutation: iterations of the kernel in any [order], [garbage] is the uninitialised view *)
Definition viz_permute (order garbage : list nat) : option (list nat) :=
  par_writes (fun i => getValue T i) (fun i => Some i) order garbage.
(** TV:153-166, 168-207 visit: the visitor gets permute(index) for every value the nearest traversal reports *)
Definition visit_reported (order garbage values : list nat) : option (list nat) :=
  permute ← viz_permute order garbage; mapM (fun v => permute !! v) values.
End Viz.
