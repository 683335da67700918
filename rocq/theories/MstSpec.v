(** Specification of minimum spanning trees on the vertices 0..n-1, independent of any algorithm. *)
From Verif Require Export UnionFindSpec HeapSpec.
From Coq Require Export QArith.
Local Open Scope nat_scope.

(** An edge list as a relation; [Conn] makes it undirected. *)
Definition InList (S : list (nat * nat)) (a b : nat) : Prop := (a, b) ∈ S.
(** Every two vertices are connected by edges of the list, and edges join different vertices. *)
Definition Spans (n : nat) (S : list (nat * nat)) : Prop :=
  (forall a b, (a, b) ∈ S -> a < n /\ b < n /\ a <> b) /\ (forall a b, a < n -> b < n -> Conn (InList S) a b).
(** A spanning tree: connects all vertices with n - 1 edges. *)
Definition SpanningTree (n : nat) (S : list (nat * nat)) : Prop := Spans n S /\ length S = n - 1.
(** Sum of the weights. *)
Definition total_weight (val : nat -> nat -> Q) (S : list (nat * nat)) : Q := foldr (fun e s => (val e.1 e.2 + s)%Q) 0%Q S.
(** No connected graph weighs less. *)
Definition MinimumSpanningTree (n : nat) (val : nat -> nat -> Q) (F : list (nat * nat)) : Prop :=
  SpanningTree n F /\ forall S, Spans n S -> (total_weight val F <= total_weight val S)%Q.
(** A tie-broken order on unordered pairs of vertices. *)
Definition SamePair (p q : nat * nat) : Prop := q = p \/ q = (p.2, p.1).
Record PairOrder (n : nat) (lt : nat * nat -> nat * nat -> bool) : Prop := {
  po_weak : StrictWeak lt;
  po_swap : forall p, lt p (p.2, p.1) = false;
  po_total : forall p q, p.1 < n -> p.2 < n -> q.1 < n -> q.2 < n -> p.1 <> p.2 -> q.1 <> q.2 ->
    lt p q = false -> lt q p = false -> SamePair p q }.
(** The pair is an edge of the unique minimum spanning tree for that order: no path of smaller edges joins its ends. *)
Definition Kruskal (n : nat) (lt : nat * nat -> nat * nat -> bool) (p : nat * nat) : Prop :=
  p.1 < n /\ p.2 < n /\ p.1 <> p.2 /\ ~ Conn (fun a b => a < n /\ b < n /\ lt (a, b) p = true) p.1 p.2.
