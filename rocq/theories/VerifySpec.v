(** What a DBSCAN clustering is up to the names of the clusters. *)
From Verif Require Export DbscanSpec.
Local Open Scope nat_scope.

Section Spec.
Variables (n minpts : nat) (near : nat -> nat -> bool).
(** Nonnegative labels of core points, the same exactly if they are density-connected; a border point has the label of a core point near it. *)
Record Clustering (labels : list Z) : Prop := {
  cl_len : length labels = n;
  cl_nonneg : forall i l, Core n minpts near i -> labels !! i = Some l -> (0 <= l)%Z;
  cl_core : forall i j, Core n minpts near i -> Core n minpts near j -> (labels !! i = labels !! j <-> Conn (CoreEdge n minpts near) i j);
  cl_border : forall i, i < n -> ~ Core n minpts near i -> (exists j, Core n minpts near j /\ near i j = true) -> exists j, Core n minpts near j /\ near i j = true /\ labels !! i = labels !! j;
  cl_noise : forall i, i < n -> ~ Core n minpts near i -> (forall j, Core n minpts near j -> near i j = false) -> labels !! i = Some (-1)%Z }.
(** Border points are noise. *)
Record ClusteringStar (labels : list Z) : Prop := {
  cs_len : length labels = n;
  cs_nonneg : forall i l, Core n minpts near i -> labels !! i = Some l -> (0 <= l)%Z;
  cs_core : forall i j, Core n minpts near i -> Core n minpts near j -> (labels !! i = labels !! j <-> Conn (CoreEdge n minpts near) i j);
  cs_noise : forall i, i < n -> ~ Core n minpts near i -> labels !! i = Some (-1)%Z }.

(** [offset] and [indices] list, for every point, the points near it once each, in some order. *)
Definition NeighbourLists (offset indices : list nat) : Prop :=
  length offset = S n /\ offset !! 0 = Some 0 /\ offset !! n = Some (length indices) /\
  forall i, i < n -> exists o r, offset !! i = Some o /\ offset !! S i = Some (o + length r) /\ r ≡ₚ List.filter (near i) (seq 0 n) /\
    forall k j, r !! k = Some j -> indices !! (o + k) = Some j.
End Spec.

(** Points on several ranks: [ns] is the number of points per rank, a point is a rank and an index. *)
Section Mpi.
Variables (ns : list nat) (minpts : nat) (near : nat * nat -> nat * nat -> bool).
Definition AllPoints : list (nat * nat) := concat (imap (fun r m => map (pair r) (seq 0 m)) ns).
Definition CorePoint (q : nat * nat) : Prop := q ∈ AllPoints /\ minpts <= length (List.filter (near q) AllPoints).
Definition CoreLink (p q : nat * nat) : Prop := CorePoint p /\ CorePoint q /\ near p q = true.
Definition label_of (labels : list (list Z)) (q : nat * nat) : option Z := ls ← labels !! q.1; ls !! q.2.
(** A clustering of the points of all ranks, and the same except that two clusters may share a label. *)
Record WeakClusteringMpi (labels : list (list Z)) : Prop := {
  wm_nonneg : forall q l, CorePoint q -> label_of labels q = Some l -> (0 <= l)%Z;
  wm_core : forall p q, CorePoint p -> CorePoint q -> clos_refl_sym_trans _ CoreLink p q -> label_of labels p = label_of labels q;
  wm_border : forall p, p ∈ AllPoints -> ~ CorePoint p -> (exists q, CorePoint q /\ near p q = true) -> exists q, CorePoint q /\ near p q = true /\ label_of labels p = label_of labels q;
  wm_noise : forall p, p ∈ AllPoints -> ~ CorePoint p -> (forall q, CorePoint q -> near p q = false) -> label_of labels p = Some (-1)%Z }.
Record ClusteringMpi (labels : list (list Z)) : Prop := {
  cm_weak : WeakClusteringMpi labels;
  cm_core : forall p q, CorePoint p -> CorePoint q -> label_of labels p = label_of labels q -> clos_refl_sym_trans _ CoreLink p q }.

(** On rank [rank] with [m] points, [offset] and [ids] list, for every point, the points of all ranks near it once each, in some order. *)
Definition NeighbourListsMpi (rank m : nat) (offset : list nat) (ids : list (nat * nat)) : Prop :=
  length offset = S m /\ offset !! 0 = Some 0 /\ offset !! m = Some (length ids) /\
  forall i, i < m -> exists o r, offset !! i = Some o /\ offset !! S i = Some (o + length r) /\ r ≡ₚ List.filter (near (rank, i)) AllPoints /\
    forall k q, r !! k = Some q -> ids !! (o + k) = Some q.
End Mpi.
