(** What a triangulated surface is: the corners of a triangle are vertices. *)
From Verif Require Export Base.
From stdpp Require Export relations.
Local Open Scope nat_scope.

Definition corners (t : nat * nat * nat) : list nat := let '(a, b, c) := t in [a; b; c].
(** The number of triangles with both corners *)
Definition around (ts : list (nat * nat * nat)) (u v : nat) : nat :=
  length (List.filter (fun t => bool_decide (u ∈ corners t) && bool_decide (v ∈ corners t)) ts).
(** [n] vertices, each of them used; the triangles have three different corners; two of them are the corners of one or two triangles, or not joined. *)
Record Surface (n : nat) (ts : list (nat * nat * nat)) : Prop := {
  su_range : forall t v, t ∈ ts -> v ∈ corners t -> v < n;
  su_distinct : forall t, t ∈ ts -> NoDup (corners t);
  su_used : forall v, v < n -> exists t, t ∈ ts /\ v ∈ corners t;
  su_around : forall u v, u <> v -> around ts u v <= 2;
  su_once : forall i j t t', ts !! i = Some t -> ts !! j = Some t' -> corners t ≡ₚ corners t' -> i = j }.
(** Without boundary: no two vertices are the corners of a single triangle. *)
Definition Closed (ts : list (nat * nat * nat)) : Prop := forall u v, u <> v -> around ts u v <> 1.
(** Triangles with two common corners are neighbours; all triangles can be reached from one another. *)
Definition Neighbours (ts : list (nat * nat * nat)) (i j : nat) : Prop :=
  exists t t' u v, ts !! i = Some t /\ ts !! j = Some t' /\ u <> v /\ u ∈ corners t /\ v ∈ corners t /\ u ∈ corners t' /\ v ∈ corners t'.
Definition Connected (ts : list (nat * nat * nat)) : Prop :=
  forall i j, i < length ts -> j < length ts -> rtc (Neighbours ts) i j.
