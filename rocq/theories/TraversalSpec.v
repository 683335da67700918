(** Specification vocabulary for queries, independent of the traversal code. *)
From Verif Require Export TreeSpec TraversalModel HeapSpec.

(** [T] is the search index over the values listed by [perm] (0, 1 or more values). *)
Definition Index {V} (le : V -> V -> Prop) (vol : nat -> V) (perm : list nat) (T : tree V) : Prop :=
  (length perm <= 1 /\ t_size T = length perm /\ (forall i, getValue T i = perm !! i)) \/
  (2 <= length perm /\ ValidTree le vol perm T).

(** A predicate that holds for a value also holds for every volume enclosing it. *)
Definition PruneSafe {V} (le : V -> V -> Prop) (vol : nat -> V) (pl : nat -> bool) (pv : V -> bool) : Prop :=
  forall o v, le (vol o) v -> pl o = true -> pv v = true.

(** Calling a callback on a list of values in order until it asks to stop: [Visits cb st calls st' e] says
    that exactly [calls] were made, and [e] that the last one asked to stop. *)
Inductive Visits {St} (cb : St -> nat -> St * bool) : St -> list nat -> St -> bool -> Prop :=
| vis_nil st : Visits cb st [] st false
| vis_stop st v st' : cb st v = (st', true) -> Visits cb st [v] st' true
| vis_go st v st' l st'' e : cb st v = (st', false) -> Visits cb st' l st'' e -> Visits cb st (v :: l) st'' e.

(** Distances: a strict weak order on distances where nothing exceeds [inf]; a volume is never farther than a
    value inside it. *)
Definition DistSafe {V D} (le : V -> V -> Prop) (vol : nat -> V) (ltb : D -> D -> bool) (dl : nat -> D) (dv : V -> D) : Prop :=
  forall o v, le (vol o) v -> ltb (dl o) (dv v) = false.
Definition DistMono {V D} (le : V -> V -> Prop) (ltb : D -> D -> bool) (dv : V -> D) : Prop :=
  forall u v, le u v -> ltb (dv u) (dv v) = false.

(** [out] is a correct k-nearest answer over [vals]: distinct values, min(k, number of values at finite
    distance) of them, all at finite distance, ascending, nothing left out that is closer than something
    reported. *)
Record KNearest {D} (ltb : D -> D -> bool) (inf : D) (dl : nat -> D) (k : nat) (vals out : list nat) : Prop := {
  kn_sub : exists rest, vals ≡ₚ out ++ rest;
  kn_len : length out = min k (length (base.filter (fun o => ltb (dl o) inf = true) vals));
  kn_fin : forall o, o ∈ out -> ltb (dl o) inf = true;
  kn_asc : Ascending (fun a b => ltb (dl a) (dl b)) out;
  kn_min : forall rest, vals ≡ₚ out ++ rest -> forall a b, a ∈ out -> b ∈ rest -> ltb (dl b) (dl a) = false }.

(** Answer of an ordered query: [F] is all values at finite distance, ascending; [X] is at most one further
    value, at infinite distance, reported after them. *)
Definition OrderedAnswer {D} (ltb : D -> D -> bool) (inf : D) (dl : nat -> D) (vals F X : list nat) : Prop :=
  F ≡ₚ base.filter (fun o => ltb (dl o) inf = true) vals /\ Ascending (fun a b => ltb (dl a) (dl b)) F /\
  length X <= 1 /\ forall x, x ∈ X -> x ∈ vals /\ ltb (dl x) inf = false.
