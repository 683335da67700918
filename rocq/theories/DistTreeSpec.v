(** What the queries on a distributed tree must return; independent of the model. *)
From Verif Require Import Base HeapSpec.

(** [out] is k closest of [vals] (all of them when there are fewer): nothing left out is closer than anything taken. *)
Definition Closest {V D} (ltb : D -> D -> bool) (d : V -> D) (k : nat) (vals out : list V) : Prop :=
  length out = min k (length vals) /\
  exists rest, vals ≡ₚ out ++ rest /\ forall a b, a ∈ out -> b ∈ rest -> ltb (d b) (d a) = false.

(** Ascending by distance. *)
Definition Nearer {V D} (ltb : D -> D -> bool) (d : V -> D) (out : list V) : Prop :=
  Ascending (fun a b => ltb (d a) (d b)) out.
