(** What a DBSCAN clustering is, independently of the implementation. *)
From Verif Require Export UnionFindSpec.
From Coq Require Export ZArith.
Local Open Scope nat_scope.

Section Spec.
Variables (n minpts : nat) (near : nat -> nat -> bool).
(** at least [minpts] points (itself included) within eps *)
Definition Core (i : nat) : Prop := i < n /\ minpts <= length (List.filter (near i) (seq 0 n)).
Definition CoreEdge (a b : nat) : Prop := Core a /\ Core b /\ near a b = true.

(** Core points: labelled by the smallest core point of their cluster, so two of them have the same label exactly if they
    are density-connected. *)
Definition CoreLabels (labels : list Z) : Prop :=
  (forall i, Core i -> exists m, LeastConn CoreEdge i m /\ labels !! i = Some (Z.of_nat m)) /\
  (forall i j, Core i -> Core j -> (labels !! i = labels !! j <-> Conn CoreEdge i j)).

Record ValidDBSCAN (labels : list Z) : Prop := {
  vd_len : length labels = n;
  vd_core : CoreLabels labels;
  vd_border : forall i, i < n -> ~ Core i -> (exists j, Core j /\ near i j = true) ->
                exists j, Core j /\ near i j = true /\ labels !! i = labels !! j;
  vd_noise : forall i, i < n -> ~ Core i -> (forall j, Core j -> near i j = false) -> labels !! i = Some (-1)%Z }.

Record ValidDBSCANStar (labels : list Z) : Prop := {
  vs_len : length labels = n;
  vs_core : CoreLabels labels;
  vs_noise : forall i, i < n -> ~ Core i -> labels !! i = Some (-1)%Z }.
End Spec.
