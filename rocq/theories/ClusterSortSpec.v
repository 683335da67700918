(** What sorting and filtering clusters should do, without reference to the model. *)
From Verif Require Import Base CrsModel CrsSpec.

(** Every point carries a label below the number of points; a negative label means noise. *)
Definition LabelsOk (labels : list Z) : Prop :=
  forall i l, labels !! i = Some l -> (l < Z.of_nat (length labels))%Z.

(** The points with label k, in increasing order. *)
Definition members (labels : list Z) (k : nat) : list nat :=
  base.filter (fun i => labels !! i = Some (Z.of_nat k)) (seq 0 (length labels)).

(** The labels borne by at least min_size points, in increasing order. *)
Definition large (labels : list Z) (min_size : nat) : list nat :=
  base.filter (fun k => min_size <= length (members labels k)) (seq 0 (length labels)).

(** The offsets and indices list, for the large labels in increasing order, their points in some order. *)
Definition ClusterLists (labels : list Z) (min_size : nat) (out : list (option nat)) (offs : list nat) : Prop :=
  exists L, Forall2 (fun l k => l ≡ₚ members labels k) L (large labels min_size) /\
    IsOffsets L offs /\ out = map Some (concat L).
