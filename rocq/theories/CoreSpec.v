(** The distance to the k-th nearest of the points 0..n-1, independent of any search. *)
From Verif Require Export Base.
Local Open Scope nat_scope.

(** Fewer than [k] of the points are closer than [c], and [k] of them are not farther. *)
Definition KthDistance {W} (ltb : W -> W -> bool) (dist : nat -> W) (n k : nat) (c : W) : Prop :=
  length (filter (fun b => ltb (dist b) c = true) (seq 0 n)) < k /\
  k <= length (filter (fun b => ltb c (dist b) = false) (seq 0 n)).
(** [m] is the greatest of three. *)
Definition Greatest {W} (ltb : W -> W -> bool) (a b c m : W) : Prop :=
  (m = a \/ m = b \/ m = c) /\ ltb m a = false /\ ltb m b = false /\ ltb m c = false.
