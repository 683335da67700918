(** What a Morton code is, independent of how it is computed. *)
From Verif Require Export Base.
From Coq Require Export NArith.
Local Open Scope N_scope.

(** Bit b of coordinate d sits at bit b*DIM + (DIM-1-d); nothing else is set. *)
Definition Interleaves (DIM bits : nat) (xs : list N) (r : N) : Prop :=
  (forall d x b, xs !! d = Some x -> (b < bits)%nat ->
     N.testbit r (N.of_nat (b * DIM + (DIM - 1 - d))) = N.testbit x (N.of_nat b)) /\
  (forall i, (bits * DIM <= i)%nat -> N.testbit r (N.of_nat i) = false).
