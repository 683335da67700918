(** Specification vocabulary for heaps, independent of the model. *)
From Verif Require Export Base.

(** A C++ Compare: a strict weak ordering. *)
Record StrictWeak {A} (comp : A -> A -> bool) : Prop := {
  sw_irrefl : forall x, comp x x = false;
  sw_trans : forall x y z, comp x y = true -> comp y z = true -> comp x z = true;
  sw_incomp : forall x y z, comp x y = false -> comp y z = false -> comp x z = false
}.

(** Max-heap order of the first [n] cells: no cell is less than one of its children 2i+1, 2i+2. *)
Definition HeapOrd {A} (comp : A -> A -> bool) (l : list A) (n : nat) : Prop :=
  forall i j x y, j < n -> (j = 2 * i + 1 \/ j = 2 * i + 2) ->
    l !! i = Some x -> l !! j = Some y -> comp x y = false.

(** [x] is maximal among the elements of [l]. *)
Definition Maximal {A} (comp : A -> A -> bool) (x : A) (l : list A) : Prop :=
  forall y, y ∈ l -> comp x y = false.

(** Ascending order. *)
Definition Ascending {A} (comp : A -> A -> bool) (l : list A) : Prop :=
  forall i j x y, i < j -> l !! i = Some x -> l !! j = Some y -> comp y x = false.

(** Multiset specification of a bounded priority queue history. [kind]: 0 push, 1 pop, 2 replace-top. *)
Inductive MSStep {A} (comp : A -> A -> bool) : list A -> nat -> option A -> list A -> Prop :=
| MSPush s v s' : s' ≡ₚ v :: s -> MSStep comp s 0 (Some v) s'
| MSPop s m s' : Maximal comp m s -> m :: s' ≡ₚ s -> MSStep comp s 1 None s'
| MSRepl s m v s' : Maximal comp m s -> m ∈ s -> m :: s' ≡ₚ v :: s -> MSStep comp s 2 (Some v) s'.
