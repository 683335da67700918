(** Specification of the union-find: connectivity of the requested merges. *)
From Verif Require Export UnionFindModel.
From Coq Require Export Relations.Relation_Operators.

(** [Linked progs a b]: some thread is asked to merge a and b. *)
Definition Linked (progs : list (list uop)) (a b : nat) : Prop := exists prog, prog ∈ progs /\ Merge a b ∈ prog.
(** Connected components: the smallest equivalence containing the links. *)
Definition Conn (R : nat -> nat -> Prop) : nat -> nat -> Prop := clos_refl_sym_trans nat R.
(** Following the labels from [x] ends in [m]. *)
Inductive RootOf (l : list nat) : nat -> nat -> Prop :=
| root_here x : l !! x = Some x -> RootOf l x x
| root_up x y m : l !! x = Some y -> x <> y -> RootOf l y m -> RootOf l x m.
(** [m] is the smallest element connected to [x]. *)
Definition LeastConn (R : nat -> nat -> Prop) (x m : nat) : Prop := Conn R x m /\ forall y, Conn R x y -> m <= y.
