(** What a compressed-row-storage query must return; independent of the model.  [R] lists, for each query in the
    order the user gave them, the values its callback emits. *)
From Verif Require Import Base.

Section Spec.
Context {A : Type}.

(** Offsets: n + 1 entries; entry q is the number of results of the queries before q. *)
Definition IsOffsets (R : list (list A)) (offset : list nat) : Prop :=
  length offset = S (length R) /\
  forall q, q <= length R -> offset !! q = Some (length (concat (take q R))).

(** The values: the slices are, query by query, rearrangements of the results, and nothing is left uninitialised
    ([None]). *)
Definition CrsAnswer (R : list (list A)) (out : list (option A)) (offset : list nat) : Prop :=
  IsOffsets R offset /\
  exists L, Forall2 (fun l r => l ≡ₚ r) L R /\ out = map Some (concat L).

(** The same, in the order in which each query emitted its values. *)
Definition CrsAnswerOrdered (R : list (list A)) (out : list (option A)) (offset : list nat) : Prop :=
  IsOffsets R offset /\ out = map Some (concat R).

(** How the insertions are distributed over threads: position i handles query perm(i).
    [InsertsAny]: each result of each query is inserted by exactly one thread (brute force, any assignment).
    [InsertsByQuery]: thread i handles position i on its own (tree traversals). *)
Definition InsertsAny (R : list (list A)) (perm : list nat) (progs : list (list (nat * A))) : Prop :=
  concat progs ≡ₚ concat (imap (fun i q => pair i <$> default [] (R !! q)) perm).
Definition InsertsByQuery (R : list (list A)) (perm : list nat) (progs : list (list (nat * A))) : Prop :=
  progs = imap (fun i q => pair i <$> default [] (R !! q)) perm.

(** A schedule that gives every thread enough steps: two per insertion. *)
Definition Fair (progs : list (list (nat * A))) (sched : list nat) : Prop :=
  forall t prog, progs !! t = Some prog -> 2 * length prog <= count_occ Nat.eq_dec sched t.
End Spec.
