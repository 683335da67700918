(** Model of src/misc/ArborX_Heap.hpp and src/misc/ArborX_PriorityQueue.hpp.
    Arrays are lists; every read/write is bounds checked and yields [None] out of bounds
    (undefined behaviour).  Loops take fuel; running out of fuel is also [None], so a
    theorem "= Some _" excludes both.  Moves are modelled as copies. *)
From Verif Require Export Base.

Section Heap.
Context {A : Type} (comp : A -> A -> bool).

(** ArborX_Heap.hpp:24-38 isHeap: nested loops over pos and the two children. *)
Definition isHeap (l : list A) (len : nat) : bool :=
  forallb (fun pos =>
    forallb (fun child =>
      if child <? len then
        match l !! pos, l !! child with
        | Some p, Some c => negb (comp p c)
        | _, _ => false
        end
      else true) [2 * pos + 1; 2 * pos + 2]) (seq 0 len).

(** ArborX_Heap.hpp:40-54 bubbleUp.  [pos - 1] truncates at 0 here; in C++ (-1)/2 is 0 as well. *)
Fixpoint bubbleUp (fuel : nat) (l : list A) (pos top : nat) (val : A) : option (list A) :=
  match fuel with
  | O => None
  | S fuel =>
    let parent := (pos - 1) / 2 in
    if top <? pos then
      p ← l !! parent;
      if comp p val then
        l' ← wr l pos p;
        bubbleUp fuel l' parent top val
      else wr l pos val
    else wr l pos val
  end.

(** ArborX_Heap.hpp:56-70 pushHeap on the range [0,n). *)
Definition pushHeap (l : list A) (n : nat) : option (list A) :=
  if 1 <? n then
    value ← l !! (n - 1);
    bubbleUp n l (n - 1) 0 value
  else Some l.

(** ArborX_Heap.hpp:77-80 and 86-88: pick the larger child. *)
Definition pickChild (l : list A) (pos len : nat) : option nat :=
  let child := 2 * pos + 1 in
  if child + 1 <? len then
    a ← l !! child; b ← l !! (child + 1);
    Some (if comp a b then child + 1 else child)
  else Some child.

(** ArborX_Heap.hpp:72-92 bubbleDown. *)
Fixpoint bubbleDown (fuel : nat) (l : list A) (pos len : nat) (val : A) : option (list A) :=
  match fuel with
  | O => None
  | S fuel =>
    child ← pickChild l pos len;
    if child <? len then
      c ← l !! child;
      if comp val c then
        l' ← wr l pos c;
        bubbleDown fuel l' child len val
      else wr l pos val
    else wr l pos val
  end.

(** ArborX_Heap.hpp:94-109 popHeap on the range [0,n). *)
Definition popHeap (l : list A) (n : nat) : option (list A) :=
  if 1 <? n then
    value ← l !! 0;
    val ← l !! (n - 1);
    l' ← bubbleDown n l 0 (n - 1) val;
    wr l' (n - 1) value
  else Some l.

(** ArborX_Heap.hpp:111-118 makeHeap: heap_end runs from 1 to n. *)
Fixpoint makeHeap (l : list A) (n : nat) : option (list A) :=
  match n with
  | O => Some l
  | S m => l' ← makeHeap l m; pushHeap l' (S m)
  end.

(** ArborX_Heap.hpp:120-126 sortHeap: popHeap(first, last--). *)
Fixpoint sortHeap (l : list A) (n : nat) : option (list A) :=
  match n with
  | O => Some l
  | S m => l' ← popHeap l (S m); sortHeap l' m
  end.

(** ArborX_PriorityQueue.hpp:65-80 push/emplace: pushBack then pushHeap.  The container's
    capacity is [cap]; pushing beyond it is undefined behaviour (ArborX_Containers.hpp asserts). *)
Definition pq_push (cap : nat) (q : list A) (v : A) : option (list A) :=
  if length q <? cap then pushHeap (q ++ [v]) (S (length q)) else None.

(** ArborX_PriorityQueue.hpp:81-85 pop: popHeap then popBack (undefined when empty). *)
Definition pq_pop (q : list A) : option (list A) :=
  match q with
  | [] => None
  | _ => l ← popHeap q (length q); Some (take (length q - 1) l)
  end.

(** ArborX_PriorityQueue.hpp:89-95 popPush: bubbleDown from the root with the new value. *)
Definition pq_popPush (q : list A) (v : A) : option (list A) :=
  match q with
  | [] => None
  | _ => bubbleDown (S (length q)) q 0 (length q) v
  end.

(** ArborX_PriorityQueue.hpp:61-62 top = front. *)
Definition pq_top (q : list A) : option A := q !! 0.

End Heap.

(** A client history of priority-queue operations (how ArborX_TreeTraversal.hpp and
    ArborX_BruteForceImpl.hpp use the class). *)
Inductive pq_op (A : Type) := Push (v : A) | Pop | PopPush (v : A).
Arguments Push {A} v. Arguments Pop {A}. Arguments PopPush {A} v.

(** One operation of ArborX_PriorityQueue.hpp:65-95. *)
Definition pq_exec {A} (comp : A -> A -> bool) (cap : nat) (q : list A) (o : pq_op A) : option (list A) :=
  match o with
  | Push v => pq_push comp cap q v
  | Pop => pq_pop comp q
  | PopPush v => pq_popPush comp q v
  end.

(** All states along a history. *)
Fixpoint pq_run {A} (comp : A -> A -> bool) (cap : nat) (q : list A) (os : list (pq_op A)) : option (list (list A)) :=
  match os with
  | [] => Some []
  | o :: os => q' ← pq_exec comp cap q o; r ← pq_run comp cap q' os; Some (q' :: r)
  end.
