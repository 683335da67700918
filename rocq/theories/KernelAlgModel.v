(** Model of src/kokkos_ext/ArborX_KokkosExtKernelStdAlgorithms.hpp,
    src/misc/ArborX_SortUtils.hpp and src/misc/ArborX_Utils.hpp.
    Iterators are indices into a list; [None] is an out-of-bounds access or fuel exhaustion. *)
From Verif Require Export Base.

Section Kernel.
Context {A : Type} (lt : A -> A -> bool). (* operator< of the element type *)

(** kokkos_swap on two cells. *)
Definition swap (l : list A) (i j : nat) : option (list A) :=
  x ← l !! i; y ← l !! j; Some (<[i:=y]> (<[j:=x]> l)).

(** KernelStdAlgorithms.hpp:33-39, the loop [while (it_j < right)]. *)
Fixpoint partitionLoop (fuel : nat) (l : list A) (it_i it_j right : nat) : option (list A * nat) :=
  match fuel with
  | O => None
  | S fuel =>
    if it_j <? right then
      xj ← l !! it_j; xr ← l !! right;
      if lt xj xr then
        l' ← swap l it_j it_i;
        partitionLoop fuel l' (S it_i) (S it_j) right
      else partitionLoop fuel l it_i (S it_j) right
    else Some (l, it_i)
  end.

(** KernelStdAlgorithms.hpp:27-43, the Lomuto partition lambda. *)
Definition lomutoPartition (l : list A) (left right pivot : nat) : option (list A * nat) :=
  let right := right - 1 in
  l1 ← swap l pivot right;
  r ← partitionLoop (S right) l1 left left right;
  let '(l2, it_i) := r in
  l3 ← swap l2 it_i right;
  Some (l3, it_i).

(** KernelStdAlgorithms.hpp:46-62, the quickselect loop. *)
Fixpoint quickselect (fuel : nat) (l : list A) (first nth last : nat) : option (list A) :=
  match fuel with
  | O => None
  | S fuel =>
    if first =? last then Some l else
    r ← lomutoPartition l first last nth;
    let '(l', pivot) := r in
    if pivot =? nth then Some l'
    else if nth <? pivot then quickselect fuel l' first nth pivot
    else quickselect fuel l' (S pivot) nth last
  end.

(** KernelStdAlgorithms.hpp:20-63 nth_element. *)
Definition nth_element (l : list A) (first nth last : nat) : option (list A) :=
  if (first =? last) || (nth =? last) then Some l
  else quickselect (S (last - first)) l first nth last.

(** KernelStdAlgorithms.hpp:65-84 upper_bound. *)
Fixpoint upper_bound_loop (fuel : nat) (l : list A) (first count : nat) (value : A) : option nat :=
  match fuel with
  | O => None
  | S fuel =>
    if 0 <? count then
      let step := count / 2 in
      x ← l !! (first + step);
      if negb (lt value x) then upper_bound_loop fuel l (first + (step + 1)) (count - (step + 1)) value
      else upper_bound_loop fuel l first step value
    else Some first
  end.
Definition upper_bound (l : list A) (first last : nat) (value : A) : option nat :=
  upper_bound_loop (S (last - first)) l first (last - first) value.

(** KernelStdAlgorithms.hpp:86-105 lower_bound. *)
Fixpoint lower_bound_loop (fuel : nat) (l : list A) (first count : nat) (value : A) : option nat :=
  match fuel with
  | O => None
  | S fuel =>
    if 0 <? count then
      let step := count / 2 in
      x ← l !! (first + step);
      if lt x value then lower_bound_loop fuel l (first + (step + 1)) (count - (step + 1)) value
      else lower_bound_loop fuel l first step value
    else Some first
  end.
Definition lower_bound (l : list A) (first last : nat) (value : A) : option nat :=
  lower_bound_loop (S (last - first)) l first (last - first) value.

End Kernel.

(** A parallel_for whose iteration [i] performs the single write [out(dst i) = val i]; [order] is the
    order in which the iterations happen to execute. [None]: out of bounds read or write. *)
Fixpoint par_writes {A} (dst : nat -> option nat) (val : nat -> option A)
    (order : list nat) (out : list A) : option (list A) :=
  match order with
  | [] => Some out
  | i :: order =>
    d ← dst i; v ← val i; out' ← wr out d v; par_writes dst val order out'
  end.

(** SortUtils.hpp:47-65 applyInversePermutation: output(permutation(i)) = input(i). *)
Definition applyInversePermutation {A} (order : list nat) (perm : list nat) (inp out : list A) : option (list A) :=
  if (length perm =? length inp) && (length out =? length inp) then
    par_writes (fun i => perm !! i) (fun i => inp !! i) order out
  else None.

(** SortUtils.hpp:69-87 applyPermutation: output(i) = input(permutation(i)). *)
Definition applyPermutation {A} (order : list nat) (perm : list nat) (inp out : list A) : option (list A) :=
  if (length perm =? length inp) && (length out =? length inp) then
    par_writes (fun i => Some i) (fun i => p ← perm !! i; inp !! p) order out
  else None.

(** Utils.hpp:39-44, the flag [is_cell_first_index]. *)
Definition first_flag {A} (eqb : A -> A -> bool) (view : list A) (i : nat) : option bool :=
  if (i =? 0) || (i =? length view) then Some true
  else x ← view !! i; y ← view !! (i - 1); Some (negb (eqb x y)).

(** Number of flags set before index i: what parallel_scan passes as [update] (scan specification). *)
Fixpoint scan_before {A} (eqb : A -> A -> bool) (view : list A) (i : nat) : nat :=
  match i with
  | O => 0
  | S i => scan_before eqb view i +
      match first_flag eqb view i with Some true => 1 | _ => 0 end
  end.

(** Utils.hpp:24-54 computeOffsetsInOrderedView. The iterations with the flag set write
    offsets(update) = i, in any [order] of execution; finally the view is resized to the total. *)
Definition computeOffsetsInOrderedView {A} (eqb : A -> A -> bool) (order : list nat)
    (view : list A) (scratch : list nat) : option (list nat) :=
  let n := length view in
  if length scratch =? S n then
    let flagged := List.filter (fun i => match first_flag eqb view i with Some true => true | _ => false end) order in
    out ← par_writes (fun i => Some (scan_before eqb view i)) (fun i => Some i) flagged scratch;
    Some (take (scan_before eqb view (S n)) out)
  else None.
