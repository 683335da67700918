(** The parallel reductions of the library with their own functors, for every way Kokkos may split and combine the iterations.
    Sources: /repo/src/kokkos_ext/ArborX_KokkosExtMinMaxReduce.hpp (MM), /repo/src/spatial/detail/ArborX_CrsGraphWrapperImpl.hpp
    (Crs), /repo/src/cluster/detail/ArborX_FDBSCANDenseBox.hpp (DB).  The reduction of bounding boxes is in BoxModel.v. *)
From Verif Require Import Base CrsModel ReorderModel.

(** What Kokkos::parallel_reduce may do: start a partial result from the identity of the reducer, apply the functor to a partial
    result and an iteration, join two partial results.  Kokkos is not part of /repo: this is its documented contract. *)
Inductive rplan :=
| P_start
| P_apply (p : rplan) (i : nat)
| P_join (dest src : rplan).
(** The iterations of a plan; a plan for n iterations has each of them once. *)
Fixpoint iterations (p : rplan) : list nat :=
  match p with P_start => [] | P_apply p i => iterations p ++ [i] | P_join d s => iterations d ++ iterations s end.
Definition plan_of (n : nat) (p : rplan) : Prop := iterations p ≡ₚ seq 0 n.
(** [None]: undefined behaviour in the functor or in the join. *)
Fixpoint run_plan {A} (functor : nat -> A -> option A) (join : A -> A -> option A) (init : A) (p : rplan) : option A :=
  match p with
  | P_start => Some init
  | P_apply p i => u ← run_plan functor join init p; functor i u
  | P_join d s => u ← run_plan functor join init d; v ← run_plan functor join init s; join u v
  end.

Section MinMax.
Context {T : Type} (ltb : T -> T -> bool) (v : list T).
(** MM:46-56, the functor of minmax_reduce; out of bounds access to the view is undefined. *)
Definition minmax_functor (i : nat) (u : T * T) : option (T * T) :=
  val ← v !! i;
  let partial_min := if ltb val u.1 then val else u.1 in
  let partial_max := if ltb u.2 val then val else u.2 in
  Some (partial_min, partial_max).
(** Kokkos::Min and Kokkos::Max join with < *)
Definition minmax_join (u w : T * T) : option (T * T) := Some (if ltb w.1 u.1 then w.1 else u.1, if ltb u.2 w.2 then w.2 else u.2).
(** MM:36-58.  [ids]: the values Kokkos::Min and Kokkos::Max start from.  MM:37 stops the program for an empty view ([None] too). *)
Definition minmax_reduce (ids : T * T) (p : rplan) : option (T * T) :=
  if length v =? 0 then None else run_plan minmax_functor minmax_join ids p.
(** MM:79-82 and 66-84 min_reduce *)
Definition min_reduce (id : T) (p : rplan) : option T :=
  if length v =? 0 then None
  else run_plan (fun i u => val ← v !! i; Some (if ltb val u then val else u)) (fun u w => Some (if ltb w u then w else u)) id p.
(** MM:106-109 and 93-111 max_reduce, v(i) > update *)
Definition max_reduce (id : T) (p : rplan) : option T :=
  if length v =? 0 then None
  else run_plan (fun i u => val ← v !! i; Some (if ltb u val then val else u)) (fun u w => Some (if ltb u w then w else u)) id p.
End MinMax.

(** Addition of int: undefined outside its range *)
Definition add_int (a b : Z) : option Z := if ((-2147483648 <=? a + b) && (a + b <? 2147483648))%Z then Some (a + b)%Z else None.
(** Crs:187-198 compute_overflow: the functor assigns 1, the partial results are added; then Crs:198. *)
Definition overflow_reduce (offset perm counts : list nat) (p : rplan) : option bool :=
  r ← run_plan (fun i u => o ← overflow_at offset perm counts i; Some (if o : bool then 1%Z else u)) add_int 0%Z p;
  Some (0 <? r)%Z.
(** Crs:202-206 compute_underflow *)
Definition count_reduce (counts : list nat) (p : rplan) : option Z :=
  run_plan (fun i u => c ← counts !! i; add_int u (Z.of_nat c)) add_int 0%Z p.
(** DB:238-248 count_points_in_dense_cells *)
Definition dense_reduce (offs : list nat) (minpts : nat) (p : rplan) : option Z :=
  run_plan (fun i u => a ← offs !! i; b ← offs !! S i;
                       if (Z.of_nat minpts <=? Z.of_nat b - Z.of_nat a)%Z then add_int u (Z.of_nat b - Z.of_nat a) else Some u) add_int 0%Z p.
