(** Sorting by key.  Sources: /repo/src/kokkos_ext/ArborX_KokkosExtSort.hpp (KS), /repo/src/misc/ArborX_SortUtils.hpp (SU).  The version for
    execution spaces without a vendor library (KS:79-110); the other versions call thrust or oneDPL.  An access out of bounds or a
    failing assertion is None. *)
From Verif Require Export Base ReduceModel.

Section Sort.
Context {K V : Type} (ltb eqb : K -> K -> bool).
(** Kokkos::BinSort with sort_within_bins (KS:104-107), not part of /repo: what its documentation says.  [bin]: the bin of a key; there are
    [max_bins] + 1 of them.  [order]: the order in which the iterations take their places in the bins, a permutation of the indices;
    [within]: the sort inside a bin.  The result is the permutation vector. *)
Definition bin_sort (bin : K -> nat) (max_bins : nat) (order : list nat) (within : list nat -> list nat) (keys : list K) : option (list nat) :=
  if forallb (fun k => bin k <=? max_bins) keys
  then Some (concat (map (fun b => within (List.filter (fun i => match keys !! i with Some k => bin k =? b | None => false end) order)) (seq 0 (S max_bins))))
  else None.
(** KS:108-109 bin_sort.sort *)
Definition permuted {A} (perm : list nat) (l : list A) : option (list A) := mapM (fun i => l !! i) perm.
(** KS:79-110 sortByKey.  [ids], [p]: see minmax_reduce (KS:96).  [bin n lo hi]: the bin operator BinOp1D of n bins between lo and hi (KS:104); it
    divides by the difference of hi and lo, so it is undefined (None) unless there is a bin and lo < hi. *)
Definition sort_by_key (ids : K * K) (p : rplan) (bin : nat -> K -> K -> K -> nat) (order : list nat) (within : list nat -> list nat)
    (keys : list K) (values : list V) : option (list K * list V) :=
  let n := length keys in
  if negb (length values =? n) then None
  else if n =? 0 then Some (keys, values)
  else
    mm ← minmax_reduce ltb keys ids p;
    if eqb mm.1 mm.2 then Some (keys, values)
    else if (n / 2 =? 0) || negb (ltb mm.1 mm.2) then None
    else
      perm ← bin_sort (bin (n / 2) mm.1 mm.2) (n / 2) order within keys;
      keys' ← permuted perm keys; values' ← permuted perm values; Some (keys', values').
End Sort.
(** SU:25-45 sortObjects: the keys and the permutation *)
Definition sort_objects {K} (ltb eqb : K -> K -> bool) (ids : K * K) (p : rplan) (bin : nat -> K -> K -> K -> nat) (order : list nat)
    (within : list nat -> list nat) (view : list K) : option (list K * list nat) :=
  sort_by_key ltb eqb ids p bin order within view (seq 0 (length view)).
(** Kokkos::BinOp1D for integers, not part of /repo: the key's place between lo and hi, scaled to n bins, or the difference to lo if there are
    bins enough.  Simplified: exact instead of rounded to double. *)
Definition bin_op (n : nat) (lo hi x : Z) : nat :=
  Z.to_nat (if (hi - lo <=? Z.of_nat n)%Z then x - lo else Z.of_nat n * (x - lo) / (hi - lo))%Z.
