(** Model of the DenseBox implementation: /repo/src/cluster/ArborX_DBSCAN.hpp:330-480 (cited as DB) and
    /repo/src/cluster/detail/ArborX_FDBSCANDenseBox.hpp (cited as DX).

    Points are 0..n-1 and [cell p] is the grid cell of point p (DX:200-222; the grid itself is the model GridModel).
    [near a b]: the distance test of two points; [hit a c]: the sphere around point a intersects the box of cell c. *)
From Verif Require Export Base TraversalSpec KernelAlgModel ReorderModel DbscanModel UnionFindModel.
Local Open Scope nat_scope.

(** the values permute(cell_start) .. permute(cell_end - 1); [None]: out of bounds *)
Definition cell_points (dco pm : list nat) (k : nat) : option (list nat) :=
  a ← dco !! k; b ← dco !! S k; mapM (fun jj => pm !! jj) (seq a (b - a)).

(** DX:284-307 unionFindWithinEachDenseCell: thread i of 1..nd-1 *)
Definition dense_progs (idx pm : list nat) (nd : nat) : option (list (list uop)) :=
  mapM (fun i => a ← idx !! i; b ← idx !! (i - 1);
          if a =? b then x ← pm !! i; y ← pm !! (i - 1); Some [Merge x y] else Some [])
       (seq 1 (nd - 1)).

Section Callbacks.
Variables (near hit : nat -> nat -> bool).
Variables (idx pm dco : list nat) (nd minpts : nat).
Definition num_dense_cells : nat := length dco - 1.
Notation ndc := num_dense_cells.

(** DB:127-173 mixed primitives: the dense cells, then the points outside them.  [mixed_leaf i k]: does the sphere
    around point i intersect primitive k (for a point: Box{p, p}, whose distance is the distance to the point) *)
Definition num_mixed (n : nat) : nat := ndc + (n - nd).
Definition mixed_vol {V} (cellvol ptvol : nat -> V) (k : nat) : V :=
  if k <? ndc then cellvol (default 0 (idx !! default 0 (dco !! k))) else ptvol (default 0 (pm !! (nd + (k - ndc)))).
Definition mixed_leaf (i k : nat) : bool :=
  if k <? ndc then hit i (default 0 (idx !! default 0 (dco !! k))) else near i (default 0 (pm !! (nd + (k - ndc)))).

(** DX:76-84 *)
Fixpoint count_pts (i c : nat) (pts : list nat) : nat * bool :=
  match pts with
  | [] => (c, false)
  | j :: pts => if near i j then (if minpts <=? S c then (S c, true) else count_pts i (S c) pts) else count_pts i c pts
  end.
(** DX:61-93 CountUpToN_DenseBox on the query of point i; the counter of i is touched by that query only *)
Definition count_mixed (i : nat) (st : option nat) (k : nat) : option nat * bool :=
  match st with
  | None => (None, true)
  | Some c =>
      if k <? ndc then
        match cell_points dco pm k with
        | Some pts => let '(c', e) := count_pts i c pts in (Some c', e)
        | None => (None, true)
        end
      else (Some (S c), minpts <=? S c)
  end.

(** DX:151-174: the comparisons of representatives become [Guard]s that skip the remaining operations of this cell.
    [swap]: the order in which the two operands of == are evaluated, which C++ leaves open. *)
Variables (star swap : bool) (core : nat -> bool).
Definition uguard (i j k : nat) : uop := if swap then Guard j i k else Guard i j k.
Fixpoint cell_loop (i : nat) (pts : list nat) : list uop :=
  match pts with
  | [] => []
  | j :: pts => if near i j then [uguard i j 1; Merge i j] else let r := cell_loop i pts in uguard i j (length r) :: r
  end.
(** DX:143-196 the callback of core point i on primitive k *)
Definition mixed_block (i k : nat) : option (list uop) :=
  if k <? ndc then
    a ← dco !! k; f ← pm !! a; pts ← cell_points dco pm k;
    let r := cell_loop i pts in Some (uguard i f (length r) :: r)
  else
    j ← pm !! (nd + (k - ndc));
    Some (if core j && (j <? i) then [Merge i j]
          else if negb star && negb (core j) then [Into j i] else []).
(** DX:134-198 *)
Definition mixed_callback (i : nat) (st : option (list uop)) (k : nat) : option (list uop) * bool :=
  if core i then (ops ← st; b ← mixed_block i k; Some (ops ++ b), false) else (st, true).
End Callbacks.

Section Program.
Context {V : Type}.
Variables (le : V -> V -> Prop) (cellvol ptvol : nat -> V).
Variables (near hit : nat -> nat -> bool) (pv : nat -> V -> bool) (n minpts big : nat) (star swap : bool).

(** DB:434-455 num_neigh: INT_MAX ([big]) for the points of dense cells, the count otherwise *)
Definition DenseCounts (idx pm dco : list nat) (nd : nat) (T : tree V) (counts : list nat) : Prop :=
  length counts = n /\
  forall p i, pm !! p = Some i ->
    if p <? nd then counts !! i = Some big
    else exists c, counts !! i = Some c /\
      spatial_query T (mixed_leaf near hit idx pm dco nd i) (pv i) (count_mixed near pm dco minpts i) (Some 0) = Ok (Some c).
(** DB:415-430, 457-480: one query per point; for core_min_size = 2 every point counts as core and the variants coincide *)
Definition MixedProgs (idx pm dco : list nat) (nd : nat) (T : tree V) (counts : list nat) (progs : list (list uop)) : Prop :=
  Forall2 (fun i prog =>
     spatial_query T (mixed_leaf near hit idx pm dco nd i) (pv i)
       (if minpts =? 2 then mixed_callback near pm dco nd false swap (fun _ => true) i
        else mixed_callback near pm dco nd star swap (is_core counts minpts) i) (Some []) = Ok (Some prog)) (seq 0 n) progs.

(** Everything from the sorted cell indices [sorted] with permutation [permute] (DB:344-347) to the labels.  The two calls
    of computeOffsetsInOrderedView run in any order of iterations ([order], [order2]) on any scratch contents; the tree T
    is any valid index over the mixed primitives. *)
Definition densebox (sorted permute order scratch : list nat) (post : list Z -> Prop) : Prop :=
  exists offs, computeOffsetsInOrderedView Nat.eqb order sorted scratch = Some offs /\
  Kernel (rstep offs sorted permute minpts) rlive (rinit offs sorted permute minpts) (fun s =>
  exists idx pm, r_idx s = map Some idx /\ r_perm s = map Some pm /\
  let nd := num_dense_points offs minpts in
  forall order2 scratch2, order2 ≡ₚ seq 0 (S nd) -> length scratch2 = S nd ->
  exists dco, computeOffsetsInOrderedView Nat.eqb order2 (take nd idx) scratch2 = Some dco /\
  exists progs1, dense_progs idx pm nd = Some progs1 /\
  Kernel ustep ulive (uinit (seq 0 n) progs1) (fun s1 =>
  forall T tperm, Index le (mixed_vol idx pm dco nd cellvol ptvol) tperm T -> tperm ≡ₚ seq 0 (num_mixed dco nd n) ->
  exists counts, DenseCounts idx pm dco nd T counts /\
  exists progs2, MixedProgs idx pm dco nd T counts progs2 /\
  Kernel ustep ulive (uinit (u_labels s1) progs2) (fun s2 =>
  finish minpts counts (u_labels s2) post))).
End Program.
