(** Model of the edge types of the minimum spanning tree: DirectedEdge
    (/repo/src/cluster/detail/ArborX_BoruvkaHelpers.hpp:37-105, cited as BH) and WeightedEdge
    (/repo/src/cluster/detail/ArborX_WeightedEdge.hpp:20-48, cited as WE).

    Weights are abstract with the comparison [ltb] (float < in the code; NaN is excluded by assuming a strict weak order);
    [weq] is the float ==.  Vertices are non-negative ints, given as [N]. *)
From Coq Require Export NArith.
From Verif Require Export Base.
Local Open Scope N_scope.

(** BH:46-53 *)
Definition uint_max : N := 2 ^ 32 - 1.
Definition ullong_max : N := 2 ^ 64 - 1.
Definition source_shift : N := 32.
Definition target_shift : N := 1.
Definition mask_source : N := N.shiftl (N.shiftr uint_max 1) source_shift.
Definition mask_target : N := N.shiftl (N.shiftr uint_max 1) target_shift.
(** BH:59 *)
Definition reverse_direction : N := 1.

(** BH:81-98 the packed word of the constructor; unsigned 64-bit arithmetic, reduced modulo 2^64 *)
Definition u64 (x : N) : N := x mod 2 ^ 64.
Definition pack (source target : N) : N :=
  if source <? target
  then u64 (N.land mask_source (u64 (N.shiftl source source_shift)) + N.land mask_target (u64 (N.shiftl target target_shift)))
  else u64 (reverse_direction + N.land mask_source (u64 (N.shiftl target source_shift)) + N.land mask_target (u64 (N.shiftl source target_shift))).
(** BH:70-79 *)
Definition is_reverse (e : N) : bool := N.land e reverse_direction =? reverse_direction.
Definition source (e : N) : N := if is_reverse e then N.shiftr (N.land e mask_target) target_shift else N.shiftr (N.land e mask_source) source_shift.
Definition target (e : N) : N := if is_reverse e then N.shiftr (N.land e mask_source) source_shift else N.shiftr (N.land e mask_target) target_shift.

Section Weights.
Context {W : Type} (ltb : W -> W -> bool).
(** float ==, for values that are not NaN *)
Definition weq (a b : W) : bool := negb (ltb a b) && negb (ltb b a).
(** BH:37-41 *)
Record dedge := DEdge { directed_edge : N; weight : W }.
(** BH:80-101 *)
Definition mk_edge (s t : N) (w : W) : dedge := DEdge (pack s t) w.
(** BH:40-41, 102: the default edge; [inf] is the float infinity *)
Definition no_edge (inf : W) : dedge := DEdge ullong_max inf.
(** BH:63-68 *)
Definition dedge_lt (l r : dedge) : bool := if negb (weq (weight l) (weight r)) then ltb (weight l) (weight r) else directed_edge l <? directed_edge r.

(** WE:20-24 *)
Record wedge := WEdge { w_source : N; w_target : N; w_weight : W }.
(** BH:103-106 *)
Definition to_weighted (e : dedge) : wedge := WEdge (source (directed_edge e)) (target (directed_edge e)) (weight e).
(** WE:29-47 *)
Definition wedge_lt (l r : wedge) : bool :=
  if negb (weq (w_weight l) (w_weight r)) then ltb (w_weight l) (w_weight r)
  else let lmin := N.min (w_source l) (w_target l) in let rmin := N.min (w_source r) (w_target r) in
    if negb (lmin =? rmin) then lmin <? rmin
    else N.max (w_source l) (w_target l) <? N.max (w_source r) (w_target r).
End Weights.
Arguments dedge : clear implicits.
Arguments wedge : clear implicits.
