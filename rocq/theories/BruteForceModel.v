(** Model of src/spatial/detail/ArborX_BruteForceImpl.hpp. *)
From Verif Require Export Base HeapModel.
From Coq Require Export SpecFloat.

(** ** Spatial query: tiles of predicates x indexables (lines 51-151).
    [np], [ni] numbers of predicates and values; [pp], [ip] predicates_per_team and indexables_per_team; [nit]
    n_indexable_tiles.  The team barrier (line 132) makes the scratch copies identical to the originals for all
    threads of the team, so a pair of scratch slots is identified with the pair of global indices; the nested
    TeamThreadRange/ThreadVectorRange loops run each (j, q) once, in an unspecified order.  Truncated
    subtraction is exact here: a negative count gives an empty range in C++ as well.  Overflow of [int] in the
    products is not modelled. *)
Definition team_pairs (np ni pp ip nit : nat) (league_rank : nat) : list (nat * nat) :=
  let predicate_start := pp * (league_rank / nit) in                 (* 107-108 *)
  let indexable_start := ip * (league_rank mod nit) in               (* 109-110 *)
  let predicates_in_this_team := min pp (np - predicate_start) in    (* 112-113 *)
  let indexables_in_this_team := min ip (ni - indexable_start) in    (* 114-115 *)
  flat_map (fun j => map (fun q => (predicate_start + q, indexable_start + j)) (seq 0 predicates_in_this_team))
           (seq 0 indexables_in_this_team).                           (* 135-149 *)

(** All (predicate, value) pairs tested by the kernel with [npt] x [nit] teams (line 94, 103). *)
Definition tested_pairs (np ni pp ip npt nit : nat) : list (nat * nat) :=
  flat_map (team_pairs np ni pp ip nit) (seq 0 (nit * npt)).

(** Lines 90-93: int(std::ceil((float)n / per_team)); the int operand is converted to float, the division is
    rounded to nearest even in binary32. *)
Definition f32_of_Z (z : Z) : spec_float := binary_normalize 24 128 z 0 false.
Definition sf_ceil (x : spec_float) : Z :=
  match x with
  | S754_finite s m e =>
      let v := if s then Zneg m else Zpos m in
      if (0 <=? e)%Z then (v * 2 ^ e)%Z else (- ((- v) / 2 ^ (- e)))%Z
  | _ => 0%Z
  end.
Definition tile_count (n per_team : Z) : Z := sf_ceil (SFdiv 24 128 (f32_of_Z n) (f32_of_Z per_team)).

(** ** Nearest query of one predicate (lines 173-227): values in the order passed to the callback. *)
Section Nearest.
Context {D : Type} (ltb : D -> D -> bool) (inf : D) (dl : nat -> D).
Definition bf_cmp (a b : nat * D) : bool := ltb (snd a) (snd b).

(** lines 207-212 *)
Fixpoint bf_fill (k : nat) (h : list (nat * D)) (js : list nat) : option (list (nat * D)) :=
  match js with
  | [] => Some h
  | j :: js => h' ← pq_push bf_cmp k h (j, dl j); bf_fill k h' js
  end.
(** lines 213-221 *)
Fixpoint bf_scan (h : list (nat * D)) (radius : D) (js : list nat) : option (list (nat * D)) :=
  match js with
  | [] => Some h
  | j :: js =>
      if ltb (dl j) radius then
        h' ← pq_popPush bf_cmp h (j, dl j); t ← pq_top h'; bf_scan h' (snd t) js
      else bf_scan h radius js
  end.
Definition bf_nearest (k n : nat) : option (list nat) :=
  if k <? 1 then Some [] else
  h ← bf_fill k [] (seq 0 (min n k));
  h ← bf_scan h inf (seq (min n k) (n - min n k));
  s ← sortHeap bf_cmp h (length h);
  Some (map fst s).
End Nearest.
