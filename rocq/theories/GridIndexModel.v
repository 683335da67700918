(** Model of the machine arithmetic of the regular grid of the DenseBox implementation:
    /repo/src/cluster/detail/ArborX_CartesianGrid.hpp (cited as CG).  The coordinates stay exact rationals as in
    GridModel.v; here the conversions to int and size_t are modelled: [None] is undefined behaviour. *)
From Coq Require Import Qabs.
From Verif Require Export GridModel.
Local Open Scope Z_scope.

(** the C++ conversion of an integral floating-point value to int: undefined if the value does not fit *)
Definition to_int (z : Z) : option Z := if (-2147483648 <=? z) && (z <? 2147483648) then Some z else None.
(** ... and to size_t *)
Definition to_size (z : Z) : option Z := if (0 <=? z) && (z <? 2 ^ 64) then Some z else None.
(** CG:49-63 cellIndex with [int i] and [size_t s]; unsigned arithmetic is modulo 2^64, and so is the conversion of a negative
    int to size_t *)
Fixpoint cellIndexC (g : list axis) (p : list Q) : option Z :=
  match g, p with
  | a :: g, x :: p =>
      s ← cellIndexC g p;
      i ← to_int (coord_index a x);
      Some ((s * extent a + i) mod 2 ^ 64)
  | _, _ => Some 0
  end.
(** CG:100-101 the extents are size_t *)
Definition extents_ok (g : list axis) : bool := forallb (fun a => match to_size (extent a) with Some _ => true | None => false end) g.
(** CG:128-135 the check against loss of precision; [eps] is five times the machine epsilon.  h / 0 is infinite, so the check
    passes for a corner at 0. *)
Definition precise (eps : Q) (a : axis) : bool := Qeq_bool (a_min a) 0 || Qle_bool eps (Qabs (a_h a / a_min a)).
(** CG:90-136 buildGrid: does the constructor return normally? *)
Definition buildGrid (eps : Q) (g : list axis) : bool :=
  forallb axis_okb g && extents_ok g && fits (2 ^ 64 - 1) g && forallb (precise eps) g.

(** CG:37-46 the constructor with a cell length per axis.  [store] holds the member _h, [None] for an element that has not been
    written; the result is [None] if such an element is read.  [Some false]: the assertion stops the program. *)
Fixpoint per_axis_loop (d : nat) (hs : list Q) (store : list (option Q)) : option (bool * list (option Q)) :=
  match hs with
  | [] => Some (true, store)
  | h :: hs =>
      stored ← store !! d;
      old ← stored;
      if negb (Qle_bool old 0) then per_axis_loop (S d) hs (<[d := Some h]> store) else Some (false, store)
  end.
(** CG:141: _h has no initializer *)
Definition per_axis_constructor (hs : list Q) : option (bool * list (option Q)) := per_axis_loop 0 hs (replicate (length hs) None).
