(** Model of /repo/src/distributed/detail/ArborX_DistributedUtils.hpp:25-66 closestFactors (cited as DU).
    Integers are unbounded here; the code computes with int and unsigned, and nothing it computes exceeds n. *)
From Verif Require Import Base.

(** DU:39-52: trial division; [None]: out of fuel, or a division by zero. *)
Fixpoint prime_factors (fuel i nn : nat) : option (list nat) :=
  match fuel with
  | O => None
  | S fuel =>
    if 1 <? nn then
      if i =? 0 then None
      else if negb (nn mod i =? 0) then prime_factors fuel (S i) nn
      else rest ← prime_factors fuel i (nn / i); Some (i :: rest)
    else Some []
  end.

(** std::sort on integers (DU:61), ascending. *)
Fixpoint insert_sorted (x : nat) (l : list nat) : list nat :=
  match l with
  | [] => [x]
  | y :: l' => if x <=? y then x :: l else y :: insert_sorted x l'
  end.
Definition std_sort (l : list nat) : list nat := foldr insert_sorted [] l.

(** DU:58-62: each factor multiplies the currently first (smallest) entry. *)
Fixpoint distribute (factors result : list nat) : option (list nat) :=
  match factors with
  | [] => Some result
  | f :: factors =>
    match result with
    | [] => None
    | x :: result => distribute factors (std_sort (x * f :: result))
    end
  end.

(** DU:25-66.  [DIM] is positive (DU:27) and n too (DU:28). *)
Definition closestFactors (DIM n : nat) : option (list nat) :=
  if DIM =? 1 then Some [n]
  else
    factors ← prime_factors (2 * n + 1) 2 n;
    result ← distribute (reverse factors) (replicate DIM 1);
    Some (reverse result).
