(** What the ray tracing example deposits, independently of the model *)
From Coq Require Import Reals.
From Verif Require Export RaytracingModel PropertiesRayReal.

(** [tr] is an interleaving of the sequences of the threads. *)
Definition thread_of {A} (i : nat) (tr : list (nat * A)) : list A := map snd (List.filter (fun ih => ih.1 =? i) tr).
Definition Interleaving {A} (progs : list (list A)) (tr : list (nat * A)) : Prop :=
  (forall ih, ih ∈ tr -> ih.1 < length progs) /\ forall i p, progs !! i = Some p -> thread_of i tr = p.

Definition rexpm1 (x : R) : R := (exp x - 1)%R.
Definition lsum (l : list R) : R := foldr Rplus 0%R l.
(** What a ray of energy E leaves in cell c, if every cell takes the fraction 1 - exp(- length) of the energy and adds it to the ray *)
Fixpoint deposited (E : R) (hs : list (hit R)) (c : nat) : R :=
  match hs with
  | [] => 0%R
  | h :: hs => ((if h_cell h =? c then E * (1 - exp (- h_length h)) else 0) + deposited (E * (2 - exp (- h_length h))) hs c)%R
  end.
(** The factor by which the energy of the ray changes *)
Definition growth (hs : list (hit R)) : R := foldr (fun h x => ((2 - exp (- h_length h)) * x)%R) 1%R hs.
Definition by_entry (a b : hit R) : Prop := (h_entry a <= h_entry b)%R.
