(** What the molecular dynamics example should compute, independently of the model *)
From Coq Require Import Reals.
From Verif Require Export MolecularModel PropertiesRayReal.
Local Open Scope R_scope.

Definition rsum (l : list R) : R := foldr Rplus 0 l.
(** The coordinates of a vector *)
Inductive axis := AX | AY | AZ.
Definition coord (c : axis) (v : R * R * R) : R := match c with AX => v.1.1 | AY => v.1.2 | AZ => v.2 end.
Definition dist2 (p q : R * R * R) : R := (coord AX p - coord AX q) ^ 2 + (coord AY p - coord AY q) ^ 2 + (coord AZ p - coord AZ q) ^ 2.
(** The pair potential r^-12 / 12 - r^-6 / 6 of two particles *)
Definition potential (p q : R * R * R) : R := / dist2 p q ^ 6 / 12 - / dist2 p q ^ 3 / 6.
(** The force of q on p *)
Definition lj_force (c : axis) (p q : R * R * R) : R := (coord c p - coord c q) * (/ dist2 p q ^ 7 - / dist2 p q ^ 4).
Definition set_coord (c : axis) (v : R * R * R) (x : R) : R * R * R := match c with AX => (x, v.1.2, v.2) | AY => (v.1.1, x, v.2) | AZ => (v.1.1, v.1.2, x) end.

Local Open Scope nat_scope.
(** [indices] and [offsets] hold the lists N(0), ..., N(n-1). *)
Definition Lists (n : nat) (indices offsets : list nat) (N : nat -> list nat) : Prop :=
  forall i, i < n -> exists a b, offsets !! i = Some a /\ offsets !! S i = Some b /\ a <= b <= length indices /\ take (b - a) (drop a indices) = N i.
(** The lists are those of a symmetric relation between different particles. *)
Definition SymmetricLists (n : nat) (N : nat -> list nat) : Prop :=
  (forall i, i < n -> NoDup (N i)) /\ (forall i j, i < n -> j ∈ N i -> j < n /\ j <> i /\ i ∈ N j).
