(** Points of triangles and of surfaces, over the real numbers. *)
From Coq Require Import Reals.
From Verif Require Import Base.
Local Open Scope R_scope.

Definition InTriangle (p a b c : R * R * R) : Prop :=
  exists u v w, 0 <= u /\ 0 <= v /\ 0 <= w /\ u + v + w = 1 /\
    p.1.1 = u * a.1.1 + v * b.1.1 + w * c.1.1 /\ p.1.2 = u * a.1.2 + v * b.1.2 + w * c.1.2 /\ p.2 = u * a.2 + v * b.2 + w * c.2.
(** The point is in one of the triangles. *)
Definition OnSurface (vs : list (R * R * R)) (ts : list (nat * nat * nat)) (p : R * R * R) : Prop :=
  exists i j k a b c, (i, j, k) ∈ ts /\ vs !! i = Some a /\ vs !! j = Some b /\ vs !! k = Some c /\ InTriangle p a b c.
(** The square of the distance of two points *)
Definition dist2 (p q : R * R * R) : R := (p.1.1 - q.1.1) * (p.1.1 - q.1.1) + (p.1.2 - q.1.2) * (p.1.2 - q.1.2) + (p.2 - q.2) * (p.2 - q.2).
(** The inner product *)
Definition dotR (p q : R * R * R) : R := p.1.1 * q.1.1 + p.1.2 * q.1.2 + p.2 * q.2.
