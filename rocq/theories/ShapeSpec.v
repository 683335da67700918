(** What the shapes are as sets of points; independent of the model.  Rational coordinates. *)
From Coq Require Import QArith.
From Verif Require Import Base.
Local Open Scope Q_scope.

Notation Q2 := (Q * Q)%type.
Notation Q3 := (Q * Q * Q)%type.
Definition Eq2 (p q : Q2) : Prop := p.1 == q.1 /\ p.2 == q.2.
Definition Eq3 (p q : Q3) : Prop := p.1.1 == q.1.1 /\ p.1.2 == q.1.2 /\ p.2 == q.2.
(** Weighted sums of points. *)
Definition at2 (s : Q) (a : Q2) (t : Q) (b : Q2) : Q2 := (s * a.1 + t * b.1, s * a.2 + t * b.2).
Definition at3 (s : Q) (a : Q3) (t : Q) (b : Q3) : Q3 := (s * a.1.1 + t * b.1.1, s * a.1.2 + t * b.1.2, s * a.2 + t * b.2).
Definition InSegment2 (a b p : Q2) : Prop := exists t, 0 <= t /\ t <= 1 /\ Eq2 p (at2 (1 - t) a t b).
Definition InSegment3 (a b p : Q3) : Prop := exists t, 0 <= t /\ t <= 1 /\ Eq3 p (at3 (1 - t) a t b).
(** Weights of a point with respect to a simplex. *)
Definition Weights2 (a b c p : Q2) (l m n : Q) : Prop := l + m + n == 1 /\ Eq2 p (at2 1 (at2 l a m b) n c).
Definition Weights3 (a b c d p : Q3) (l m n o : Q) : Prop := l + m + n + o == 1 /\ Eq3 p (at3 1 (at3 l a m b) 1 (at3 n c o d)).
Definition InTriangle2 (a b c p : Q2) : Prop := exists l m n, 0 <= l /\ 0 <= m /\ 0 <= n /\ Weights2 a b c p l m n.
Definition InTriangle3 (a b c p : Q3) : Prop :=
  exists l m n, 0 <= l /\ 0 <= m /\ 0 <= n /\ l + m + n == 1 /\ Eq3 p (at3 1 (at3 l a m b) n c).
Definition InTet (a b c d p : Q3) : Prop := exists l m n o, 0 <= l /\ 0 <= m /\ 0 <= n /\ 0 <= o /\ Weights3 a b c d p l m n o.
Definition InBox2 (mn mx p : Q2) : Prop := mn.1 <= p.1 /\ p.1 <= mx.1 /\ mn.2 <= p.2 /\ p.2 <= mx.2.
Definition InBox3 (mn mx p : Q3) : Prop :=
  mn.1.1 <= p.1.1 /\ p.1.1 <= mx.1.1 /\ mn.1.2 <= p.1.2 /\ p.1.2 <= mx.1.2 /\ mn.2 <= p.2 /\ p.2 <= mx.2.
(** Twice the signed area, six times the signed volume. *)
Definition area (a b c : Q2) : Q := (b.1 - a.1) * (c.2 - a.2) - (b.2 - a.2) * (c.1 - a.1).
Definition volume (a b c d : Q3) : Q :=
  (b.1.1 - a.1.1) * ((c.1.2 - a.1.2) * (d.2 - a.2) - (c.2 - a.2) * (d.1.2 - a.1.2)) +
  (b.1.2 - a.1.2) * ((c.2 - a.2) * (d.1.1 - a.1.1) - (c.1.1 - a.1.1) * (d.2 - a.2)) +
  (b.2 - a.2) * ((c.1.1 - a.1.1) * (d.1.2 - a.1.2) - (c.1.2 - a.1.2) * (d.1.1 - a.1.1)).
Definition sqdist3 (p q : Q3) : Q := (p.1.1 - q.1.1) * (p.1.1 - q.1.1) + (p.1.2 - q.1.2) * (p.1.2 - q.1.2) + (p.2 - q.2) * (p.2 - q.2).
