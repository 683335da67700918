(** What boxes mean; independent of the model.  A box lists a pair (min, max) per dimension. *)
From Verif Require Import Base.

Section Spec.
Context {T : Type} (ltb : T -> T -> bool).
(** [p] lies in [b]. *)
Definition InBox (p : list T) (b : list (T * T)) : Prop :=
  Forall2 (fun x c => ltb x c.1 = false /\ ltb c.2 x = false) p b.
(** [b] lies in [c], corner by corner. *)
Definition BoxIn (b c : list (T * T)) : Prop :=
  Forall2 (fun i j => ltb i.1 j.1 = false /\ ltb j.2 i.2 = false) b c.
(** [b] has a point in every dimension. *)
Definition Proper (b : list (T * T)) : Prop := Forall (fun c => ltb c.2 c.1 = false) b.
(** [b] is the least box around the boxes [bs]. *)
Definition LeastBox (bs : list (list (T * T))) (b : list (T * T)) : Prop :=
  (forall c, c ∈ bs -> BoxIn c b) /\ forall u, length u = length b -> (forall c, c ∈ bs -> BoxIn c u) -> BoxIn b u.
(** The box of a single point. *)
Definition point_box (p : list T) : list (T * T) := map (fun x => (x, x)) p.
End Spec.
