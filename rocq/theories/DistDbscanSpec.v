(** What a distributed DBSCAN clustering is, and what a rank knows before the results are merged. *)
From Verif Require Export DbscanSpec.
Local Open Scope nat_scope.

Section Spec.
(** [ns]: the number of points of every rank; a point is (rank, index). *)
Variables (ns : list nat) (minpts : nat) (near : nat * nat -> nat * nat -> bool).
Definition point (p : nat * nat) : Prop := exists n, ns !! fst p = Some n /\ snd p < n.
Definition all_points : list (nat * nat) := concat (imap (fun r n => (fun i => (r, i)) <$> seq 0 n) ns).
(** at least [minpts] points of all ranks (itself included) within eps *)
Definition DCore (p : nat * nat) : Prop := point p /\ minpts <= length (List.filter (near p) all_points).
Definition DEdge (p q : nat * nat) : Prop := DCore p /\ DCore q /\ near p q = true.
Definition DConn : nat * nat -> nat * nat -> Prop := clos_refl_sym_trans (nat * nat) DEdge.

Definition label_of (labels : list (list Z)) (p : nat * nat) : option Z := labels !! fst p ≫= fun l => l !! snd p.
Record ValidDistributed (labels : list (list Z)) : Prop := {
  dd_shape : (length <$> labels) = ns;
  dd_core : forall p q, DCore p -> DCore q -> (label_of labels p = label_of labels q <-> DConn p q);
  dd_core_labelled : forall p, DCore p -> exists l, label_of labels p = Some l /\ l <> (-1)%Z;
  dd_border : forall p, point p -> ~ DCore p -> (exists q, DCore q /\ near p q = true) ->
    exists q, DCore q /\ near p q = true /\ label_of labels p = label_of labels q;
  dd_noise : forall p, point p -> ~ DCore p -> (forall q, DCore q -> near p q = false) -> label_of labels p = Some (-1)%Z }.
(** The half of it that does not need the merging to be complete: nothing is joined that does not belong together, and
    exactly the noise is labelled -1. *)
Record SoundDistributed (labels : list (list Z)) : Prop := {
  sd_shape : (length <$> labels) = ns;
  sd_core : forall p q, DCore p -> DCore q -> label_of labels p = label_of labels q -> DConn p q;
  sd_border : forall p q, point p -> DCore q -> label_of labels p = label_of labels q -> exists c, DCore c /\ near p c = true /\ DConn c q;
  sd_noise : forall p, point p -> (label_of labels p = Some (-1)%Z <-> forall q, DCore q -> near p q = false) }.

(** The points a rank works on: its own, then its ghosts. *)
Definition unified (r n : nat) (ghosts : list (nat * nat)) : list (nat * nat) := ((fun i => (r, i)) <$> seq 0 n) ++ ghosts.
Definition near_in (u : list (nat * nat)) (i j : nat) : bool :=
  match u !! i, u !! j with Some p, Some q => near p q | _, _ => false end.
(** A rank's ghosts: distinct points of other ranks, containing everything near a point of the rank, and for minpts > 2
    also everything near those (DD:71-77: ghosts within eps resp. 2 eps of the bounding box of the rank). *)
Definition EnoughGhosts (r n : nat) (ghosts : list (nat * nat)) : Prop :=
  NoDup ghosts /\ (forall g, g ∈ ghosts -> point g /\ fst g <> r) /\
  (forall i q, i < n -> point q -> near (r, i) q = true -> q ∈ unified r n ghosts) /\
  (2 < minpts -> forall i q x, i < n -> point q -> point x -> near (r, i) q = true -> near q x = true -> x ∈ unified r n ghosts).
(** The local clustering is a DBSCAN clustering of those points (C22, C24). *)
Definition LocalDBSCAN (r n : nat) (ghosts : list (nat * nat)) (labels : list Z) : Prop :=
  ValidDBSCAN (length (unified r n ghosts)) minpts (near_in (unified r n ghosts)) labels.
(** DD:140-170: the core test used while merging *)
Definition merge_core (ghosts : list (list (nat * nat))) (r i : nat) : bool :=
  (minpts =? 2) ||
  match ns !! r, ghosts !! r with
  | Some n, Some g => minpts <=? length (List.filter (near (r, i)) (unified r n g))
  | _, _ => false
  end.
End Spec.
