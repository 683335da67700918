(** Specification of a finished bounding volume hierarchy, independent of how it was built. *)
From Verif Require Export TreeConstructionModel.

(** [Covers T i l r rp]: node [i] is the root of a full binary subtree whose leaves, in order, are
    exactly the leaf positions [l..r]; [rp] is where the rope of every node on its right edge leads.
    The right child is the rope of the left child. *)
Inductive Covers {V} (T : tree V) : nat -> nat -> nat -> option nat -> Prop :=
| cov_leaf i rp nd : i < t_size T -> t_leaves T !! i = Some nd -> l_rope nd = rp -> Covers T i i i rp
| cov_node i l s r rp c2 nd :
    t_size T <= i -> t_nodes T !! (i - t_size T) = Some nd -> n_rope nd = rp -> l <= s < r ->
    Covers T (n_left nd) l s (Some c2) -> Covers T c2 (S s) r rp -> Covers T i l r rp.

(** A preorder with a join that is a least upper bound and a least element; for boxes the order is
    inclusion, the join is expand and the least element is the default constructed (empty) box. *)
Record JoinSemi {V} (le : V -> V -> Prop) (join : V -> V -> V) (bot : V) : Prop := {
  js_refl : forall x, le x x;
  js_trans : forall x y z, le x y -> le y z -> le x z;
  js_l : forall x y, le x (join x y);
  js_r : forall x y, le y (join x y);
  js_lub : forall x y z, le x z -> le y z -> le (join x y) z;
  js_bot : forall x, le bot x }.

(** [v] is the hull of exactly the values at leaf positions l..r. *)
Definition IsHull {V} (le : V -> V -> Prop) (vol : nat -> V) (perm : list nat) (v : V) (l r : nat) : Prop :=
  (forall i o, l <= i <= r -> perm !! i = Some o -> le (vol o) v) /\
  (forall u, (forall i o, l <= i <= r -> perm !! i = Some o -> le (vol o) u) -> le v u).

(** A valid hierarchy over the values listed by [perm]: right sizes, leaf i stores value perm(i), the
    root covers all leaves, every node index is the root of a subtree, and all volumes are hulls. *)
Record ValidTree {V} (le : V -> V -> Prop) (vol : nat -> V) (perm : list nat) (T : tree V) : Prop := {
  vt_size : t_size T = length perm;
  vt_leaves : length (t_leaves T) = length perm;
  vt_nodes : length (t_nodes T) = length perm - 1;
  vt_values : forall i, getValue T i = perm !! i;
  vt_root : Covers T (getRoot T) 0 (length perm - 1) None;
  vt_all : forall i, i < 2 * length perm - 1 -> exists l r rp, Covers T i l r rp;
  vt_hull : forall i l r rp, Covers T i l r rp -> l < r ->
     exists v, getVolume T i = Some v /\ IsHull le vol perm v l r }.

(** Condition on a split-strength function: outside the index range it is larger than anything inside,
    and equal strengths are always separated by a strictly larger one. *)
Record GoodDelta (m : nat) (delta : Z -> Z) : Prop := {
  gd_out : forall i j, (0 <= i < Z.of_nat m)%Z -> (j = -1 \/ j = Z.of_nat m)%Z -> (delta i < delta j)%Z;
  gd_ends : (delta (-1) <= delta (Z.of_nat m))%Z;
  gd_tie : forall i j, (0 <= i < j)%Z -> (j < Z.of_nat m)%Z -> delta i = delta j ->
     exists k, (i < k < j)%Z /\ (delta i < delta k)%Z }.

(** Two trees with identical topology, ropes and values and equivalent volumes. *)
Definition SameTree {V} (le : V -> V -> Prop) (T T' : tree V) : Prop :=
  t_size T = t_size T' /\ t_leaves T = t_leaves T' /\ length (t_nodes T) = length (t_nodes T') /\
  forall k nd nd', t_nodes T !! k = Some nd -> t_nodes T' !! k = Some nd' ->
    n_left nd = n_left nd' /\ n_rope nd = n_rope nd' /\ le (n_vol nd) (n_vol nd') /\ le (n_vol nd') (n_vol nd).

(** Sorted codes of a [w]-bit unsigned type whose top bit is clear. *)
Record SortedCodes (w : Z) (codes : list Z) : Prop := {
  sc_sorted : forall i a b, codes !! i = Some a -> codes !! S i = Some b -> (a <= b)%Z;
  sc_range : forall i a, codes !! i = Some a -> (0 <= a < 2 ^ (w - 1))%Z }.
