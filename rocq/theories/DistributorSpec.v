(** Specification vocabulary for message delivery, independent of the code. *)
From Verif Require Import Base.

(** The items of one rank addressed to rank [r], in their original order. *)
Definition items_for {A} (r : nat) (dests : list nat) (items : list A) : list A :=
  snd <$> List.filter (fun p => fst p =? r) (zip dests items).

(** Everything addressed to [r], by ascending sender. *)
Definition delivered {A} (r : nat) (dests : list (list nat)) (items : list (list A)) : list A :=
  concat (zip_with (items_for r) dests items).

(** Equal ranks are next to each other. *)
Definition Grouped (ranks : list nat) : Prop :=
  forall i j k a b, i < j -> j < k -> ranks !! i = Some a -> ranks !! j = Some b -> ranks !! k = Some a -> b = a.

(** One entry per item of a list of batches. *)
Definition per_item {A} (xs : list A) (sizes : list nat) : list A :=
  concat (zip_with (fun x n => replicate n x) xs sizes).
