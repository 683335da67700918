(** C19, C20: kernel algorithms, permutations and run offsets. *)
From Verif Require Import KernelAlgModel KernelAlgProof HeapSpec.

(** C19: nth_element rearranges only [first,last) and partitions it around the nth value. *)
Theorem C19_nth_element : forall {A} (lt : A -> A -> bool), StrictWeak lt ->
  forall l first nth last, first <= nth < last -> last <= length l ->
  exists l' v, nth_element lt l first nth last = Some l' /\ l' ≡ₚ l /\
    (forall k, k < first \/ last <= k -> l' !! k = l !! k) /\ l' !! nth = Some v /\
    (forall k x, first <= k < nth -> l' !! k = Some x -> lt v x = false) /\
    (forall k x, nth < k < last -> l' !! k = Some x -> lt x v = false).
Proof.
  intros A lt SW l first nth last H1 H2.
  destruct (nth_element_correct lt SW l first nth last H1 H2) as (l'&E&(P&L&F&_)&G).
  destruct (lookup_lt_is_Some_2 l' nth) as [v Hv]; [lia|].
  destruct (G v Hv). exists l', v. auto 10.
Qed.
Print Assumptions C19_nth_element.

(** nth_element with nth = last (or an empty range) leaves the array alone. *)
Theorem C19_nth_element_end : forall {A} (lt : A -> A -> bool) l first nth last,
  first = last \/ nth = last -> nth_element lt l first nth last = Some l.
Proof.
  intros A lt l first nth last [->| ->]; unfold nth_element; rewrite Nat.eqb_refl, ?orb_true_r; done.
Qed.
Print Assumptions C19_nth_element_end.

(** C19: lower_bound / upper_bound on a sorted range. *)
Theorem C19_lower_bound : forall {A} (lt : A -> A -> bool), StrictWeak lt ->
  forall l first last value, first <= last -> last <= length l -> SortedRange lt l first last ->
  exists p, lower_bound lt l first last value = Some p /\ first <= p <= last /\
    (forall k x, first <= k < p -> l !! k = Some x -> lt x value = true) /\
    (forall k x, p <= k < last -> l !! k = Some x -> lt x value = false).
Proof. intros A lt SW. exact (lower_bound_correct lt SW). Qed.
Print Assumptions C19_lower_bound.

Theorem C19_upper_bound : forall {A} (lt : A -> A -> bool), StrictWeak lt ->
  forall l first last value, first <= last -> last <= length l -> SortedRange lt l first last ->
  exists p, upper_bound lt l first last value = Some p /\ first <= p <= last /\
    (forall k x, first <= k < p -> l !! k = Some x -> lt value x = false) /\
    (forall k x, p <= k < last -> l !! k = Some x -> lt value x = true).
Proof. intros A lt SW. exact (upper_bound_correct lt SW). Qed.
Print Assumptions C19_upper_bound.

(** C20: applyPermutation is a gather, in whatever order the iterations run. *)
Theorem C20_apply_permutation : forall {A} order perm (inp out : list A),
  order ≡ₚ seq 0 (length inp) -> perm ≡ₚ seq 0 (length inp) -> length out = length inp ->
  exists out', applyPermutation order perm inp out = Some out' /\ out' ≡ₚ inp /\
    (forall i p, perm !! i = Some p -> out' !! i = inp !! p).
Proof.
  intros A order perm inp out H1 H2 H3.
  destruct (applyPermutation_correct order perm inp out H1 H2 H3) as (o&?&?&?&?). eauto.
Qed.
Print Assumptions C20_apply_permutation.

(** C20: the two permutation kernels undo each other, for any execution orders. *)
Theorem C20_permutation_roundtrip : forall {A} o1 o2 perm (inp s1 s2 : list A),
  o1 ≡ₚ seq 0 (length inp) -> o2 ≡ₚ seq 0 (length inp) -> perm ≡ₚ seq 0 (length inp) ->
  length s1 = length inp -> length s2 = length inp ->
  (exists m, applyPermutation o1 perm inp s1 = Some m /\ applyInversePermutation o2 perm m s2 = Some inp) /\
  (exists m, applyInversePermutation o1 perm inp s1 = Some m /\ applyPermutation o2 perm m s2 = Some inp).
Proof.
  intros A o1 o2 perm inp s1 s2 H1 H2 H3 H4 H5.
  destruct (perm_seq_facts _ _ H3) as (Lp&Bp&Ip&Sp).
  split.
  - destruct (applyPermutation_correct o1 perm inp s1) as (m&E&L&G&_); auto.
    exists m. split; [done|].
    destruct (applyInversePermutation_correct o2 perm m s2) as (r&E2&L2&G2&_); try (rewrite L; auto).
    rewrite E2. f_equal. apply list_eq. intros p.
    destruct (decide (p < length inp)) as [Hp|Hp].
    + destruct (Sp p Hp) as [i Hi]. rewrite (G2 i p Hi), (G i p Hi). done.
    + rewrite !(proj2 (lookup_ge_None _ _)) by lia. done.
  - destruct (applyInversePermutation_correct o1 perm inp s1) as (m&E&L&G&_); auto.
    exists m. split; [done|].
    destruct (applyPermutation_correct o2 perm m s2) as (r&E2&L2&G2&_); try (rewrite L; auto).
    rewrite E2. f_equal. apply list_eq. intros i.
    destruct (decide (i < length inp)) as [Hi|Hi].
    + destruct (lookup_lt_is_Some_2 perm i) as [p Hp]; [lia|].
      rewrite (G2 i p Hp), (G i p Hp). done.
    + rewrite !(proj2 (lookup_ge_None _ _)) by lia. done.
Qed.
Print Assumptions C20_permutation_roundtrip.

(** C20: offsets delimit the maximal runs of equal neighbours, for any execution order. *)
Theorem C20_run_offsets : forall {A} (eqb : A -> A -> bool), (forall x y, eqb x y = true <-> x = y) ->
  forall order (view : list A) scratch,
  order ≡ₚ seq 0 (S (length view)) -> length scratch = S (length view) ->
  exists offs, computeOffsetsInOrderedView eqb order view scratch = Some offs /\
    1 <= length offs /\ offs !! 0 = Some 0 /\ offs !! (length offs - 1) = Some (length view) /\
    (forall k a b, offs !! k = Some a -> offs !! (S k) = Some b -> a < b) /\
    (forall k a b i x y, offs !! k = Some a -> offs !! (S k) = Some b -> a <= i < b ->
       view !! a = Some x -> view !! i = Some y -> x = y) /\
    (forall k a x y, offs !! (S k) = Some a -> a < length view ->
       view !! (a - 1) = Some x -> view !! a = Some y -> x <> y).
Proof. intros A eqb Heq. exact (computeOffsets_correct eqb Heq). Qed.
Print Assumptions C20_run_offsets.

(** Non-vacuity. *)
Example C19_nth_example :
  exists l, nth_element Nat.ltb [9;4;7;1;4;8;2] 1 3 6 = Some l /\ l !! 3 = Some 4 /\ l !! 0 = Some 9.
Proof. eexists. split; [vm_compute; reflexivity|split; reflexivity]. Qed.
Example C19_bounds_example :
  lower_bound Nat.ltb [0;3;5;5;5;9] 0 6 5 = Some 2 /\ upper_bound Nat.ltb [0;3;5;5;5;9] 0 6 5 = Some 5.
Proof. split; vm_compute; reflexivity. Qed.
Example C20_perm_example :
  applyPermutation [2;0;1] [1;2;0] [10;20;30] [0;0;0] = Some [20;30;10] /\
  applyInversePermutation [0;2;1] [1;2;0] [20;30;10] [0;0;0] = Some [10;20;30].
Proof. split; vm_compute; reflexivity. Qed.
Example C20_offsets_example :
  computeOffsetsInOrderedView Nat.eqb [3;0;5;1;4;2] [7;7;3;3;3] [0;0;0;0;0;0] = Some [0;2;5].
Proof. vm_compute; reflexivity. Qed.
