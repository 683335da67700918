(** C16: heap and priority queue (src/misc/ArborX_Heap.hpp, ArborX_PriorityQueue.hpp). *)
From Verif Require Import HeapModel HeapSpec HeapProof.

(** Any operation history within capacity runs without out-of-bounds access, every state is a
    heap, and each step is the corresponding multiset step (push adds, pop removes a maximal
    element, popPush replaces a maximal element). *)
Theorem C16_priority_queue_history : forall {A} (comp : A -> A -> bool), StrictWeak comp ->
  forall cap os, ops_ok cap 0 os ->
  exists qs, pq_run comp cap [] os = Some qs /\ length qs = length os /\
    forall i o p p', os !! i = Some o -> ([] :: qs) !! i = Some p -> qs !! i = Some p' ->
      MSStep comp p (op_kind o) (op_arg o) p' /\ HeapOrd comp p' (length p').
Proof. intros A comp SW cap os H. apply pq_run_correct; auto. intros i j x y Hj. simpl in Hj. lia. Qed.
Print Assumptions C16_priority_queue_history.

(** In any queue state that is a heap, top is maximal. *)
Theorem C16_top_is_maximal : forall {A} (comp : A -> A -> bool), StrictWeak comp ->
  forall q r, HeapOrd comp q (length q) -> pq_top q = Some r -> Maximal comp r q.
Proof. intros A comp SW q r. apply pq_top_max; auto. Qed.
Print Assumptions C16_top_is_maximal.

(** makeHeap followed by sortHeap sorts any array and keeps its content. *)
Theorem C16_make_then_sort : forall {A} (comp : A -> A -> bool), StrictWeak comp ->
  forall l, exists h s, makeHeap comp l (length l) = Some h /\ HeapOrd comp h (length h) /\
    sortHeap comp h (length h) = Some s /\ s ≡ₚ l /\ Ascending comp s.
Proof.
  intros A comp SW l.
  destruct (makeHeap_correct comp SW (length l) l (le_n _)) as (h&E&P&HO&_&L).
  rewrite <- L in HO.
  destruct (sortHeap_correct comp SW (length h) h (le_n _) HO) as (s&E2&P2&L2&_&S).
  exists h, s. split; [done|]. split; [done|]. split; [done|]. split; [by rewrite P2|].
  intros i j x y Hij Hx Hy. apply (S i j x y Hij); auto.
  apply lookup_lt_Some in Hy. lia.
Qed.
Print Assumptions C16_make_then_sort.

(** sortHeap on the heap prefix [0,n) of a longer array: sorted, permutation, rest untouched. *)
Theorem C16_sort_heap : forall {A} (comp : A -> A -> bool), StrictWeak comp ->
  forall l n, n <= length l -> HeapOrd comp l n ->
  exists s, sortHeap comp l n = Some s /\ take n s ≡ₚ take n l /\ Ascending comp (take n s) /\
    (forall k, n <= k -> s !! k = l !! k).
Proof.
  intros A comp SW l n Hn HO.
  destruct (sortHeap_correct comp SW n l Hn HO) as (s&E&P&L&F&S).
  exists s. split; [done|]. split; [by apply perm_take_frame|]. split; [|done].
  intros i j x y Hij Hx Hy.
  assert (j < n). { apply lookup_lt_Some in Hy. rewrite take_length in Hy. lia. }
  rewrite lookup_take in Hx, Hy by lia. by apply (S i j).
Qed.
Print Assumptions C16_sort_heap.

(** pushHeap and popHeap on a prefix. *)
Theorem C16_push_heap : forall {A} (comp : A -> A -> bool), StrictWeak comp ->
  forall l n, n <= length l -> HeapOrd comp l (n - 1) ->
  exists l', pushHeap comp l n = Some l' /\ l' ≡ₚ l /\ HeapOrd comp l' n /\
    (forall k, n <= k -> l' !! k = l !! k) /\ length l' = length l.
Proof. intros A comp SW. exact (pushHeap_correct comp SW). Qed.
Print Assumptions C16_push_heap.

Theorem C16_pop_heap : forall {A} (comp : A -> A -> bool), StrictWeak comp ->
  forall l n r, 0 < n -> n <= length l -> HeapOrd comp l n -> l !! 0 = Some r ->
  exists l', popHeap comp l n = Some l' /\ l' ≡ₚ l /\ HeapOrd comp l' (n - 1) /\
    l' !! (n - 1) = Some r /\ Maximal comp r (take n l) /\
    (forall k, n <= k -> l' !! k = l !! k) /\ length l' = length l.
Proof.
  intros A comp SW l n r H0 Hn HO Hr.
  destruct (popHeap_correct comp SW l n r H0 Hn HO Hr) as (l'&E&P&HO'&R&F&L).
  exists l'. repeat (split; [done|]). split; [|done].
  intros y Hy. apply elem_of_list_lookup in Hy as [j Hj].
  pose proof (lookup_lt_Some _ _ _ Hj) as Hlt. rewrite take_length in Hlt.
  rewrite lookup_take in Hj by lia.
  apply (heap_root_max comp SW l n r HO Hr Hn j); [lia|done].
Qed.
Print Assumptions C16_pop_heap.

(** isHeap decides heap order. *)
Theorem C16_is_heap : forall {A} (comp : A -> A -> bool) l,
  isHeap comp l (length l) = true <-> HeapOrd comp l (length l).
Proof. intros A comp l. apply isHeap_correct. Qed.
Print Assumptions C16_is_heap.

(** Non-vacuity. *)
Lemma ltb_strict_weak : StrictWeak Nat.ltb.
Proof. split; intros *; rewrite ?Nat.ltb_lt, ?Nat.ltb_ge; try lia. Qed.

Example C16_history_example :
  ops_ok 3 0 [Push 4; Push 9; Push 2; PopPush 5; Pop; Pop] /\
  pq_run Nat.ltb 3 [] [Push 4; Push 9; Push 2; PopPush 5; Pop; Pop] =
    Some [[4]; [9; 4]; [9; 4; 2]; [5; 4; 2]; [4; 2]; [2]].
Proof. split; [simpl; lia|vm_compute; reflexivity]. Qed.
Example C16_sort_example : makeHeap Nat.ltb [3;1;2;5;4;4] 6 = Some [5;4;4;1;3;2] /\
  sortHeap Nat.ltb [5;4;4;1;3;2] 6 = Some [1;2;3;4;4;5].
Proof. split; vm_compute; reflexivity. Qed.
Example C16_pop_example : HeapOrd Nat.ltb [5;4;4;1;3;2] 6.
Proof. by apply (C16_is_heap Nat.ltb [5;4;4;1;3;2]). Qed.
