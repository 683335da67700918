(** C11, C12, C13: storage of query results in compressed rows. *)
From Verif Require Import Base KernelAlgModel CrsModel CrsSpec CrsProof.

Lemma replicate_take_sum k b m : sum_list (take k (replicate m b)) = min k m * b.
Proof.
  revert k; induction m as [|m IH]; intros [|k]; simpl; try done.
  change (b + sum_list (take k (replicate m b)) = S (min k m) * b). rewrite IH. lia.
Qed.

(** The allocations establish the precondition of queryImpl. *)
Lemma alloc_spatial_ok {A} n bs (out0 : list (option A)) :
  let a := alloc_spatial n bs out0 in let caps := replicate n (Z.abs_nat bs) in
  length caps = n /\ length (snd a) = S n /\
  (forall q, q <= n -> snd a !! q = Some (sum_list (take q caps))) /\
  (sum_list caps = length (fst a) \/ sum_list caps = 0).
Proof.
  cbv zeta. split; [apply replicate_length|].
  assert (sum_list (replicate n (Z.abs_nat bs)) = n * Z.abs_nat bs) as Hs.
  { rewrite <- (take_ge (replicate n _) n) by (by rewrite replicate_length). rewrite replicate_take_sum. lia. }
  unfold alloc_spatial. destruct (Nat.eqb_spec (Z.abs_nat bs) 0) as [E|E]; cbn [fst snd].
  - split; [by rewrite replicate_length|]. split; [|right; rewrite Hs, E; lia].
    intros q Hq. rewrite lookup_replicate_2 by lia. rewrite replicate_take_sum, E. f_equal. lia.
  - split; [by rewrite excl_scan_length, replicate_length|]. split; [|left; by rewrite replicate_length].
    intros q Hq. rewrite excl_scan_lookup by (rewrite replicate_length; lia).
    rewrite !replicate_take_sum. f_equal. replace (min q (S n)) with (min q n) by lia. lia.
Qed.

Lemma alloc_nearest_ok {A} ks g :
  let a := alloc_nearest (A:=A) ks g in
  length (snd a) = S (length ks) /\
  (forall q, q <= length ks -> snd a !! q = Some (sum_list (take q ks))) /\ sum_list ks = length (fst a).
Proof.
  cbv zeta. unfold alloc_nearest. cbn [fst snd].
  assert (length (excl_scan 0 (ks ++ [g])) = S (length ks)) as Hl.
  { rewrite excl_scan_length, app_length. simpl. lia. }
  assert (forall q, q <= length ks -> excl_scan 0 (ks ++ [g]) !! q = Some (sum_list (take q ks))) as Hq.
  { intros q Hq. rewrite excl_scan_lookup by (rewrite app_length; simpl; lia). rewrite take_app_le by done. done. }
  split; [done|]. split; [done|]. rewrite replicate_length, last_lookup, Hl. cbn [Nat.pred].
  rewrite Hq by done. cbn [default]. by rewrite take_ge.
Qed.

Section Statements.
Context {A : Type}.

(** A run of the machine: loops may execute their iterations in any order; [Thread per query]: as in the tree
    traversals, position i is handled by thread i; otherwise any thread may insert any result (brute force). *)
Definition RunAny (R : list (list A)) (perm : list nat) (m : machine A) : Prop :=
  OrdersOk R m /\ InsertsAny R perm (m_prog1 m) /\ InsertsAny R perm (m_prog2 m).
Definition RunByQuery (R : list (list A)) (perm : list nat) (m : machine A) : Prop :=
  OrdersOk R m /\ InsertsByQuery R perm (m_prog1 m) /\ InsertsByQuery R perm (m_prog2 m).
(** Both passes get enough steps to complete. *)
Definition RunsOn (m : machine A) : Prop := Fair (m_prog1 m) (m_sched1 m) /\ Fair (m_prog2 m) (m_sched2 m).
End Statements.

Lemma any_of_by_query {A} (R : list (list A)) perm m : RunByQuery R perm m -> RunAny R perm m.
Proof. intros (?&?&?). split; [done|]. split; by apply by_query_any. Qed.

Lemma spatial_run {A} (R : list (list A)) perm m bs out0 :
  perm ≡ₚ seq 0 (length R) -> RunAny R perm m ->
  match query_spatial m (length R) perm bs out0 with
  | UB => False
  | Unfinished => True
  | Thrown => (bs < 0)%Z /\ exists q r, R !! q = Some r /\ Z.abs_nat bs < length r
  | Done out offset =>
    ((bs < 0)%Z -> forall q r, R !! q = Some r -> length r <= Z.abs_nat bs) /\ IsOffsets R offset /\
    exists L, Forall2 (fun l r => l ≡ₚ r) L R /\ out = map Some (concat L) /\ (RunByQuery R perm m -> L = R)
  end.
Proof.
  intros HP (HO&H1&H2). unfold query_spatial.
  destruct (alloc_spatial_ok (length R) bs out0) as (Hc&Hl&Hq&Hs).
  pose proof (queryImpl_ok R perm HP m (toBufferStatus bs) _ _ _ HO H1 H2 Hc Hl (fun _ => Hq) (fun _ => Hs)) as H.
  destruct (queryImpl _ _ _ _ _ _) as [| | |out offset]; auto.
  - destruct H as (Hst&q&c&r&Hcq&Hr&Hlt). apply lookup_replicate in Hcq as [-> _]. split; [|eauto].
    unfold toBufferStatus in Hst. destruct (Z.eqb_spec bs 0); [done|]. destruct (Z.ltb_spec 0 bs); [done|]. lia.
  - destruct H as (Hh&HI&L&HF&Hout&HB). split.
    + intros Hneg q r Hr. apply (Hh) with (q := q); [|apply lookup_replicate_2; by eapply lookup_lt_Some|done].
      unfold toBufferStatus. destruct (Z.eqb_spec bs 0); [lia|]. destruct (Z.ltb_spec 0 bs); [lia|]. done.
    + split; [done|]. exists L. split; [done|]. split; [done|]. intros (_&?&?). auto.
Qed.

Lemma soft_run {A} (R : list (list A)) perm m (a : list (option A) * list nat) caps :
  perm ≡ₚ seq 0 (length R) -> RunAny R perm m -> length caps = length R -> length (snd a) = S (length R) ->
  (forall q, q <= length R -> snd a !! q = Some (sum_list (take q caps))) ->
  (sum_list caps = length (fst a) \/ sum_list caps = 0) ->
  match queryImpl m (length R) perm PreallocationSoft (fst a) (snd a) with
  | UB | Thrown => False
  | Unfinished => True
  | Done out offset => IsOffsets R offset /\
    exists L, Forall2 (fun l r => l ≡ₚ r) L R /\ out = map Some (concat L) /\ (RunByQuery R perm m -> L = R)
  end.
Proof.
  intros HP (HO&H1&H2) Hc Hl Hq Hs.
  pose proof (queryImpl_ok R perm HP m PreallocationSoft _ _ _ HO H1 H2 Hc Hl (fun _ => Hq) (fun _ => Hs)) as H.
  destruct (queryImpl _ _ _ _ _ _) as [| | |out offset]; auto.
  - by destruct H as (?&_).
  - destruct H as (_&HI&L&HF&Hout&HB). split; [done|]. exists L. split; [done|]. split; [done|]. intros (_&?&?). auto.
Qed.

(** Spatial queries on a tree, no or soft buffer: in every interleaving no access is out of bounds, nothing is thrown,
    and on completion the offsets and the values are the results of the queries in callback order. *)
Theorem C11_spatial_tree : forall A (R : list (list A)) perm m bs out0,
  perm ≡ₚ seq 0 (length R) -> RunByQuery R perm m -> (0 <= bs)%Z ->
  (query_spatial m (length R) perm bs out0 = Unfinished /\ ~ RunsOn m) \/
  exists out offset, query_spatial m (length R) perm bs out0 = Done out offset /\ CrsAnswerOrdered R out offset.
Proof.
  intros A R perm m bs out0 HP HR Hb. pose proof (spatial_run R perm m bs out0 HP (any_of_by_query _ _ _ HR)) as H.
  destruct (query_spatial _ _ _ _ _) as [| | |out offset] eqn:E; [done|left; split; [done|]; intros [Hf1 Hf2]; by eapply queryImpl_finish in E|lia|].
  right. exists out, offset. split; [done|]. destruct H as (_&HI&L&_&->&HL). rewrite (HL HR). split; done.
Qed.
Print Assumptions C11_spatial_tree.

(** The same when any thread may insert any result of any query (brute force): the slices are right up to order. *)
Theorem C11_spatial_any_threads : forall A (R : list (list A)) perm m bs out0,
  perm ≡ₚ seq 0 (length R) -> RunAny R perm m -> (0 <= bs)%Z ->
  (query_spatial m (length R) perm bs out0 = Unfinished /\ ~ RunsOn m) \/
  exists out offset, query_spatial m (length R) perm bs out0 = Done out offset /\ CrsAnswer R out offset.
Proof.
  intros A R perm m bs out0 HP HR Hb. pose proof (spatial_run R perm m bs out0 HP HR) as H.
  destruct (query_spatial _ _ _ _ _) as [| | |out offset] eqn:E; [done|left; split; [done|]; intros [Hf1 Hf2]; by eapply queryImpl_finish in E|lia|].
  right. exists out, offset. split; [done|]. destruct H as (_&HI&L&HF&->&_). split; [done|]. eauto.
Qed.
Print Assumptions C11_spatial_any_threads.

(** Ordered queries always take the soft-buffer path, whatever buffer size (even negative) was asked for. *)
Theorem C11_ordered : forall A (R : list (list A)) perm m bs out0,
  perm ≡ₚ seq 0 (length R) -> RunByQuery R perm m ->
  (query_ordered m (length R) perm bs out0 = Unfinished /\ ~ RunsOn m) \/
  exists out offset, query_ordered m (length R) perm bs out0 = Done out offset /\ CrsAnswerOrdered R out offset.
Proof.
  intros A R perm m bs out0 HP HR. destruct (alloc_spatial_ok (length R) bs out0) as (Hc&Hl&Hq&Hs).
  pose proof (soft_run R perm m _ _ HP (any_of_by_query _ _ _ HR) Hc Hl Hq Hs) as H. unfold query_ordered.
  destruct (queryImpl _ _ _ _ _ _) as [| | |out offset] eqn:E; [done|left; split; [done|]; intros [Hf1 Hf2]; by eapply queryImpl_finish in E|done|].
  right. exists out, offset. split; [done|]. destruct H as (HI&L&_&->&HL). rewrite (HL HR). split; done.
Qed.
Print Assumptions C11_ordered.

(** Nearest queries: buffers of k entries per query; a callback may emit fewer or more values than k. *)
Theorem C11_nearest : forall A (R : list (list A)) perm m ks garbage,
  perm ≡ₚ seq 0 (length R) -> RunByQuery R perm m -> length ks = length R ->
  (query_nearest m (length R) perm ks garbage = Unfinished /\ ~ RunsOn m) \/
  exists out offset, query_nearest m (length R) perm ks garbage = Done out offset /\ CrsAnswerOrdered R out offset.
Proof.
  intros A R perm m ks g HP HR Hk. destruct (alloc_nearest_ok (A:=A) ks g) as (Hl&Hq&Hs). rewrite Hk in *.
  pose proof (soft_run R perm m _ _ HP (any_of_by_query _ _ _ HR) Hk Hl Hq (or_introl Hs)) as H. unfold query_nearest.
  destruct (queryImpl _ _ _ _ _ _) as [| | |out offset] eqn:E; [done|left; split; [done|]; intros [Hf1 Hf2]; by eapply queryImpl_finish in E|done|].
  right. exists out, offset. split; [done|]. destruct H as (HI&L&_&->&HL). rewrite (HL HR). split; done.
Qed.
Print Assumptions C11_nearest.

(** C12: two completed runs with different orders of the predicates, buffer sizes, leftover output views and schedules
    give the same output. *)
Theorem C12_sorting_predicates : forall A (R : list (list A)) perm perm' m m' bs bs' out0 out0' out out' offset offset',
  perm ≡ₚ seq 0 (length R) -> perm' ≡ₚ seq 0 (length R) -> RunByQuery R perm m -> RunByQuery R perm' m' ->
  query_spatial m (length R) perm bs out0 = Done out offset ->
  query_spatial m' (length R) perm' bs' out0' = Done out' offset' ->
  out = out' /\ offset = offset'.
Proof.
  intros A R perm perm' m m' bs bs' out0 out0' out out' offset offset' HP HP' HR HR' E E'.
  pose proof (spatial_run R perm m bs out0 HP (any_of_by_query _ _ _ HR)) as H. rewrite E in H.
  pose proof (spatial_run R perm' m' bs' out0' HP' (any_of_by_query _ _ _ HR')) as H'. rewrite E' in H'.
  destruct H as (_&[Hl Hq]&L&_&->&HL). destruct H' as (_&[Hl' Hq']&L'&_&->&HL'). rewrite (HL HR), (HL' HR').
  split; [done|]. apply list_eq. intros q. destruct (Nat.lt_ge_cases q (S (length R))) as [Hlt|Hge].
  - rewrite Hq, Hq' by lia. done.
  - rewrite !lookup_ge_None_2 by lia. done.
Qed.
Print Assumptions C12_sorting_predicates.

(** C13: a hard limit of b results throws iff some query has more than b; otherwise the answer is the usual one. *)
Theorem C13_hard_buffer : forall A (R : list (list A)) perm m b out0,
  perm ≡ₚ seq 0 (length R) -> RunByQuery R perm m -> 1 <= b ->
  let r := query_spatial m (length R) perm (- Z.of_nat b) out0 in
  (r = Unfinished /\ ~ RunsOn m) \/
  (r = Thrown /\ exists q l, R !! q = Some l /\ b < length l) \/
  (exists out offset, r = Done out offset /\ CrsAnswerOrdered R out offset /\ forall q l, R !! q = Some l -> length l <= b).
Proof.
  intros A R perm m b out0 HP HR Hb r. pose proof (spatial_run R perm m (- Z.of_nat b) out0 HP (any_of_by_query _ _ _ HR)) as H.
  fold r in H. replace (Z.abs_nat (- Z.of_nat b)) with b in H by lia.
  destruct r as [| | |out offset] eqn:E; [done|left; split; [done|]; intros [Hf1 Hf2]; by eapply queryImpl_finish in E|destruct H; auto|].
  right. right. exists out, offset. destruct H as (Hn&HI&L&_&->&HL). rewrite (HL HR).
  split; [done|]. split; [split; done|]. apply Hn. lia.
Qed.
Print Assumptions C13_hard_buffer.

(** Three queries with 2, 0 and 3 results, handled in the order 2, 0, 1; schedules interleave the threads. *)
Definition ex_R : list (list nat) := [[7; 8]; []; [5; 6; 9]].
Definition ex_perm : list nat := [2; 0; 1].
Definition ex_progs : list (list (nat * nat)) := [[(0, 5); (0, 6); (0, 9)]; [(1, 7); (1, 8)]; []].
Definition ex_sched : list nat := [0; 1; 0; 1; 1; 0; 0; 1; 0; 0; 2; 1; 0; 1].
Definition ex_m : machine nat := Machine ex_progs ex_sched ex_progs ex_sched [2; 0; 1] [1; 2; 0] [0; 2; 1].

Example C11_example : ex_perm ≡ₚ seq 0 (length ex_R) /\ RunByQuery ex_R ex_perm ex_m /\ RunsOn ex_m /\
  let ans := Done [Some 7; Some 8; Some 5; Some 6; Some 9] [0; 2; 2; 5] in
  query_spatial ex_m 3 ex_perm 0 [] = ans /\            (* no buffer *)
  query_spatial ex_m 3 ex_perm 2 [] = ans /\            (* too small: second pass *)
  query_spatial ex_m 3 ex_perm 4 [] = ans /\            (* large: compression *)
  query_ordered ex_m 3 ex_perm 0 [Some 1] = ans /\
  query_nearest ex_m 3 ex_perm [2; 0; 3] 17 = ans /\    (* exactly enough *)
  query_nearest ex_m 3 ex_perm [2; 2; 3] 17 = ans.
Proof.
  assert (forall l, l = [2; 0; 1] \/ l = [1; 2; 0] \/ l = [0; 2; 1] -> l ≡ₚ seq 0 3) as HP.
  { intros l [Hl|[Hl|Hl]]; subst l; simpl.
    - change [2; 0; 1] with ([2] ++ [0; 1]). rewrite Permutation_app_comm. done.
    - change [1; 2; 0] with ([1; 2] ++ [0]). rewrite Permutation_app_comm. done.
    - constructor. constructor. }
  split; [apply HP; auto|]. split; [split; [split; [apply HP; auto|split; apply HP; auto]|split; reflexivity]|].
  split. { split; intros [|[|[|t]]] prog [= <-]; vm_compute; lia. }
  repeat split; vm_compute; reflexivity.
Qed.

(** C12 on the example: identity and sorted order give the same output. *)
Definition ex_progs_id : list (list (nat * nat)) := [[(0, 7); (0, 8)]; []; [(2, 5); (2, 6); (2, 9)]].
Definition ex_m_id : machine nat :=
  Machine ex_progs_id ([2; 2; 0] ++ ex_sched ++ [2; 2; 2; 2; 2; 2]) ex_progs_id ([2; 2; 0] ++ ex_sched ++ [2; 2; 2; 2; 2; 2])
    [0; 1; 2] [0; 1; 2] [0; 1; 2].
Example C12_example : RunByQuery ex_R [0; 1; 2] ex_m_id /\
  query_spatial ex_m_id 3 [0; 1; 2] 1 [] = Done [Some 7; Some 8; Some 5; Some 6; Some 9] [0; 2; 2; 5] /\
  query_spatial ex_m 3 ex_perm 4 [] = Done [Some 7; Some 8; Some 5; Some 6; Some 9] [0; 2; 2; 5].
Proof. split; [repeat split; reflexivity|]. split; vm_compute; reflexivity. Qed.

Example C13_example : query_spatial ex_m 3 ex_perm (-2) [] = Thrown /\
  query_spatial ex_m 3 ex_perm (-3) [] = Done [Some 7; Some 8; Some 5; Some 6; Some 9] [0; 2; 2; 5].
Proof. split; vm_compute; reflexivity. Qed.

(** Two threads inserting for the same query (brute force): the order depends on the schedule, the set does not. *)
Example C11_example_brute_force :
  let progs := [[(0, 1); (1, 2)]; [(0, 3)]] in
  let m ts := Machine progs ts progs ts [0; 1] [1; 0] [0; 1] in
  query_spatial (m [0; 0; 0; 0; 1; 1]) 2 [0; 1] 0 [] = Done [Some 1; Some 3; Some 2] [0; 2; 3] /\
  query_spatial (m [1; 0; 1; 0; 0; 0]) 2 [0; 1] 0 [] = Done [Some 3; Some 1; Some 2] [0; 2; 3].
Proof. split; vm_compute; reflexivity. Qed.
