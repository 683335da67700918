(** C100: the edges of the union-find benchmark with loops *)
From Verif Require Export BenchLoopsModel PropertiesBenchData.

Lemma draw_edge_ok num_edges rand fuel : forall k e, draw_edge fuel rand k num_edges = Some e -> 0 < num_edges -> e.1 < num_edges /\ e.2 < num_edges /\ e.1 <> e.2.
Proof.
  induction fuel as [|fuel IH]; intros k e H Hn; [done|]. cbn [draw_edge] in H. destruct (Nat.eqb_spec (rand k mod num_edges) (rand (S k) mod num_edges)) as [E|E]; [by eapply IH|].
  injection H as <-. cbn [fst snd]. split; [apply Nat.mod_upper_bound; lia|]. split; [apply Nat.mod_upper_bound; lia|done].
Qed.
Lemma draw_edge_ends num_edges rand : forall m k, rand (2 * m + k) mod num_edges <> rand (S (2 * m + k)) mod num_edges -> forall fuel, m < fuel -> is_Some (draw_edge fuel rand k num_edges).
Proof.
  induction m as [|m IH]; intros k H fuel Hf; (destruct fuel as [|fuel]; [lia|]); cbn [draw_edge]; destruct (Nat.eqb_spec (rand k mod num_edges) (rand (S k) mod num_edges)) as [E|E].
  - by destruct H.
  - by eexists.
  - apply IH; [|lia]. by replace (2 * m + S (S k)) with (2 * S m + k) by lia.
  - by eexists.
Qed.
Lemma build_loops_ok fuel rand m order out : order ≡ₚ seq 0 m -> length out = m -> (forall i, i < m -> is_Some (draw_edge fuel (rand i) 0 m)) ->
  exists edges, build_edges_loops fuel rand m order out = Some edges /\ length edges = m /\ forall i, i < m -> edges !! i = draw_edge fuel (rand i) 0 m.
Proof.
  intros HO HL HD. destruct (par_writes_correct (fun i => Some i) (fun i => draw_edge fuel (rand i) 0 m) order out) as (edges & E & L & W & _).
  - rewrite HO. apply NoDup_seq.
  - intros i Hi. rewrite HO in Hi. apply elem_of_seq in Hi. destruct (HD i) as [e He]; [lia|]. exists i, e. split; [done|]. split; [done|lia].
  - congruence.
  - exists edges. split; [done|]. split; [lia|]. intros i Hi. apply (W i i); [|done]. rewrite HO. apply elem_of_seq. lia.
Qed.

(** Every edge joins two different vertices below the number of edges, if every iteration at some time draws two numbers that differ modulo the
    number of edges.  The benchmark has one vertex more: it is in no edge, and whatever the schedule of the merges it stays alone. *)
Theorem C100_edges : forall m (rand : nat -> nat -> nat) (order : list nat) (out : list (nat * nat)), order ≡ₚ seq 0 m -> length out = m ->
  (forall i, i < m -> exists k, rand i (2 * k) mod m <> rand i (S (2 * k)) mod m) ->
  exists fuel edges, build_edges_loops fuel rand m order out = Some edges /\ length edges = m /\
    (forall e, e ∈ edges -> e.1 < m /\ e.2 < m /\ e.1 <> e.2) /\
    forall ts s, execg ustep (uinit (seq 0 (m + 1)) (edge_merges edges)) ts s -> uall_done s -> RootOf (u_labels s) m m.
Proof.
  intros m rand order out HO HL HR.
  assert (exists fuel, forall i, i < m -> is_Some (draw_edge fuel (rand i) 0 m)) as [fuel HD].
  { assert (forall j, j <= m -> exists K, forall i, i < j -> exists k, k < K /\ rand i (2 * k) mod m <> rand i (S (2 * k)) mod m) as HB.
    { induction j as [|j IH]; intros Hj; [exists 0; intros; lia|]. destruct IH as [K HK]; [lia|]. destruct (HR j) as [k Hk]; [lia|]. exists (S (K + k)). intros i Hi.
      destruct (decide (i = j)) as [->|Hij]; [exists k; split; [lia|done]|]. destruct (HK i) as (k' & H1 & H2); [lia|]. exists k'. split; [lia|done]. }
    destruct (HB m) as [K HK]; [lia|]. exists K. intros i Hi. destruct (HK i Hi) as (k & Hk & Hne). apply (draw_edge_ends m (rand i) k 0); [by rewrite Nat.add_0_r|done]. }
  destruct (build_loops_ok fuel rand m order out HO HL HD) as (edges & E & L & W). exists fuel, edges. split; [done|]. split; [done|].
  assert (forall e, e ∈ edges -> e.1 < m /\ e.2 < m /\ e.1 <> e.2) as HB.
  { intros e He. apply elem_of_list_lookup_1 in He as [i Hi]. assert (i < m) as Him by (apply lookup_lt_Some in Hi; lia). rewrite (W i Him) in Hi. eapply draw_edge_ok; [exact Hi|lia]. }
  split; [done|]. intros ts s Hx HDn.
  assert (forall a b, Linked (edge_merges edges) a b -> (a, b) ∈ edges) as HLk.
  { intros a b (prog & Hp & Hm). unfold edge_merges in Hp. apply elem_of_list_In, in_map_iff in Hp as ([x y] & <- & He). apply elem_of_list_singleton in Hm. injection Hm as -> ->. by apply elem_of_list_In. }
  destruct (C21_union_find_computes_components (m + 1) (fun _ => true) (edge_merges edges) ts s) as (T1 & T2 & T3); [|done|].
  { intros prog op Hp Hop. unfold edge_merges in Hp. apply elem_of_list_In, in_map_iff in Hp as (e & <- & He). apply elem_of_list_singleton in Hop as ->.
    apply elem_of_list_In in He. specialize (HB e He). cbn. lia. }
  specialize (T3 HDn). assert (forall a b, Conn (Linked (edge_merges edges)) a b -> (a = m <-> b = m)) as HC.
  { intros a b H. induction H as [a b H| | |]; [|done|tauto|tauto]. apply HLk, HB in H. cbn [fst snd] in H. lia. }
  destruct (co_core _ _ _ _ T3 m) as (r & Hr & Hc & _); [lia|done|]. apply HC in Hc. assert (r = m) as -> by tauto. done.
Qed.

(** All vertices of the benchmark can be in edges.  False for every run. *)
Theorem C100_all_vertices_refuted : exists m rand order out fuel edges, order ≡ₚ seq 0 m /\ length out = m /\ build_edges_loops fuel rand m order out = Some edges /\
  exists v, v < m + 1 /\ forall e, e ∈ edges -> e.1 <> v /\ e.2 <> v.
Proof.
  exists 3, (fun i k => 5 * i + k), [0; 1; 2], (replicate 3 (0, 0)), 1, [(0, 1); (2, 0); (1, 2)]. split; [done|]. split; [done|]. split; [vm_compute; reflexivity|].
  exists 3. split; [lia|]. intros e. rewrite !elem_of_cons, elem_of_nil. intros [->|[->|[->|[]]]]; cbn; lia.
Qed.
(** The benchmark ends for every number of edges.  False for one edge: the loop never ends, whatever the random numbers. *)
Theorem C100_one_edge_refuted : exists m, 1 <= m /\ forall fuel rand order out, order ≡ₚ seq 0 m -> length out = m -> build_edges_loops fuel rand m order out = None.
Proof.
  exists 1. split; [done|]. intros fuel rand order out HO HL.
  assert (forall fuel k, draw_edge fuel (rand 0) k 1 = None) as HN. { induction fuel0 as [|f IH]; intros k; [done|]. cbn [draw_edge]. rewrite !Nat.mod_1_r. cbn. apply IH. }
  assert (order = [0]) as -> by (by apply Permutation_singleton_r in HO). unfold build_edges_loops. cbn [par_writes mbind option_bind]. by rewrite HN.
Qed.

(** Three edges on four vertices; iteration 1 draws twice. *)
Example C100_example : let rand := fun i k => match i with 1 => match k with 0 | 1 => 4 | _ => k end | _ => i + k end in
  (forall i, i < 3 -> exists k, rand i (2 * k) mod 3 <> rand i (S (2 * k)) mod 3) /\
  build_edges_loops 2 rand 3 [2; 0; 1] (replicate 3 (0, 0)) = Some [(0, 1); (2, 0); (2, 0)] /\ build_edges_loops 1 rand 3 [2; 0; 1] (replicate 3 (0, 0)) = None.
Proof.
  cbv zeta. split; [|split; vm_compute; reflexivity]. intros i Hi. exists 1. destruct i as [|[|[|i]]]; [vm_compute; lia|vm_compute; lia|vm_compute; lia|lia].
Qed.

Print Assumptions C100_edges.
Print Assumptions C100_all_vertices_refuted.
Print Assumptions C100_one_edge_refuted.
