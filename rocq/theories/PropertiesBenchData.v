(** C85 - C89: the data of the benchmarks *)
From Verif Require Export BenchDataProof PropertiesFactors PropertiesUnionFind.

(** C85.  generatePointCloud, whatever the order of its batches: exactly the points up to the last multiple of 8 are written, each with the
    point drawn for it; the others keep what was in memory. *)
Theorem C85_point_cloud : forall (P : Type) (point : nat -> P) (order : list nat) (out : list P),
  order ≡ₚ seq 0 (cloud_iterations (length out)) ->
  exists out', cloud_batches point order out = Some out' /\ length out' = length out /\
    forall k, k < length out -> out' !! k = if k <? 8 * (length out / 8) then Some (point k) else out !! k.
Proof.
  intros P point order out HO. destruct (cloud_batches_ok point order out) as (out' & E & L & W). exists out'. split; [done|]. split; [done|].
  intros k Hk. rewrite (W k Hk). unfold batch_size. destruct (Nat.ltb_spec k (8 * (length out / 8))) as [H|H]; destruct (decide _) as [Hd|Hd]; try done.
  - destruct Hd. rewrite HO. apply elem_of_seq. unfold cloud_iterations, batch_size. lia.
  - rewrite HO in Hd. apply elem_of_seq in Hd. unfold cloud_iterations, batch_size in Hd. lia.
Qed.
(** Hence with a multiple of 8 points, all are. *)
Theorem C85_multiple_of_8 : forall (P : Type) (point : nat -> P) (order : list nat) (out : list P) m,
  length out = 8 * m -> order ≡ₚ seq 0 (cloud_iterations (length out)) -> cloud_batches point order out = Some (map point (seq 0 (length out))).
Proof.
  intros P point order out m Hm HO. destruct (C85_point_cloud P point order out HO) as (out' & E & L & W). rewrite E. f_equal. apply list_eq.
  intros k. change (map point (seq 0 (length out))) with (point <$> seq 0 (length out)). rewrite list_lookup_fmap. destruct (decide (k < length out)) as [Hk|Hk].
  - rewrite (W k Hk), lookup_seq_lt by done. destruct (Nat.ltb_spec k (8 * (length out / 8))); [done|]. lia.
  - rewrite !lookup_ge_None_2; [done|rewrite seq_length; lia|lia].
Qed.
(** All points of the cloud are generated.  False: with 12 points, the last four stay as they were (not initialised: bvh_driver allocates the
    points without initialising them). *)
Theorem C85_all_points_refuted : exists (point : nat -> nat) (order : list nat) (out out' : list nat),
  order ≡ₚ seq 0 (cloud_iterations (length out)) /\ cloud_batches point order out = Some out' /\ ~ (forall k, k < length out -> out' !! k = Some (point k)).
Proof.
  exists (fun k => 100 + k), [0], (seq 0 12), (seq 100 8 ++ seq 8 4). split; [done|]. split; [vm_compute; done|].
  intros H. specialize (H 8 ltac:(vm_compute; lia)). discriminate H.
Qed.
Example C85_example : cloud_batches (fun k => 100 + k) [1; 0; 2] (seq 0 25) = Some (seq 100 24 ++ [24]).
Proof. vm_compute. done. Qed.

(** C86.  sampleData, for at least two samples and at most as many as there are data: exactly that many are taken, each datum at most once and in
    order. *)
Theorem C86_sample : forall (P : Type) (dflt : P) (data : list P) M, 2 <= M -> M <= length data ->
  exists s, sample_data dflt data M = Some s /\ length s = M /\ s `sublist_of` data.
Proof.
  intros P dflt data M H1 H2. unfold sample_data. destruct (Nat.leb_spec M 1); [lia|].
  destruct (knuth_ok (length data) M data 0 0 (1337 mod (Z.of_nat M - 1) + 1)%Z) as [E S]; [lia..|]. rewrite E.
  replace (M - (M - 0)) with 0 by lia. cbn [replicate]. rewrite app_nil_r. eexists. split; [done|]. split; [lia|done].
Qed.
(** Any positive number of samples smaller than the number of points can be asked for.  False: one sample is a division by zero. *)
Theorem C86_one_sample_refuted : exists (data : list nat) num_samples,
  (0 < num_samples < Z.of_nat (length data))%Z /\ load_sampled 0 data num_samples = None.
Proof. exists [5; 6; 7], 1%Z. split; [cbn; lia|]. vm_compute. done. Qed.
Example C86_example : sample_data 0 (seq 100 20) 6 = Some [103; 109; 110; 112; 115; 119].
Proof. vm_compute. done. Qed.

(** C87.  The distributed loadData, for at least as many points as ranks: the ranks together read, in order, an initial part of what is asked for;
    its length is as below.  Everything is read exactly when the remainder is smaller than what a rank gets. *)
Theorem C87_load : forall (P : Type) (file : list P) max comm_size, let num := num_to_read (length file) max in 1 <= comm_size -> comm_size <= num ->
  exists parts, load_all file max comm_size = Some parts /\ length parts = comm_size /\
    concat parts = take (comm_size * (num / comm_size) + num mod (num / comm_size)) file /\
    (concat parts = take num file <-> num mod comm_size < num / comm_size).
Proof.
  intros P file max cs num H1 Hn. destruct (load_all_ok file max cs H1 Hn) as (parts & E & L & C). exists parts. split; [done|]. split; [done|].
  fold num in C. split; [done|]. rewrite C.
  assert (1 <= num / cs) as Hp by (apply Nat.div_le_lower_bound; lia).
  assert (num <= length file) as HN. { unfold num, num_to_read. destruct (_ && _) eqn:Eb; [|lia]. apply andb_true_iff in Eb as [_ Eb]. apply Z.ltb_lt in Eb. lia. }
  pose proof (Nat.div_mod num cs ltac:(lia)) as D. pose proof (Nat.mod_upper_bound num (num / cs) ltac:(lia)) as B.
  assert (num mod (num / cs) = (num mod cs) mod (num / cs)) as R.
  { rewrite D at 1. rewrite Nat.add_comm, Nat.mod_add by lia. done. }
  split.
  - intros HE. apply (f_equal length) in HE. rewrite !take_length in HE.
    pose proof (Nat.mod_le (num mod cs) (num / cs) ltac:(lia)). lia.
  - intros Hlt. rewrite R, (Nat.mod_small (num mod cs)) by done. f_equal. lia.
Qed.
(** Every point is read by some rank.  False: of ten points, four ranks read eight. *)
Theorem C87_all_points_refuted : exists (file : list nat) comm_size parts x,
  comm_size <= length file /\ load_all file (-1) comm_size = Some parts /\ x ∈ file /\ x ∉ concat parts.
Proof.
  exists (seq 0 10), 4, [[0; 1]; [2; 3]; [4; 5]; [6; 7]], 9. split; [vm_compute; lia|]. split; [vm_compute; done|].
  split; [apply elem_of_seq; lia|]. cbn [concat app]. rewrite !elem_of_cons, elem_of_nil. lia.
Qed.
(** Files with fewer points than ranks can be read.  False: division by zero on the last rank. *)
Theorem C87_few_points_refuted : exists (file : list nat) comm_size, load_all file (-1) comm_size = None /\ 1 <= comm_size /\ file <> [].
Proof. exists [1; 2], 3. vm_compute. split; [done|]. split; [lia|done]. Qed.
Example C87_example : load_all (seq 0 11) (-1) 3 = Some [[0; 1; 2]; [3; 4; 5]; [6; 7; 8; 9; 10]].
Proof. vm_compute. done. Qed.

(** C88.  generateDistributedData: whatever the orders of the iterations on the ranks, the points of all ranks together are those of one lattice,
    each once: of the positions 0 .. factor * nx - 1 in every dimension. *)
Theorem C88_lattice : forall DIM comm_size nx num_seq spacing (orders : nat -> list nat) (outs : nat -> list (list nat)),
  1 <= DIM -> 1 <= comm_size -> 1 <= nx -> 1 <= num_seq -> 1 <= spacing ->
  (forall rank, rank < comm_size -> orders rank ≡ₚ seq 0 (nx ^ DIM) /\ length (outs rank) = nx ^ DIM) ->
  exists factors parts, closestFactors DIM comm_size = Some factors /\
    mapM (fun rank => lattice DIM nx num_seq spacing rank comm_size (orders rank) (outs rank)) (seq 0 comm_size) = Some parts /\
    NoDup (concat parts) /\
    forall x, x ∈ concat parts <-> exists ps, Forall2 (fun p f => p < f * nx) ps factors /\ x = map (lattice_pos num_seq spacing) ps.
Proof.
  intros DIM cs nx num_seq spacing orders outs HD Hc Hx Hn Hs HO. destruct (C49_closestFactors DIM cs HD Hc) as (factors & EF & HL & HP & HF & _).
  eexists factors, _. split; [done|]. split; [|exact (lattice_all_ok DIM nx num_seq spacing cs factors Hx Hn Hs HL HP HF)].
  apply mapM_Some. change (map ?f ?l) with (f <$> l). apply Forall2_fmap_r, Forall_Forall2_diag, Forall_forall.
  intros rank Hr. apply elem_of_seq in Hr. destruct (HO rank) as [O1 O2]; [lia|]. by apply lattice_rank_ok.
Qed.
(** Neighbouring positions are at distance 1 within a sequence and at distance [spacing] between sequences. *)
Theorem C88_spacing : forall num_seq spacing p, 1 <= num_seq -> 1 <= spacing ->
  lattice_pos num_seq spacing (S p) = lattice_pos num_seq spacing p + (if (S p) mod num_seq =? 0 then spacing else 1).
Proof. exact lattice_pos_S. Qed.
Example C88_example : map (lattice_pos 3 5) (seq 0 7) = [0; 1; 2; 7; 8; 9; 14] /\
  mapM (fun rank => lattice 2 2 3 5 rank 2 [3; 0; 2; 1] (replicate 4 [])) (seq 0 2) = Some [[[0; 0]; [1; 0]; [0; 1]; [1; 1]]; [[2; 0]; [7; 0]; [2; 1]; [7; 1]]].
Proof. vm_compute. done. Qed.

(** C89.  The union-find benchmark without loops, whatever the random numbers, the permutation and the schedules: the edges join every vertex to a
    smaller one, so they form a tree with all vertices; every run of the merges is finite, and at the end all vertices have the root 0. *)
Theorem C89_tree : forall m (rand : nat -> nat) (permute order : list nat) (out : list (nat * nat)),
  permute ≡ₚ seq 0 m -> order ≡ₚ seq 0 m -> length out = m ->
  exists edges, build_edges rand permute order out = Some edges /\ length edges = m /\
    (forall v, 1 <= v <= m -> exists u, u < v /\ List.filter (fun e => e.2 =? v) edges = [(u, v)]) /\
    (forall e, e ∈ edges -> e.1 < e.2 <= m) /\
    forall ts s, execg ustep (uinit (seq 0 (m + 1)) (edge_merges edges)) ts s ->
      length ts <= (8 * (m + 1) + 12) * m /\
      (forall t th, u_thr s !! t = Some th -> snd th <> None -> is_Some (ustep s t)) /\
      (uall_done s -> forall v, v <= m -> RootOf (u_labels s) v 0).
Proof.
  intros m rand permute order out HP HO HL. destruct (build_edges_ok rand permute order out m HP HO HL) as (edges & E & L & HE & HI).
  assert (forall i, rand i mod (i + 1) < i + 1) as HM by (intros i; apply Nat.mod_upper_bound; lia).
  exists edges. split; [done|]. split; [done|]. split.
  { intros v Hv. destruct (HE (v - 1)) as (k & Hk & Ep & Ek); [lia|]. exists (rand (v - 1) mod (v - 1 + 1)). split; [specialize (HM (v - 1)); lia|].
    replace (v - 1 + 1) with v in * by lia.
    assert (forall k', edges !! k' = Some (rand (v - 1) mod v, v) -> k' = k) as HU.
    { intros k' Hk'. assert (k' < m) by (apply lookup_lt_Some in Hk'; lia). assert (k' ∈ permute) as Hin by (rewrite HP; apply elem_of_seq; lia).
      apply elem_of_list_lookup_1 in Hin as [i Hi]. assert (i < m) as Him by (apply lookup_lt_Some in Hi; rewrite HP, seq_length in Hi; done).
      destruct (HE i Him) as (k2 & _ & E2 & E3). assert (k2 = k') by congruence. subst k2. rewrite Hk' in E3. injection E3 as _ E3.
      assert (i = v - 1) by lia. subst i. congruence. }
    rewrite <- (take_drop_middle edges k _ Ek), List.filter_app. cbn [List.filter snd]. rewrite Nat.eqb_refl.
    assert (forall l : list (nat * nat), (forall e, e ∈ l -> e.2 <> v) -> List.filter (fun e => e.2 =? v) l = []) as HN.
    { clear. induction l as [|e l IH]; intros H; [done|]. cbn [List.filter]. destruct (Nat.eqb_spec e.2 v) as [Ee|_]; [destruct (H e); [left|done]|].
      apply IH. intros e' He. apply H. by right. }
    assert (forall k' e, edges !! k' = Some e -> e.2 = v -> k' = k) as HU'.
    { intros k' e Hk' Ev. apply HU. rewrite Hk'. destruct (HI e) as (i & Hi & ->); [by eapply elem_of_list_lookup_2|]. cbn [snd] in Ev.
      assert (i = v - 1) as -> by lia. by replace (v - 1 + 1) with v by lia. }
    rewrite !HN; [done| |].
    - intros e He Ev. apply elem_of_list_lookup_1 in He as [j Hj]. rewrite lookup_drop in Hj. specialize (HU' _ _ Hj Ev). lia.
    - intros e He Ev. apply elem_of_list_lookup_1 in He as [j Hj]. apply lookup_take_Some in Hj as [Hj Hlt]. specialize (HU' _ _ Hj Ev). lia. }
  assert (forall e, e ∈ edges -> e.1 < e.2 <= m) as HB.
  { intros e He. destruct (HI e He) as (i & Hi & ->). cbn [fst snd]. specialize (HM i). lia. }
  split; [done|]. intros ts s Hx.
  assert (forall a b, Linked (edge_merges edges) a b <-> (a, b) ∈ edges) as HLk.
  { intros a b. unfold Linked, edge_merges. split.
    - intros (prog & Hp & Hm). apply elem_of_list_In, in_map_iff in Hp as ([x y] & <- & He). apply elem_of_list_singleton in Hm. injection Hm as -> ->.
      by apply elem_of_list_In.
    - intros He. exists [Merge a b]. split; [|left]. apply elem_of_list_In, in_map_iff. exists (a, b). split; [done|by apply elem_of_list_In]. }
  destruct (C21_union_find_computes_components (m + 1) (fun _ => true) (edge_merges edges) ts s) as (T1 & T2 & T3); [|done|].
  { intros prog op Hp Hop. unfold edge_merges in Hp. apply elem_of_list_In, in_map_iff in Hp as (e & <- & He). apply elem_of_list_singleton in Hop as ->.
    apply elem_of_list_In in He. specialize (HB e He). cbn. lia. }
  split.
  { replace (total_ops (edge_merges edges)) with m in T1; [done|]. rewrite <- L. clear. unfold total_ops, edge_merges. induction edges as [|e l IH]; [done|].
    cbn. cbn in IH. lia. }
  split; [done|]. intros HD v Hv. specialize (T3 HD).
  assert (forall v, v <= m -> Conn (Linked (edge_merges edges)) v 0) as HC.
  { clear v Hv. intros v. induction v as [v IH] using lt_wf_ind. intros Hv. destruct (decide (v = 0)) as [->|Hz]; [apply rst_refl|].
    destruct (HE (v - 1)) as (k & _ & _ & Ek); [lia|]. replace (v - 1 + 1) with v in Ek by lia. apply elem_of_list_lookup_2 in Ek.
    pose proof (HB _ Ek) as Hlt. cbn [fst snd] in Hlt.
    apply rst_trans with (rand (v - 1) mod v); [apply rst_sym, rst_step, HLk, Ek|]. apply IH; lia. }
  destruct (co_core _ _ _ _ T3 v) as (r & Hr & _ & Hmin); [lia|done|]. specialize (Hmin 0 (HC v Hv)). by replace r with 0 in Hr by lia.
Qed.
Example C89_example : build_edges (fun i => 7 * i + 3) [2; 0; 1] [1; 2; 0] (replicate 3 (0, 0)) = Some [(0, 2); (2, 3); (0, 1)].
Proof. vm_compute. done. Qed.

Print Assumptions C85_point_cloud.
Print Assumptions C85_multiple_of_8.
Print Assumptions C85_all_points_refuted.
Print Assumptions C86_sample.
Print Assumptions C86_one_sample_refuted.
Print Assumptions C87_load.
Print Assumptions C87_all_points_refuted.
Print Assumptions C87_few_points_refuted.
Print Assumptions C88_lattice.
Print Assumptions C88_spacing.
Print Assumptions C89_tree.
