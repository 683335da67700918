(** C30, C31, C55, C56: distributed DBSCAN. *)
From stdpp Require Import sorting.
From Verif Require Export DistPipelineProof.
Local Open Scope nat_scope.

(** ** C31: counts, offsets and the conversion of local to global labels *)
(** Offsets are the exclusive prefix sums of what the ranks contributed; the last one is the total. *)
Theorem C31_counts_offsets (ns : list nat) :
  fst (counts_and_offsets (Z.of_nat <$> ns)) = Z.of_nat <$> ns /\
  length (snd (counts_and_offsets (Z.of_nat <$> ns))) = S (length ns) /\
  forall r, r <= length ns -> snd (counts_and_offsets (Z.of_nat <$> ns)) !! r = Some (Z.of_nat (sum_list (take r ns))).
Proof.
  split; [done|]. split.
  - unfold counts_and_offsets. cbn [snd]. generalize 0%Z. induction ns as [|n l IH]; intros z; csimpl; [done|]. by rewrite IH.
  - intros r Hr. unfold counts_and_offsets. cbn [snd]. rewrite offsets_from_lookup by done. done.
Qed.

Lemma all_points_at ns p : point ns p -> all_points ns !! (sum_list (take (fst p) ns) + snd p) = Some p.
Proof.
  destruct p as [r i]. intros (n & En & Hi). simpl in *. unfold all_points.
  set (L := imap (fun r n => (fun i => (r, i)) <$> seq 0 n) ns).
  assert (length <$> L = ns) as HL.
  { apply list_eq. intros k. unfold L. rewrite list_lookup_fmap, list_lookup_imap. destruct (ns !! k); simpl; [|done]. by rewrite fmap_length, seq_length. }
  rewrite <- HL at 1. apply concat_at with (l := (fun i => (r, i)) <$> seq 0 n).
  - unfold L. rewrite list_lookup_imap, En. done.
  - rewrite list_lookup_fmap, lookup_seq_lt by done. done.
Qed.
Lemma convert_at ns r n ghosts j p : ns !! r = Some n -> (forall g, g ∈ ghosts -> point ns g) -> unified r n ghosts !! j = Some p ->
  convert_label (snd (counts_and_offsets (Z.of_nat <$> ns))) r n ghosts (Z.of_nat j) = Some (gid ns p).
Proof.
  intros Hn Hg Ej. pose proof (lookup_lt_Some _ _ _ Ej) as Hj. rewrite u_len in Hj. unfold convert_label, counts_and_offsets. cbn [snd].
  destruct (Z.eqb_spec (Z.of_nat j) (-1)); [lia|]. destruct (Z.ltb_spec (Z.of_nat j) (Z.of_nat n)) as [H|H].
  - rewrite u_own in Ej by lia. injection Ej as <-. rewrite offsets_from_lookup by (apply lookup_lt_Some in Hn; lia). cbn [mbind option_bind].
    unfold gid. simpl. f_equal. lia.
  - replace (Z.to_nat (Z.of_nat j - Z.of_nat n)) with (j - n) by lia. replace j with (n + (j - n)) in Ej by lia. rewrite (u_ghost 2 ltac:(lia)) in Ej.
    rewrite Ej. cbn [mbind option_bind]. assert (p ∈ ghosts) as Hin by (by eapply elem_of_list_lookup_2).
    destruct (Hg p Hin) as (m & Em & _). rewrite offsets_from_lookup by (apply lookup_lt_Some in Em; lia). cbn [mbind option_bind].
    unfold gid. f_equal. lia.
Qed.
(** A label that names the [k]-th of the points and ghosts of a rank becomes the position of that point among the points of
    all ranks, whatever rank does the conversion; noise stays noise; nothing is accessed out of bounds. *)
Theorem C31_local_to_global ns r n ghosts labels : ns !! r = Some n -> (forall g, g ∈ ghosts -> point ns g) ->
  (forall j l, labels !! j = Some l -> l = (-1)%Z \/ (0 <= l < Z.of_nat (n + length ghosts))%Z) ->
  exists out, convertLocalToGlobal (snd (counts_and_offsets (Z.of_nat <$> ns))) r n ghosts labels = Some out /\ length out = length labels /\
    (forall j, labels !! j = Some (-1)%Z -> out !! j = Some (-1)%Z) /\
    (forall j k p, labels !! j = Some (Z.of_nat k) -> unified r n ghosts !! k = Some p ->
      exists g, out !! j = Some (Z.of_nat g) /\ all_points ns !! g = Some p).
Proof.
  intros Hn Hg Hl. set (h := convert_label (snd (counts_and_offsets (Z.of_nat <$> ns))) r n ghosts).
  assert (is_Some (mapM h labels)) as [out Ho].
  { apply mapM_is_Some, Forall_lookup. intros j l Ej. change (is_Some (h l)). destruct (Hl j l Ej) as [->|Hr]; [eexists; done|].
    destruct (lookup_lt_is_Some_2 (unified r n ghosts) (Z.to_nat l)) as [p Ep]; [rewrite u_len; lia|].
    exists (gid ns p). unfold h. rewrite <- (convert_at ns r n ghosts _ p Hn Hg Ep). f_equal. lia. }
  exists out. split; [done|]. apply mapM_Some in Ho. split; [symmetry; by eapply Forall2_length|]. split.
  - intros j Ej. destruct (Forall2_lookup_l _ _ _ _ _ Ho Ej) as (z & Ez & Hz). unfold h, convert_label in Hz. simpl in Hz. congruence.
  - intros j k p Ej Ep. destruct (Forall2_lookup_l _ _ _ _ _ Ho Ej) as (z & Ez & Hz). unfold h in Hz.
    rewrite (convert_at ns r n ghosts _ p Hn Hg Ep) in Hz. injection Hz as <-. exists (sum_list (take (fst p) ns) + snd p). split; [done|].
    apply all_points_at. apply elem_of_list_lookup_2 in Ep. unfold unified in Ep. apply elem_of_app in Ep as [Ep|Ep]; [|by apply Hg].
    apply elem_of_list_fmap in Ep as (i & -> & Hi). apply elem_of_seq in Hi. exists n. split; [done|]. simpl. lia.
Qed.
(** Distinct points have distinct positions, so distinct clusters keep distinct labels. *)
Theorem C31_injective ns g g' p : all_points ns !! g = Some p -> all_points ns !! g' = Some p -> g = g'.
Proof. intros H H'. by apply (proj1 (NoDup_alt _) (all_points_NoDup ns) g g' p). Qed.

Example C31_example :
  convertLocalToGlobal (snd (counts_and_offsets (Z.of_nat <$> [2; 3; 1]))) 1 3 [(2, 0); (0, 1)] [0; 2; -1; 3; 4]%Z = Some [2; 4; -1; 5; 1]%Z /\
  all_points [2; 3; 1] = [(0, 0); (0, 1); (1, 0); (1, 1); (1, 2); (2, 0)] /\
  point [2; 3; 1] (2, 0) /\ point [2; 3; 1] (0, 1).
Proof. split; [vm_compute; done|]. split; [vm_compute; done|]. split; [exists 1|exists 2]; (split; [done|simpl; lia]). Qed.

(** ** C30: merging *)
(** Final labels only join what is linked, and every label is chased to its end (no fuel, no bounds problem). *)
Theorem C30_sound_partial (raw : list (list (Z * Z))) (labels : list Z) : (forall f t, (f, t) ∈ concat raw -> (t < f)%Z) ->
  exists pairs out, filter_pairs raw = Some pairs /\ relabel pairs labels = Some out /\ length out = length labels /\
    (forall i a b, labels !! i = Some a -> out !! i = Some b -> clos_refl_sym_trans Z (fun f t => (f, t) ∈ concat raw) a b) /\
    (forall i j a a', labels !! i = Some a -> labels !! j = Some a' -> out !! i = out !! j -> clos_refl_sym_trans Z (fun f t => (f, t) ∈ concat raw) a a').
Proof.
  intros Hd. destruct (filter_pairs_ok raw Hd) as (pairs & Hp & Hs & Hpd & Hpc & _). exists pairs, (final pairs <$> labels).
  split; [done|]. split; [by apply relabel_ok|]. split; [apply fmap_length|].
  assert (forall a, clos_refl_sym_trans Z (fun f t => (f, t) ∈ concat raw) a (final pairs a)) as Hf.
  { intros a. eapply (zmap (Link pairs)); [|by apply final_conn]. intros x y Hxy. by apply Hpc. }
  split.
  - intros i a b Ha Hb. rewrite list_lookup_fmap, Ha in Hb. injection Hb as <-. apply Hf.
  - intros i j a a' Ha Ha' E. rewrite !list_lookup_fmap, Ha, Ha' in E. injection E as E. eapply rst_trans; [apply Hf|]. rewrite E. apply rst_sym, Hf.
Qed.
(** If no label has two targets, final labels agree exactly for linked labels. *)
Theorem C30_complete_partial (raw : list (list (Z * Z))) (labels : list Z) : (forall f t, (f, t) ∈ concat raw -> (t < f)%Z) ->
  (forall f t t', (f, t) ∈ concat raw -> (f, t') ∈ concat raw -> t = t') ->
  exists pairs out, filter_pairs raw = Some pairs /\ relabel pairs labels = Some out /\ length out = length labels /\
    forall i j a a', labels !! i = Some a -> labels !! j = Some a' ->
      (out !! i = out !! j <-> clos_refl_sym_trans Z (fun f t => (f, t) ∈ concat raw) a a').
Proof.
  intros Hd Ho. destruct (C30_sound_partial raw labels Hd) as (pairs & out & Hp & Hr & Hl & _ & H2). exists pairs, out. do 3 (split; [done|]).
  destruct (filter_pairs_ok raw Hd) as (pairs' & Hp' & Hs & Hpd & _ & Hone). assert (pairs' = pairs) as -> by congruence.
  rewrite relabel_ok in Hr by done. injection Hr as <-. destruct (Hone Ho) as [HO Hset].
  intros i j a a' Ha Ha'. split; [by apply H2|]. intros HC. rewrite !list_lookup_fmap, Ha, Ha'. simpl. f_equal.
  clear -HC Hs Hpd HO Hset. induction HC; [apply final_one; try done; by apply Hset|done|done|congruence].
Qed.
Example C30_example : filter_pairs [[(7, 4)]; [(4, 1); (4, 1)]; [(9, 7)]]%Z = Some [(4, 1); (7, 4); (9, 7)]%Z /\
  relabel [(4, 1); (7, 4); (9, 7)]%Z [9; 8; 1; 4]%Z = Some [1; 8; 1; 1]%Z /\
  (forall f t, (f, t) ∈ concat [[(7, 4)]; [(4, 1); (4, 1)]; [(9, 7)]]%Z -> (t < f)%Z) /\
  (forall f t t', (f, t) ∈ concat [[(7, 4)]; [(4, 1); (4, 1)]; [(9, 7)]]%Z -> (f, t') ∈ concat [[(7, 4)]; [(4, 1); (4, 1)]; [(9, 7)]]%Z -> t = t').
Proof.
  split; [vm_compute; done|]. split; [vm_compute; done|]. cbn [concat app]. split.
  - intros f t H. repeat (apply elem_of_cons in H as [[= -> ->]|H]; [lia|]). by apply elem_of_nil in H.
  - intros f t t' H H'. repeat (apply elem_of_cons in H as [H|H]; [repeat (apply elem_of_cons in H' as [H'|H']; [congruence|]); by apply elem_of_nil in H'|]). by apply elem_of_nil in H.
Qed.
(** In general linked labels keep different final labels: 5 is linked to 3 and to 4, 4 to 1, but 3 and 1 stay apart. *)
Theorem C30_refuted : exists raw labels pairs out a a', (forall f t, (f, t) ∈ concat raw -> (t < f)%Z) /\
  filter_pairs raw = Some pairs /\ relabel pairs labels = Some out /\
  labels !! 0 = Some a /\ labels !! 1 = Some a' /\ clos_refl_sym_trans Z (fun f t => (f, t) ∈ concat raw) a a' /\ out !! 0 <> out !! 1.
Proof.
  exists [[(4, 1)]; [(5, 3)]; [(5, 4)]]%Z, [1; 3; 4; 5]%Z. eexists _, _, _, _. split; [|split; [vm_compute; done|]].
  - cbn [concat app]. intros f t H. repeat (apply elem_of_cons in H as [[= -> ->]|H]; [lia|]). by apply elem_of_nil in H.
  - split; [vm_compute; done|]. split; [done|]. split; [done|]. split; [|vm_compute; done].
    cbn [concat app]. apply rst_trans with 4%Z; [apply rst_sym, rst_step; left|]. apply rst_trans with 5%Z; [apply rst_sym, rst_step; do 2 right; left|].
    apply rst_step. right; left.
Qed.

(** ** C55: the whole distributed DBSCAN *)
(** Points that belong together may be separated, but nothing else is wrong: see [SoundDistributed]. *)
Theorem C55_sound_partial minpts near (ranks : list rank_data) srt : 2 <= minpts ->
  (forall p, near p p = true) -> (forall p q, near p q = near q p) ->
  (forall l, srt l ≡ₚ l) -> (forall l i j x y, i <= j -> srt l !! i = Some x -> srt l !! j = Some y -> fst x <= fst y) ->
  (forall r d, ranks !! r = Some d -> EnoughGhosts (rd_n <$> ranks) minpts near r (rd_n d) (rd_ghosts d) /\
                                      LocalDBSCAN minpts near r (rd_n d) (rd_ghosts d) (rd_labels d)) ->
  exists labels, distributed_dbscan srt (merge_core (rd_n <$> ranks) minpts near (rd_ghosts <$> ranks)) ranks = Some labels /\
    SoundDistributed (rd_n <$> ranks) minpts near labels.
Proof.
  intros H1 H2 H3 H4 H5 H6. destruct (distributed_ok minpts near ranks srt H1 H2 H3 H4 H5 H6) as (s5 & pairs & labels & _ & _ & H & HS & _). by exists labels.
Qed.
(** If on all ranks together no label is to be merged into two different ones, the result is a DBSCAN clustering. *)
Theorem C55_complete_partial minpts near (ranks : list rank_data) srt : 2 <= minpts ->
  (forall p, near p p = true) -> (forall p q, near p q = near q p) ->
  (forall l, srt l ≡ₚ l) -> (forall l i j x y, i <= j -> srt l !! i = Some x -> srt l !! j = Some y -> fst x <= fst y) ->
  (forall r d, ranks !! r = Some d -> EnoughGhosts (rd_n <$> ranks) minpts near r (rd_n d) (rd_ghosts d) /\
                                      LocalDBSCAN minpts near r (rd_n d) (rd_ghosts d) (rd_labels d)) ->
  let is_core := merge_core (rd_n <$> ranks) minpts near (rd_ghosts <$> ranks) in
  (forall s5 f t t', until_pairs srt is_core ranks = Some s5 -> (f, t) ∈ concat (snd <$> s5) -> (f, t') ∈ concat (snd <$> s5) -> t = t') ->
  exists labels, distributed_dbscan srt is_core ranks = Some labels /\ ValidDistributed (rd_n <$> ranks) minpts near labels.
Proof.
  intros H1 H2 H3 H4 H5 H6 is_core HO. destruct (distributed_ok minpts near ranks srt H1 H2 H3 H4 H5 H6) as (s5 & pairs & labels & Hs & _ & H & _ & HV & HF).
  exists labels. split; [done|]. apply HV, HF. intros f t t'. by apply HO.
Qed.

(** *** Concrete instances *)
Definition key_le (x y : nat * Z) : Prop := fst x <= fst y.
Global Instance key_le_dec x y : Decision (key_le x y) := le_dec (fst x) (fst y).
Global Instance key_le_total : Total key_le. Proof. intros x y. apply Nat.le_ge_cases. Qed.
Global Instance key_le_trans : Transitive key_le. Proof. intros x y z. unfold key_le. lia. Qed.
Definition ksort : list (nat * Z) -> list (nat * Z) := merge_sort key_le.
Lemma ksort_perm l : ksort l ≡ₚ l. Proof. apply merge_sort_Permutation. Qed.
Lemma ksort_sorted l i j x y : i <= j -> ksort l !! i = Some x -> ksort l !! j = Some y -> fst x <= fst y.
Proof.
  assert (Sorted.StronglySorted key_le (ksort l)) as HS.
  { apply (StronglySorted_merge_sort key_le). }
  revert i j. induction HS as [|a k HS IH Hall]; intros i j Hij Hi Hj; [done|].
  destruct j as [|j]; [assert (i = 0) as -> by lia; assert (x = y) as -> by congruence; done|]. destruct i as [|i]; simpl in *.
  - injection Hi as <-. rewrite Forall_lookup in Hall. by apply (Hall j).
  - apply (IH i j); try done. lia.
Qed.
(** points on a line, two per rank, the ranks in the given spatial order, eps = 1 *)
Definition line_pos (order : list nat) (p : nat * nat) : nat := 2 * (default 0 (order !! fst p)) + snd p.
Definition line_near (order : list nat) (p q : nat * nat) : bool := (line_pos order p <=? line_pos order q + 1) && (line_pos order q <=? line_pos order p + 1).
Lemma line_refl o p : line_near o p p = true.
Proof. unfold line_near. apply andb_true_iff; rewrite !Nat.leb_le; lia. Qed.
Lemma line_sym o p q : line_near o p q = line_near o q p.
Proof. unfold line_near. apply andb_comm. Qed.
Lemma enough_check ns near r n ghosts : ns !! r = Some n -> NoDup ghosts ->
  forallb (fun g => bool_decide (g ∈ all_points ns) && negb (fst g =? r)) ghosts = true ->
  forallb (fun i => forallb (fun q => negb (near (r, i) q) || bool_decide (q ∈ unified r n ghosts)) (all_points ns)) (seq 0 n) = true ->
  EnoughGhosts ns 2 near r n ghosts.
Proof.
  intros Hn HN H1 H2. split; [done|]. rewrite forallb_forall in H1, H2. split; [|split; [|lia]].
  - intros g Hg. apply elem_of_list_In, H1, andb_true_iff in Hg as [Hg Hr]. apply bool_decide_eq_true, all_points_iff in Hg.
    split; [done|]. by destruct (Nat.eqb_spec (fst g) r).
  - intros i q Hi Hq Hnq. specialize (H2 i ltac:(apply in_seq; lia)). rewrite forallb_forall in H2.
    apply all_points_iff, elem_of_list_In in Hq. specialize (H2 q Hq). rewrite Hnq in H2. simpl in H2. by apply bool_decide_eq_true in H2.
Qed.
Lemma connected_check n near labels : labels = replicate n 0%Z -> 2 <= n -> (forall i j, near i j = near j i) -> (forall i, i < n -> near i i = true) ->
  forallb (fun i => existsb (fun j => near i j) (seq 0 i)) (seq 1 (n - 1)) = true -> ValidDBSCAN n 2 near labels.
Proof.
  intros -> Hn2 Hsym Hr HB. rewrite forallb_forall in HB.
  assert (forall i, 0 < i -> i < n -> exists j, j < i /\ near i j = true) as Hp.
  { intros i H0 Hi. specialize (HB i ltac:(apply in_seq; lia)). apply existsb_exists in HB as (j & Hj & Hij). apply in_seq in Hj. exists j. split; [lia|done]. }
  assert (forall i, i < n -> Core n 2 near i) as HC.
  { intros i Hi. split; [done|]. assert (exists j, j <> i /\ j < n /\ near i j = true) as (j & Hj & Hjn & Hij).
    { destruct (decide (i = 0)) as [->|Hz].
      - destruct (Hp 1 ltac:(lia) ltac:(lia)) as (j & Hj & H1). assert (j = 0) as -> by lia. exists 1. rewrite Hsym. split; [lia|]. split; [lia|done].
      - destruct (Hp i ltac:(lia) Hi) as (j & Hj & H1). exists j. split; [lia|]. split; [lia|done]. }
    assert ([i; j] ⊆+ List.filter (near i) (seq 0 n)) as Hs; [|by apply submseteq_length in Hs].
    apply NoDup_submseteq; [repeat constructor; [intros Hx; apply elem_of_list_singleton in Hx; done|apply not_elem_of_nil]|].
    intros x Hx. apply elem_of_list_In, filter_In. apply elem_of_cons in Hx as [->|Hx]; [|apply elem_of_list_singleton in Hx as ->].
    - split; [apply in_seq; lia|by apply Hr].
    - split; [apply in_seq; lia|done]. }
  assert (forall i, i < n -> Conn (CoreEdge n 2 near) i 0) as HK.
  { intros i. induction i as [i IH] using lt_wf_ind. intros Hi. destruct (decide (i = 0)) as [->|Hz]; [apply rst_refl|].
    destruct (Hp i ltac:(lia) Hi) as (j & Hj & Hij). eapply rst_trans; [apply rst_step|apply (IH j); lia].
    split; [by apply HC|]. split; [apply HC; lia|done]. }
  assert (forall i, i < n -> replicate n 0%Z !! i = Some 0%Z) as HE by (intros; by apply lookup_replicate_2).
  constructor.
  - apply replicate_length.
  - split.
    + intros i [Hi _]. exists 0. split; [split; [by apply HK|intros; lia]|by apply HE].
    + intros i j [Hi _] [Hj _]. split; [|intros _; by rewrite !HE]. intros _. eapply rst_trans; [by apply HK|]. by apply rst_sym, HK.
  - intros i Hi Hn. by destruct (Hn (HC i Hi)).
  - intros i Hi Hn. by destruct (Hn (HC i Hi)).
Qed.
Lemma near_in_sym near u i j : (forall p q, near p q = near q p) -> near_in near u i j = near_in near u j i.
Proof. intros H. unfold near_in. destruct (u !! i), (u !! j); auto. Qed.
Lemma near_in_refl near u i : (forall p, near p p = true) -> i < length u -> near_in near u i i = true.
Proof. intros H Hi. unfold near_in. destruct (lookup_lt_is_Some_2 u i Hi) as [x ->]. apply H. Qed.
Ltac check_rank :=
  split; [apply enough_check; [done|repeat (constructor; [vm_compute; intros Hx; repeat (apply elem_of_cons in Hx as [Hx|Hx]; [done|]); by apply elem_of_nil in Hx|]); constructor|vm_compute; done|vm_compute; done]|
          apply connected_check; [vm_compute; done|vm_compute; lia|intros; by apply near_in_sym, line_sym|intros; by apply near_in_refl; [apply line_refl|]|vm_compute; done]].
Ltac check_ranks H :=
  repeat match type of H with ?l !! ?r = Some _ =>
    destruct r as [|r]; [injection H as <-; check_rank|]; cbn [lookup list_lookup] in H end.

(** Five ranks with two points each; in space they follow each other in the order 0, 2, 3, 4, 1. *)
Definition split_ranks : list rank_data :=
  [RankData 2 [(2, 0)] [0; 0; 0]%Z; RankData 2 [(4, 1)] [0; 0; 0]%Z; RankData 2 [(0, 1); (3, 0)] [0; 0; 0; 0]%Z;
   RankData 2 [(2, 1); (4, 0)] [0; 0; 0; 0]%Z; RankData 2 [(1, 0); (3, 1)] [0; 0; 0; 0]%Z].
Definition split_near := line_near [0; 4; 1; 2; 3].
Lemma split_ok r d : split_ranks !! r = Some d -> EnoughGhosts (rd_n <$> split_ranks) 2 split_near r (rd_n d) (rd_ghosts d) /\
  LocalDBSCAN 2 split_near r (rd_n d) (rd_ghosts d) (rd_labels d).
Proof. intros H. unfold split_near. unfold split_ranks in H. check_ranks H. discriminate H. Qed.
Lemma split_run : distributed_dbscan ksort (merge_core (rd_n <$> split_ranks) 2 split_near (rd_ghosts <$> split_ranks)) split_ranks =
  Some [[0; 0]; [2; 2]; [0; 0]; [0; 2]; [2; 2]]%Z.
Proof. vm_compute. done. Qed.
(** The two points of rank 3 are within eps of each other and both core, but end up in different clusters. *)
Theorem C55_refuted : exists minpts near (ranks : list rank_data) srt labels, 2 <= minpts /\
  (forall p, near p p = true) /\ (forall p q, near p q = near q p) /\
  (forall l, srt l ≡ₚ l) /\ (forall l i j x y, i <= j -> srt l !! i = Some x -> srt l !! j = Some y -> fst x <= fst y) /\
  (forall r d, ranks !! r = Some d -> EnoughGhosts (rd_n <$> ranks) minpts near r (rd_n d) (rd_ghosts d) /\
                                      LocalDBSCAN minpts near r (rd_n d) (rd_ghosts d) (rd_labels d)) /\
  distributed_dbscan srt (merge_core (rd_n <$> ranks) minpts near (rd_ghosts <$> ranks)) ranks = Some labels /\
  exists p q, DCore (rd_n <$> ranks) minpts near p /\ DCore (rd_n <$> ranks) minpts near q /\ near p q = true /\ label_of labels p <> label_of labels q.
Proof.
  exists 2, split_near, split_ranks, ksort. eexists. split; [done|]. split; [apply line_refl|]. split; [apply line_sym|].
  split; [apply ksort_perm|]. split; [apply ksort_sorted|]. split; [apply split_ok|]. split; [apply split_run|].
  exists (3, 0), (3, 1). split; [split; [exists 2; split; [done|simpl; lia]|vm_compute; lia]|].
  split; [split; [exists 2; split; [done|simpl; lia]|vm_compute; lia]|]. split; [vm_compute; done|]. vm_compute. done.
Qed.
Theorem C55_not_valid_refuted : exists labels, distributed_dbscan ksort (merge_core (rd_n <$> split_ranks) 2 split_near (rd_ghosts <$> split_ranks)) split_ranks = Some labels /\
  ~ ValidDistributed (rd_n <$> split_ranks) 2 split_near labels.
Proof.
  eexists. split; [apply split_run|]. intros HV.
  assert (forall i, i < 2 -> DCore (rd_n <$> split_ranks) 2 split_near (3, i)) as HC.
  { intros i Hi. split; [exists 2; split; [done|done]|]. destruct i as [|[|i]]; [vm_compute; lia|vm_compute; lia|lia]. }
  pose proof (proj2 (dd_core _ _ _ _ HV (3, 0) (3, 1) (HC 0 ltac:(lia)) (HC 1 ltac:(lia)))) as HX.
  assert (DConn (rd_n <$> split_ranks) 2 split_near (3, 0) (3, 1)) as HD.
  { apply rst_step. split; [apply HC; lia|]. split; [apply HC; lia|]. vm_compute. done. }
  specialize (HX HD). vm_compute in HX. done.
Qed.

(** The positive theorems are not vacuous: three ranks in order, one cluster across all of them. *)
Definition good_ranks : list rank_data :=
  [RankData 2 [(1, 0)] [0; 0; 0]%Z; RankData 2 [(0, 1); (2, 0)] [0; 0; 0; 0]%Z; RankData 2 [(1, 1)] [0; 0; 0]%Z].
Definition good_near := line_near [0; 1; 2].
Lemma good_ok r d : good_ranks !! r = Some d -> EnoughGhosts (rd_n <$> good_ranks) 2 good_near r (rd_n d) (rd_ghosts d) /\
  LocalDBSCAN 2 good_near r (rd_n d) (rd_ghosts d) (rd_labels d).
Proof. intros H. unfold good_near. unfold good_ranks in H. check_ranks H. discriminate H. Qed.
Example C55_example : distributed_dbscan ksort (merge_core (rd_n <$> good_ranks) 2 good_near (rd_ghosts <$> good_ranks)) good_ranks =
    Some [[0; 0]; [0; 0]; [0; 0]]%Z /\
  ValidDistributed (rd_n <$> good_ranks) 2 good_near [[0; 0]; [0; 0]; [0; 0]]%Z.
Proof.
  assert (distributed_dbscan ksort (merge_core (rd_n <$> good_ranks) 2 good_near (rd_ghosts <$> good_ranks)) good_ranks =
    Some [[0; 0]; [0; 0]; [0; 0]]%Z) as E by (vm_compute; done). split; [done|].
  destruct (C55_complete_partial 2 good_near good_ranks ksort) as (l & El & HV);
    [done|apply line_refl|apply line_sym|apply ksort_perm|apply ksort_sorted|apply good_ok| |].
  - intros s5 f t t' Hs. vm_compute in Hs. injection Hs as <-. cbn [fmap list_fmap snd concat app]. intros H H'.
    repeat (apply elem_of_cons in H as [H|H]; [repeat (apply elem_of_cons in H' as [H'|H']; [congruence|]); by apply elem_of_nil in H'|]). by apply elem_of_nil in H.
  - rewrite E in El. injection El as <-. exact HV.
Qed.

(** ** C56: dropping the unlabelled ghosts in place *)
Lemma compress_len gs : length (compress gs) <= length gs.
Proof. unfold compress. induction gs as [|g gs IH]; simpl; [done|]. destruct (negb _); simpl; lia. Qed.
(** Run one index after the other (a serial execution space), the ghosts that keep a label are kept, in order. *)
Theorem C56_in_order_partial gs : compress_par (seq 0 (length gs)) gs = Some (compress gs).
Proof.
  unfold compress_par.
  assert (forall i, i <= length gs -> foldl (fun acc i => gs' ← acc; compress_body (scan_labelled gs) gs' i) (Some gs) (seq 0 i) =
    Some (compress (take i gs) ++ drop (length (compress (take i gs))) gs)) as Hinv.
  { induction i as [|i IH]; intros Hi; [done|]. rewrite seq_S, foldl_app, IH by lia. simpl.
    destruct (lookup_lt_is_Some_2 gs i ltac:(lia)) as [g Eg]. pose proof (compress_len (take i gs)) as Hc. rewrite take_length in Hc.
    set (c := compress (take i gs)) in *. unfold compress_body.
    assert ((c ++ drop (length c) gs) !! i = Some g) as -> by (rewrite lookup_app_r, lookup_drop by lia; rewrite <- Eg; f_equal; lia). cbn [mbind option_bind].
    assert (compress (take (S i) gs) = c ++ (if (g_label g =? -1)%Z then [] else [g])) as ->.
    { rewrite (take_S_r _ _ _ Eg). unfold compress. rewrite List.filter_app. simpl. fold (compress (take i gs)). destruct (g_label g =? -1)%Z; done. }
    destruct (g_label g =? -1)%Z; [by rewrite app_nil_r|]. unfold scan_labelled. fold c.
    rewrite wr_Some by (rewrite app_length, drop_length; lia). f_equal. rewrite <- (Nat.add_0_r (length c)) at 1. rewrite insert_app_r, <- app_assoc. f_equal.
    destruct (lookup_lt_is_Some_2 gs (length c) ltac:(lia)) as [h Eh]. rewrite (drop_S _ _ _ Eh). simpl. rewrite app_length, Nat.add_1_r. done. }
  rewrite Hinv by done. cbn [mbind option_bind]. rewrite (take_ge gs) by done. by rewrite take_app.
Qed.
Example C56_example : compress_par (seq 0 4) [(0, 0, (-1)%Z); (0, 1, 5%Z); (0, 2, (-1)%Z); (0, 3, 8%Z)] = Some [(0, 1, 5%Z); (0, 3, 8%Z)].
Proof. vm_compute. done. Qed.
(** In another order of the same parallel loop a labelled ghost is lost and another one is sent twice. *)
Theorem C56_refuted : exists order gs out, order ≡ₚ seq 0 (length gs) /\ compress_par order gs = Some out /\
  exists g, g ∈ gs /\ g_label g <> (-1)%Z /\ g ∉ out.
Proof.
  exists [2; 1; 0; 3], [(0, 0, (-1)%Z); (0, 1, 5%Z); (0, 2, 7%Z); (0, 3, 8%Z)], [(0, 2, 7%Z); (0, 2, 7%Z); (0, 3, 8%Z)]. split.
  - apply NoDup_Permutation; [repeat (constructor; [intros Hx; repeat (apply elem_of_cons in Hx as [Hx|Hx]; [done|]); by apply elem_of_nil in Hx|]); constructor|apply NoDup_seq|].
    intros x. rewrite elem_of_seq. simpl. split.
    + intros H. repeat (apply elem_of_cons in H as [->|H]; [lia|]). by apply elem_of_nil in H.
    + intros H. assert (x = 2 \/ x = 1 \/ x = 0 \/ x = 3) as Hx by lia. rewrite !elem_of_cons. tauto.
  - split; [vm_compute; done|]. exists (0, 1, 5%Z). split; [right; left|]. split; [done|]. intros H.
    repeat (apply elem_of_cons in H as [H|H]; [done|]). by apply elem_of_nil in H.
Qed.

Print Assumptions C31_counts_offsets.
Print Assumptions C31_local_to_global.
Print Assumptions C31_injective.
Print Assumptions C30_sound_partial.
Print Assumptions C30_complete_partial.
Print Assumptions C30_refuted.
Print Assumptions C55_sound_partial.
Print Assumptions C55_complete_partial.
Print Assumptions C55_refuted.
Print Assumptions C56_in_order_partial.
Print Assumptions C56_refuted.
