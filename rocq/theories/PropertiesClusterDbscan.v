(** C102, composed with C22: what the DBSCAN benchmark lists are the clusters of the points. *)
From Verif Require Import Base CrsModel CrsSpec TreeSpec TraversalModel DbscanModel DbscanSpec PropertiesDbscan PropertiesDenseBox.
From Verif Require Import ClusterSortModel ClusterSortSpec ClusterSortProof PropertiesClusterSort.

Section Labels.
Variables (n minpts : nat) (near : nat -> nat -> bool) (labels : list Z).
Hypothesis HV : ValidDBSCAN n minpts near labels.

Lemma core_dec i : {Core n minpts near i} + {~ Core n minpts near i}.
Proof.
  unfold Core. destruct (lt_dec i n), (le_dec minpts (length (List.filter (near i) (seq 0 n)))); [left|right|right|right]; naive_solver.
Qed.
Lemma core_near_dec i : (exists j, Core n minpts near j /\ near i j = true) \/ (forall j, Core n minpts near j -> near i j = false).
Proof.
  destruct (existsb (fun j => (if core_dec j then true else false) && near i j) (seq 0 n)) eqn:E.
  - left. apply existsb_exists in E as (j&_&Hj). apply andb_true_iff in Hj as [H1 H2]. destruct (core_dec j); [eauto|done].
  - right. intros j Hj. destruct (near i j) eqn:Hn; [|done]. exfalso. rewrite <- not_true_iff_false, existsb_exists in E.
    apply E. exists j. split; [apply in_seq; destruct Hj; lia|]. destruct (core_dec j); [by rewrite Hn|done].
Qed.

(** Every label is that of a core point, or noise. *)
Lemma label_core i l : labels !! i = Some l -> l = (-1)%Z \/ exists c, Core n minpts near c /\ labels !! c = Some l.
Proof.
  intros Hl. assert (i < n) as Hi by (rewrite <- (vd_len _ _ _ _ HV); by eapply lookup_lt_Some).
  destruct (core_dec i) as [Hc|Hc]; [by right; eauto|].
  destruct (core_near_dec i) as [Hn|Hn].
  - destruct (vd_border _ _ _ _ HV i Hi Hc Hn) as (j&Hj&_&E). right. exists j. split; [done|]. by rewrite <- E.
  - rewrite (vd_noise _ _ _ _ HV i Hi Hc Hn) in Hl. injection Hl as <-. by left.
Qed.
Lemma core_label c : Core n minpts near c -> exists m, m < n /\ labels !! c = Some (Z.of_nat m).
Proof.
  intros Hc. destruct (vd_core _ _ _ _ HV) as [H _]. destruct (H c Hc) as (m&[_ Hm]&E). exists m. split; [|done].
  specialize (Hm c). assert (m <= c) by (apply Hm; apply rst_refl). destruct Hc. lia.
Qed.
Lemma valid_labels_ok : LabelsOk labels.
Proof.
  intros i l Hl. rewrite (vd_len _ _ _ _ HV). destruct (label_core i l Hl) as [->|(c&Hc&E)]; [lia|].
  destruct (core_label c Hc) as (m&Hm&E'). rewrite E in E'. injection E' as ->. lia.
Qed.
End Labels.

(** A list of clusters as DBSCAN defines them: every list has at least [min_size] points, consists of one whole component of
    core points and of points near one of them; no point is listed twice, and every core point whose list would be
    long enough is listed. *)
Definition ListsClusters (n minpts : nat) (near : nat -> nat -> bool) (labels : list Z) (min_size : nat) (L : list (list nat)) : Prop :=
  NoDup (concat L) /\
  (forall l, l ∈ L -> min_size <= length l /\ exists c, Core n minpts near c /\ c ∈ l /\
     (forall i, Core n minpts near i -> (i ∈ l <-> Conn (CoreEdge n minpts near) c i)) /\
     (forall i, i ∈ l -> exists j, Core n minpts near j /\ j ∈ l /\ (i = j \/ near i j = true))) /\
  (forall c, Core n minpts near c -> min_size <= length (base.filter (fun i => labels !! i = labels !! c) (seq 0 n)) ->
     exists l, l ∈ L /\ c ∈ l).

Lemma members_nodup labels k : NoDup (members labels k).
Proof. apply NoDup_filter, NoDup_seq. Qed.
Lemma elem_members labels k i : i ∈ members labels k <-> labels !! i = Some (Z.of_nat k).
Proof.
  unfold members. rewrite elem_of_list_filter, elem_of_seq. split; [by intros [? _]|]. intros H. split; [done|].
  apply lookup_lt_Some in H. lia.
Qed.

Lemma lists_nodup labels : forall L K, Forall2 (fun l k => l ≡ₚ members labels k) L K -> NoDup K -> NoDup (concat L).
Proof.
  intros L K HF. induction HF as [|l k L K Hl HF IH]; intros ND; [apply NoDup_nil_2|].
  apply NoDup_cons in ND as [Hk ND]. simpl. apply NoDup_app. split; [rewrite Hl; apply members_nodup|]. split; [|auto].
  intros i Hi Hin. rewrite Hl in Hi. apply elem_members in Hi.
  apply elem_of_list_In, in_concat in Hin as (l'&Hl'&Hin). apply elem_of_list_In in Hl', Hin.
  apply elem_of_list_lookup in Hl' as [j Hj]. destruct (Forall2_lookup_l _ _ _ _ _ HF Hj) as (k'&Hk'&Hp).
  rewrite Hp in Hin. apply elem_members in Hin. rewrite Hi in Hin. injection Hin as E. apply Nat2Z.inj in E as ->.
  apply Hk. by eapply elem_of_list_lookup_2.
Qed.

Theorem C102_dbscan n minpts near labels min_size order ts1 ts2 junk :
  ValidDBSCAN n minpts near labels -> 1 <= min_size -> order ≡ₚ seq 0 n ->
  (forall i, i < n -> 2 <= count_occ Nat.eq_dec ts1 i) -> (forall i, i < n -> 2 <= count_occ Nat.eq_dec ts2 i) ->
  exists L offs, sortAndFilterClusters labels min_size order ts1 ts2 junk = Done (map Some (concat L)) offs /\
    IsOffsets L offs /\ ListsClusters n minpts near labels min_size L.
Proof.
  intros HV Hm Ho F1 F2. pose proof (vd_len _ _ _ _ HV) as Hn.
  destruct (C102_finishes labels min_size order ts1 ts2 junk) as (out&offs&E&L&HF&HO&->); rewrite ?Hn; auto; [by eapply valid_labels_ok|].
  exists L, offs. split; [done|]. split; [done|]. split; [|split].
  - eapply lists_nodup; [exact HF|]. apply NoDup_filter, NoDup_seq.
  - intros l Hl. apply elem_of_list_lookup in Hl as [j Hj]. destruct (Forall2_lookup_l _ _ _ _ _ HF Hj) as (k&Hk&Hp).
    apply elem_of_list_lookup_2, elem_of_list_filter in Hk as [Hk _]. rewrite (Permutation_length Hp). split; [done|].
    destruct (members labels k) as [|x xs] eqn:Ex; [simpl in Hk; lia|].
    assert (labels !! x = Some (Z.of_nat k)) as Hx by (apply elem_members; rewrite Ex; left).
    destruct (label_core n minpts near labels HV x _ Hx) as [?|(c&Hc&Hck)]; [lia|].
    assert (forall i, i ∈ l <-> labels !! i = Some (Z.of_nat k)) as Hel by (intros i; rewrite Hp, <- Ex; apply elem_members).
    exists c. split; [done|]. split; [by apply Hel|]. split.
    + intros i Hi. rewrite Hel, <- Hck. destruct (vd_core _ _ _ _ HV) as [_ H]. rewrite <- (H c i Hc Hi). naive_solver.
    + intros i Hi. apply Hel in Hi. assert (i < n) as Hin by (rewrite <- Hn; by eapply lookup_lt_Some).
      destruct (core_dec n minpts near i) as [Hci|Hci]; [exists i; split; [done|]; split; [by apply Hel|by left]|].
      destruct (core_near_dec n minpts near i) as [Hb|Hb].
      * destruct (vd_border _ _ _ _ HV i Hin Hci Hb) as (j'&Hcj&Hnj&Ej). exists j'. split; [done|].
        split; [apply Hel; by rewrite <- Ej|by right].
      * rewrite (vd_noise _ _ _ _ HV i Hin Hci Hb) in Hi. injection Hi as Hi. lia.
  - intros c Hc Hs. destruct (core_label n minpts near labels HV c Hc) as (k&Hk&Ek). rewrite Ek in Hs.
    assert (k ∈ large labels min_size) as Hkl.
    { apply elem_of_list_filter. unfold members. rewrite Hn. split; [done|]. apply elem_of_seq. lia. }
    apply elem_of_list_lookup in Hkl as [j Hj]. destruct (Forall2_lookup_r _ _ _ _ _ HF Hj) as (l&Hl&Hp).
    exists l. split; [by eapply elem_of_list_lookup_2|]. rewrite Hp. by apply elem_members.
Qed.

(** The whole run of the benchmark: FDBSCAN on a tree, then the lists. *)
Lemma fdbscan_mono star n minpts counts outs (P Q : list Z -> Prop) : (forall l, P l -> Q l) ->
  fdbscan star n minpts counts outs P -> fdbscan star n minpts counts outs Q.
Proof.
  intros H. unfold fdbscan, finish. apply Kernel_mono. intros s. apply Kernel_mono. intros s' (out&E&HP). eauto.
Qed.
Theorem C102_benchmark :
  forall V (le : V -> V -> Prop) vol n perm T near pv minpts min_size,
  Index le vol perm T -> perm ≡ₚ seq 0 n -> (forall a, PruneSafe le vol (near a) (pv a)) ->
  (forall a b, near a b = near b a) -> (forall a, near a a = true) -> 2 <= minpts -> 1 <= min_size ->
  exists counts outs, CountsOf T near pv n minpts counts /\ PairsOf T near pv outs /\
    fdbscan false n minpts counts outs (fun labels =>
      ValidDBSCAN n minpts near labels /\
      forall order ts1 ts2 junk, order ≡ₚ seq 0 n ->
        (forall i, i < n -> 2 <= count_occ Nat.eq_dec ts1 i) -> (forall i, i < n -> 2 <= count_occ Nat.eq_dec ts2 i) ->
        exists L offs, sortAndFilterClusters labels min_size order ts1 ts2 junk = Done (map Some (concat L)) offs /\
          IsOffsets L offs /\ ListsClusters n minpts near labels min_size L).
Proof.
  intros V le vol n perm T near pv minpts min_size HI HP Hps Hs Hr Hm Hms.
  destruct (C22_fdbscan_valid V le vol n perm T near pv minpts HI HP Hps Hs Hr Hm) as (counts&outs&H1&H2&H3).
  exists counts, outs. split; [done|]. split; [done|]. eapply fdbscan_mono; [|exact H3].
  intros labels HV. split; [done|]. intros. by apply C102_dbscan.
Qed.

(** The six points of C22_example: four of them form a cluster, two are noise. *)
Example C102_benchmark_example :
  fdbscan_exec false 6 3 (line_counts 3) line_outs (robin 20 6) (robin 12 6) = Some [0; 0; 0; 0; -1; -1]%Z /\
  (forall min_size, min_size = 4 \/ min_size = 5 ->
    sortAndFilterClusters [0; 0; 0; 0; -1; -1]%Z min_size [3; 2; 1; 0; 5; 4] (robin 2 6) ([3; 3] ++ robin 2 6) 7 =
    if min_size =? 4 then Done [Some 3; Some 0; Some 1; Some 2] [0; 4] else Done [] [0]).
Proof. split; [by vm_compute|]. intros m [->| ->]; by vm_compute. Qed.

Print Assumptions C102_dbscan.
Print Assumptions C102_benchmark.
