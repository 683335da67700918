(** C103: the numbers the DBSCAN benchmark prints. *)
From Verif Require Import Base CrsModel CrsSpec ClusterSortModel ClusterSortSpec ClusterSortProof PropertiesClusterSort PropertiesClusterDbscan ClusterReportModel.

(** Point i is labelled and at least [min_size] points have its label. *)
Definition in_large (labels : list Z) (min_size i : nat) : Prop :=
  exists l, labels !! i = Some l /\ (0 <= l)%Z /\
    min_size <= length (base.filter (fun j => labels !! j = labels !! i) (seq 0 (length labels))).
Definition is_noise (labels : list Z) (i : nat) : Prop := exists l, labels !! i = Some l /\ (l < 0)%Z.
Global Instance in_large_dec labels min_size i : Decision (in_large labels min_size i).
Proof.
  unfold in_large. destruct (labels !! i) as [l|] eqn:E; [|right; by intros (?&?&_)].
  destruct (decide ((0 <= l)%Z /\ min_size <= length (base.filter (fun j => labels !! j = Some l) (seq 0 (length labels))))) as [H|H].
  - left. eauto.
  - right. intros (l'&[= <-]&H'). done.
Defined.
Global Instance is_noise_dec labels i : Decision (is_noise labels i).
Proof.
  unfold is_noise. destruct (labels !! i) as [l|] eqn:E; [|right; by intros (?&?&_)].
  destruct (decide (l < 0)%Z); [left; eauto|right; by intros (l'&[= <-]&H')].
Defined.
Notation count P n := (length (base.filter P (seq 0 n))).

Lemma filter_split (P Q : nat -> Prop) {DP : forall i, Decision (P i)} {DQ : forall i, Decision (Q i)} l :
  (forall i, i ∈ l -> (P i <-> ~ Q i)) -> length (base.filter P l) + length (base.filter Q l) = length l.
Proof.
  induction l as [|x l IH]; intros H; [done|]. assert (P x <-> ~ Q x) as Hx by (apply H; left).
  assert (length (base.filter P l) + length (base.filter Q l) = length l) by (apply IH; intros; apply H; by right).
  destruct (decide (Q x)).
  - rewrite (filter_cons_False P), (filter_cons_True Q) by naive_solver. simpl. lia.
  - rewrite (filter_cons_True P), (filter_cons_False Q) by naive_solver. simpl. lia.
Qed.

Lemma filter_same (P Q : nat -> Prop) {DP : forall i, Decision (P i)} {DQ : forall i, Decision (Q i)} (l : list nat) :
  (forall i, i ∈ l -> (P i <-> Q i)) -> base.filter P l = base.filter Q l.
Proof.
  induction l as [|x l IH]; intros H; [done|]. assert (P x <-> Q x) as Hx by (apply H; left).
  assert (base.filter P l = base.filter Q l) as E by (apply IH; intros; apply H; by right).
  destruct (decide (Q x)).
  - rewrite (filter_cons_True P), (filter_cons_True Q), E by tauto. done.
  - rewrite (filter_cons_False P), (filter_cons_False Q), E by tauto. done.
Qed.

Lemma lists_large labels m L : LabelsOk labels -> 1 <= m -> Forall2 (fun l k => l ≡ₚ members labels k) L (large labels m) ->
  concat L ≡ₚ base.filter (in_large labels m) (seq 0 (length labels)).
Proof.
  intros HL Hm HF. apply NoDup_Permutation.
  { eapply lists_nodup; [exact HF|]. apply NoDup_filter, NoDup_seq. }
  { apply NoDup_filter, NoDup_seq. }
  intros i. rewrite elem_of_list_filter. split.
  - intros Hin. apply elem_of_list_In, in_concat in Hin as (l&Hl&Hin). apply elem_of_list_In in Hl, Hin.
    apply elem_of_list_lookup in Hl as [j Hj]. destruct (Forall2_lookup_l _ _ _ _ _ HF Hj) as (k&Hk&Hp).
    rewrite Hp in Hin. apply elem_members in Hin. apply elem_of_list_lookup_2, elem_of_list_filter in Hk as [Hk _].
    split; [|apply elem_of_seq; apply lookup_lt_Some in Hin; lia].
    exists (Z.of_nat k). split; [done|]. split; [lia|]. rewrite Hin. exact Hk.
  - intros [(l&El&Hl&Hs) _]. assert (Z.to_nat l ∈ large labels m) as Hk.
    { apply elem_of_list_filter. split; [|apply elem_of_seq; specialize (HL i l El); lia].
      unfold members. rewrite Z2Nat.id by done. rewrite El in Hs. exact Hs. }
    apply elem_of_list_lookup in Hk as [j Hj]. destruct (Forall2_lookup_r _ _ _ _ _ HF Hj) as (r&Hr&Hp).
    apply elem_of_list_In, in_concat. exists r. split; [apply elem_of_list_In; by eapply elem_of_list_lookup_2|].
    apply elem_of_list_In. rewrite Hp. apply elem_members. by rewrite Z2Nat.id.
Qed.

(** What is printed as noise is everything that is not in a large cluster; with the default minimum size 1 these are
    the noise points. *)
Theorem C103_report labels min_size order ts1 ts2 junk :
  LabelsOk labels -> 1 <= min_size -> order ≡ₚ seq 0 (length labels) ->
  (forall i, i < length labels -> 2 <= count_occ Nat.eq_dec ts1 i) -> (forall i, i < length labels -> 2 <= count_occ Nat.eq_dec ts2 i) ->
  exists out offs, sortAndFilterClusters labels min_size order ts1 ts2 junk = Done out offs /\
    report (length labels) out offs = (Z.of_nat (length (large labels min_size)), Z.of_nat (count (in_large labels min_size) (length labels)),
       Z.of_nat (count (fun i => ~ in_large labels min_size i) (length labels))) /\
    (min_size = 1 -> count (fun i => ~ in_large labels min_size i) (length labels) = count (is_noise labels) (length labels)).
Proof.
  intros HL Hm Ho F1 F2. destruct (C102_finishes labels min_size order ts1 ts2 junk HL Hm Ho F1 F2) as (out&offs&E&L&HF&HO&->).
  exists (map Some (concat L)), offs. split; [done|]. pose proof (lists_large labels min_size L HL Hm HF) as HP.
  apply Permutation_length in HP. split.
  - unfold report. rewrite map_length, HP. destruct HO as [-> _]. rewrite (Forall2_length _ _ _ HF).
    pose proof (filter_split (in_large labels min_size) (fun i => ~ in_large labels min_size i) (seq 0 (length labels))) as Hs.
    rewrite seq_length in Hs. specialize (Hs ltac:(intros i _; destruct (decide (in_large labels min_size i)); tauto)).
    f_equal; [f_equal|]; lia.
  - intros ->. f_equal. apply filter_same. intros i Hi. apply elem_of_seq in Hi.
    destruct (lookup_lt_is_Some_2 labels i) as [l El]; [lia|]. split.
    + intros Hn. exists l. split; [done|]. destruct (Z.lt_ge_cases l 0) as [|Hl]; [done|]. exfalso. apply Hn.
      exists l. split; [done|]. split; [done|].
      assert (i ∈ base.filter (fun j => labels !! j = labels !! i) (seq 0 (length labels))) as Hin.
      { apply elem_of_list_filter. split; [done|]. by apply elem_of_seq. }
      apply elem_of_list_lookup in Hin as [j Hj]. apply lookup_lt_Some in Hj. lia.
    + intros (l1&E1&H1) (l2&E2&H2&_). rewrite E1 in E2. injection E2 as ->. lia.
Qed.

(** With a larger minimum size the number printed as "#noise points" is not the number of noise points: the points of
    the clusters left out are counted as noise. *)
Theorem C103_noise_refuted : exists labels min_size order ts1 ts2 junk out offs,
  LabelsOk labels /\ 1 <= min_size /\ order ≡ₚ seq 0 (length labels) /\
  sortAndFilterClusters labels min_size order ts1 ts2 junk = Done out offs /\
  count (is_noise labels) (length labels) = 1 /\ (report (length labels) out offs).2 = 3%Z.
Proof.
  exists [0; 0; 0; 3; 3; -1]%Z, 3, (seq 0 6), (concat (replicate 2 (seq 0 6))), (concat (replicate 2 (seq 0 6))), 0.
  eexists _, _. split; [intros i l H; do 6 (destruct i as [|i]; [injection H as <-; simpl; lia|]); done|].
  split; [lia|]. split; [done|]. split; [vm_compute; reflexivity|]. split; vm_compute; reflexivity.
Qed.

Example C103_example :
  count (in_large [0; 0; 0; 3; 3; -1]%Z 3) 6 = 3 /\ count (is_noise [0; 0; 0; 3; 3; -1]%Z) 6 = 1 /\
  LabelsOk [0; 0; 0; 3; 3; -1]%Z /\ (forall i, i < 6 -> 2 <= count_occ Nat.eq_dec (concat (replicate 2 (seq 0 6))) i).
Proof.
  split; [by vm_compute|]. split; [by vm_compute|]. split.
  - intros i l H. do 6 (destruct i as [|i]; [injection H as <-; simpl; lia|]). done.
  - intros i H. do 6 (destruct i as [|i]; [simpl; lia|]). lia.
Qed.

Print Assumptions C103_report.
Print Assumptions C103_noise_refuted.
