(** C102: the clusters of the DBSCAN benchmark are sorted and filtered correctly. *)
From Verif Require Import Base CrsModel CrsSpec ClusterSortModel ClusterSortSpec ClusterSortProof.

(** For all labels below the number of points, every minimum size of at least one, every order of the scan, every
    schedule of the two kernels and every content of the element never written: nothing is accessed out of bounds,
    and what the kernels leave lists the points of exactly the clusters that are large enough. *)
Theorem C102_sorted labels min_size order ts1 ts2 junk :
  LabelsOk labels -> 1 <= min_size -> order ≡ₚ seq 0 (length labels) ->
  match sortAndFilterClusters labels min_size order ts1 ts2 junk with
  | UB | Thrown => False | Unfinished => True
  | Done out offs => ClusterLists labels min_size out offs
  end.
Proof. intros. by apply sort_ok. Qed.

(** Once every point had two steps in each kernel, the function is done. *)
Theorem C102_finishes labels min_size order ts1 ts2 junk :
  LabelsOk labels -> 1 <= min_size -> order ≡ₚ seq 0 (length labels) ->
  (forall i, i < length labels -> 2 <= count_occ Nat.eq_dec ts1 i) ->
  (forall i, i < length labels -> 2 <= count_occ Nat.eq_dec ts2 i) ->
  exists out offs, sortAndFilterClusters labels min_size order ts1 ts2 junk = Done out offs /\
    ClusterLists labels min_size out offs.
Proof.
  intros HL Hm Ho F1 F2. pose proof (sort_ok labels min_size HL Hm order ts1 ts2 junk Ho) as H.
  pose proof (sort_finishes labels min_size Hm order ts1 ts2 junk F1 F2) as Hf.
  destruct (sortAndFilterClusters labels min_size order ts1 ts2 junk) as [| | |out offs]; try done. by exists out, offs.
Qed.

(** Seven points: clusters 0 and 3, a noise point and cluster 6 of one point, which is filtered out; the points of
    cluster 0 arrive in the order 4, 1, 0. *)
Example C102_example :
  LabelsOk [0; 0; -1; 3; 0; 3; 6]%Z /\
  members [0; 0; -1; 3; 0; 3; 6]%Z 0 = [0; 1; 4] /\ large [0; 0; -1; 3; 0; 3; 6]%Z 2 = [0; 3] /\
  sortAndFilterClusters [0; 0; -1; 3; 0; 3; 6]%Z 2 [6; 5; 4; 3; 2; 1; 0]
    [0; 1; 2; 3; 4; 5; 6; 0; 1; 2; 3; 4; 5; 6] [4; 1; 0; 6; 5; 0; 1; 4; 3; 5; 3; 2; 6; 2] 99 =
  Done [Some 4; Some 1; Some 0; Some 5; Some 3] [0; 3; 5].
Proof.
  split; [|by vm_compute]. intros i l H. do 7 (destruct i as [|i]; [injection H as <-; simpl; lia|]). done.
Qed.

(** A label that is not below the number of points is an access out of bounds: the hypothesis is needed. *)
Example C102_labels_needed :
  sortAndFilterClusters [2; 0]%Z 1 [0; 1] [0; 1; 0; 1] [0; 1; 0; 1] 0 = UB.
Proof. by vm_compute. Qed.

Print Assumptions C102_sorted.
Print Assumptions C102_finishes.
