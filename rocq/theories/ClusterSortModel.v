(** Model of sortAndFilterClusters, /repo/benchmarks/cluster/dbscan.cpp:46-144 (cited as DB), which turns the labels
    of a clustering into lists of points.

    The atomic increments and the stores that follow them are the steps of CrsModel.pstep, one thread per point.
    Sizes and positions are naturals, that is overflow of int is not modelled. *)
From Verif Require Import Base CrsModel.

(** DB:81-85 and DB:130-132: noise points are ignored; otherwise the label is the index. *)
Definition label_key (labels : list Z) (i : nat) : option (option nat) :=
  l ← labels !! i; Some (if (l <? 0)%Z then None else Some (Z.to_nat l)).

(** What point i does in a kernel: nothing, or one increment at the given key. *)
Definition point_prog (key : nat -> option (option nat)) (i : nat) : option (list (nat * nat)) :=
  k ← key i; Some (match k with Some k => [(k, i)] | None => [] end).

(** DB:102, 112: [update] of the final pass at i: by the contract of parallel_scan what the indices before i added. *)
Definition scan_update (min_size : nat) (sizes : list nat) (i : nat) : nat :=
  length (List.filter (fun s => negb (s <? min_size)) (take i sizes)).

(** DB:99-118, the final pass, its iterations in an arbitrary [order].  cluster_sizes and
    map_cluster_to_offset_position are the same array [arr]; [off] is cluster_offset, not initialised. *)
Definition scan_step (min_size : nat) (sizes : list nat) (i : nat) (arr : list Z) (off : list (option nat))
    : option (list Z * list (option nat)) :=
  s ← arr !! i;
  if (s <? Z.of_nat min_size)%Z then arr' ← wr arr i (-1)%Z; Some (arr', off)
  else
    let update := scan_update min_size sizes i in
    off' ← wr off update (Some (Z.to_nat s));
    arr' ← wr arr i (Z.of_nat update); Some (arr', off').
Fixpoint scan_final (min_size : nat) (sizes : list nat) (order : list nat) (arr : list Z) (off : list (option nat))
    : option (list Z * list (option nat)) :=
  match order with
  | [] => Some (arr, off)
  | i :: order => '(arr', off') ← scan_step min_size sizes i arr off; scan_final min_size sizes order arr' off'
  end.

(** DB:134-135: the key of a point in the last kernel; -1 is IGNORED_CLUSTER. *)
Definition position_key (labels arr : list Z) (i : nat) : option (option nat) :=
  k ← label_key labels i;
  match k with
  | None => Some None
  | Some l => p ← arr !! l; Some (if (p =? -1)%Z then None else Some (Z.to_nat p))
  end.

(** DB:46-144.  [order] is the order of the scan, [ts1], [ts2] the schedules of the two kernels, [junk] what an
    element of cluster_offset that was never written contains. *)
Definition sortAndFilterClusters (labels : list Z) (min_size : nat) (order ts1 ts2 : list nat) (junk : nat) : outcome nat :=
  if min_size <? 1 then Thrown else
  let n := length labels in
  ok (mapM (point_prog (label_key labels)) (seq 0 n)) (fun prog1 =>
  ok (prun slot_count ts1 (pinit (replicate n 0) [] prog1)) (fun s1 =>
  if negb (pfinished s1) then Unfinished else
  let sizes := p_counts s1 in
  ok (scan_final min_size sizes order (map Z.of_nat sizes) (replicate (n + 1) None)) (fun '(arr, off) =>
  let num_clusters := scan_update min_size sizes n in
  let cluster_offset := excl_scan 0 (map (default junk) (take (num_clusters + 1) off)) in
  ok (list.last cluster_offset) (fun m =>
  ok (mapM (point_prog (position_key labels arr)) (seq 0 n)) (fun prog2 =>
  ok (prun slot_second ts2 (pinit cluster_offset (replicate m None) prog2)) (fun s2 =>
  if negb (pfinished s2) then Unfinished else Done (p_out s2) cluster_offset)))))).
