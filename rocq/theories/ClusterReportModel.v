(** Model of the numbers the DBSCAN benchmark prints, /repo/benchmarks/cluster/dbscan.cpp:216-224. *)
From Verif Require Import Base.

(** dbscan.cpp:216-218, 222: the number of clusters, of cluster points and of noise points.  The percentages are not
    modelled. *)
Definition report {A} (num_points : nat) (cluster_indices : list A) (cluster_offset : list nat) : Z * Z * Z :=
  let num_clusters := (Z.of_nat (length cluster_offset) - 1)%Z in
  let num_cluster_points := Z.of_nat (length cluster_indices) in
  (num_clusters, num_cluster_points, (Z.of_nat num_points - num_cluster_points)%Z).
