(** The data generators and readers of the benchmarks.  Sources: /repo/benchmarks/utils/ArborXBenchmark_PointClouds.hpp (PC),
    /repo/benchmarks/cluster/data_timpl.hpp (DT), /repo/benchmarks/cluster/distributed_data.hpp (DD), /repo/benchmarks/union_find/union_find.cpp
    (UB).  An access out of bounds, a failing assertion or a division by zero is None. *)
From Verif Require Export Base KernelAlgModel FactorsModel UnionFindModel.

Section Clouds.
Context {P : Type}.
(** PC:203 *)
Definition batch_size : nat := 8.
(** PC:215-221: random_points(k) = functor(k, generator), scaled, for the k of a batch.  [point k]: the point drawn for index k; the generators
    of random numbers are not modelled. *)
Fixpoint write_points (point : nat -> P) (ks : list nat) (out : list P) : option (list P) :=
  match ks with [] => Some out | k :: ks => out' ← wr out k (point k); write_points point ks out' end.
(** PC:182-225 generatePointCloud; [order]: the order of the batches, a permutation of 0 .. n / batch_size - 1 (PC:210).
    Simplified: a batch runs without interruption; every batch writes points of its own.  Unsigned integers are natural numbers. *)
Fixpoint cloud_batches (point : nat -> P) (order : list nat) (out : list P) : option (list P) :=
  match order with
  | [] => Some out
  | i :: order =>
      let first := i * batch_size in let last := Nat.min ((i + 1) * batch_size) (length out) in
      out' ← write_points point (seq first (last - first)) out; cloud_batches point order out'
  end.
(** PC:210: the number of iterations *)
Definition cloud_iterations (n : nat) : nat := n / batch_size.

(** DT:46-49, the Lehmer generator *)
Definition lehmer (state : Z) : Z := ((state * 48271) mod 2147483647)%Z.
(** DT:54-60: the loop over the data; N and M as in the source, [i_n] and [i_m] are in and im.  The result is what is stored, in order. *)
Fixpoint knuth (N M i_n i_m : nat) (state : Z) (data : list P) : list P :=
  match data with
  | [] => []
  | x :: data =>
      if i_m <? M then
        let rn := N - i_n in let rm := M - i_m in
        let state := lehmer state in
        if (state mod Z.of_nat rn <? Z.of_nat rm)%Z then x :: knuth N M (S i_n) (S i_m) state data else knuth N M (S i_n) i_m state data
      else []
  end.
(** DT:35-62 sampleData; the entries that are not assigned keep the value [dflt] of the constructor (DT:38).  The assertion (DT:45) is None; with
    assertions off, num_samples = 1 would divide by zero (DT:46). *)
Definition sample_data (dflt : P) (data : list P) (M : nat) : option (list P) :=
  if M <=? 1 then None
  else
    let s := knuth (length data) M 0 0 (1337 mod (Z.of_nat M - 1) + 1)%Z data in
    Some (s ++ replicate (M - length s) dflt).
(** DT:366-367 *)
Definition load_sampled (dflt : P) (v : list P) (num_samples : Z) : option (list P) :=
  if ((0 <? num_samples) && (num_samples <? Z.of_nat (length v)))%Z then sample_data dflt v (Z.to_nat num_samples) else Some v.

(** DT:103-104 *)
Definition num_to_read (num : nat) (max_num_points : Z) : nat :=
  if ((0 <? max_num_points) && (max_num_points <? Z.of_nat num))%Z then Z.to_nat max_num_points else num.
(** DT:106-125: what a rank reads of the points in the file.  Simplified: the header of the file tells the truth about the number of points, the
    conversion of the coordinates is left out. *)
Definition load_rank (file : list P) (max_num_points : Z) (comm_rank comm_size : nat) : option (list P) :=
  let num := num_to_read (length file) max_num_points in
  let per := num / comm_size in
  extra ← (if comm_rank =? comm_size - 1 then (if per =? 0 then None else Some (num mod per)) else Some 0);
  Some (take (per + extra) (drop (per * comm_rank) file)).
(** All ranks (DT:383-406) *)
Definition load_all (file : list P) (max_num_points : Z) (comm_size : nat) : option (list (list P)) :=
  mapM (fun rank => load_rank file max_num_points rank comm_size) (seq 0 comm_size).
End Clouds.

(** DD:36-40: the place of a rank in the grid of ranks; also the loop indices of iteration s of an MDRangePolicy, whose extents are [fs]. *)
Fixpoint digits (fs : list nat) (s : nat) : list nat := match fs with [] => [] | f :: fs => s mod f :: digits fs (s / f) end.
(** DD:67, 80: j * nx + i and k * nx * nx + j * nx + i.  Simplified: in Horner's form. *)
Fixpoint flat (nx : nat) (is : list nat) : nat := match is with [] => 0 | i :: is => i + nx * flat nx is end.
(** DD:63-66, 76-79: the lambda pos *)
Definition lattice_pos (num_seq spacing p : nat) : nat := let tile := num_seq + spacing - 1 in (p / num_seq) * tile + p mod num_seq.
(** DD:67, 80-81.  Simplified: integer coordinates; they are exact in float up to 2^24. *)
Definition lattice_point (num_seq spacing nx : nat) (Is is : list nat) : list nat := zip_with (fun I i => lattice_pos num_seq spacing (I * nx + i)) Is is.
(** DD:21-90 generateDistributedData for DIM 2 and 3.  [order]: the order of the iterations; [nx]: as computed in DD:42, not modelled. *)
Definition lattice (DIM nx num_seq spacing comm_rank comm_size : nat) (order : list nat) (out : list (list nat)) : option (list (list nat)) :=
  factors ← closestFactors DIM comm_size;
  let Is := digits factors comm_rank in
  par_writes (fun t => Some (flat nx (digits (replicate DIM nx) t)))
    (fun t => Some (lattice_point num_seq spacing nx Is (digits (replicate DIM nx) t))) order out.

(** UB:65-101 buildEdges without loops; [permute]: the permutation made by sorting random values (UB:84); [rand i]: the number drawn by
    iteration i. *)
Definition build_edges (rand : nat -> nat) (permute order : list nat) (out : list (nat * nat)) : option (list (nat * nat)) :=
  par_writes (fun i => permute !! i) (fun i => Some (rand i mod (i + 1), i + 1)) order out.
(** UB:137-144: thread e merges the ends of edge e *)
Definition edge_merges (edges : list (nat * nat)) : list (list uop) := map (fun e => [Merge e.1 e.2]) edges.
