(** The problem and the options of the driver of the distributed tree.  Source: /repo/benchmarks/distributed_tree_driver/distributed_tree_driver.cpp (DD). *)
From Coq Require Import QArith Qround.
From Verif Require Export Base GeomOps.
Local Open Scope nat_scope.

(** DD:318-320, what a run does; the arguments: is the option on the command line? *)
Record run_options := { perform_knn_search : bool; perform_radius_search : bool; shift_queries : bool }.
Definition parse_options (do_not_perform_knn_search do_not_perform_radius_search shift_queries_option : bool) : run_options :=
  {| perform_knn_search := do_not_perform_knn_search; perform_radius_search := do_not_perform_radius_search; shift_queries := shift_queries_option |}.

(** DD:65-101, the cell of a rank; None: another dimension.  [i_max]: comm_size (DD:69), or its root rounded up (DD:76, 86), which is given here. *)
Definition rank_cell (partition_dim i_max comm_rank : nat) : option (nat * nat * nat) :=
  match partition_dim with
  | 1 => Some (comm_rank, 0, 0)
  | 2 => Some (comm_rank mod i_max, comm_rank / i_max, 0)
  | 3 => let j_max := i_max in Some (comm_rank mod i_max, (comm_rank / i_max) mod j_max, comm_rank / (i_max * j_max))
  | _ => None
  end.
Local Open Scope Q_scope.
Definition of_nat (n : nat) : Q := inject_Z (Z.of_nat n).
(** DD:70, 79-80, 91-93.  Simplified: exact arithmetic instead of float *)
Definition offset_of (shift : Q) (i : nat) : Q := 2 * shift * of_nat i.
Definition on (b : bool) : Q := if b then 1 else 0.
(** DD:117-119, a point of the cloud; [u]: three random numbers *)
Definition cloud_point (partition_dim : nat) (a shift : Q) (c : nat * nat * nat) (u : Q * Q * Q) : Q * Q * Q :=
  (a * (offset_of shift c.1.1 + u.1.1), a * (offset_of shift c.1.2 + u.1.2) * on (1 <? partition_dim)%nat, a * (offset_of shift c.2 + u.2) * on (2 <? partition_dim)%nat).
(** Conversion to int: towards zero *)
Definition to_int (q : Q) : Z := Z.quot (Qnum q) (Zpos (Qden q)).
(** DD:140, and max_offset / 3 (DD:142-145), a division of ints *)
Definition max_offset (shift : Q) (i_max : nat) : Z := to_int (2 * shift * of_nat i_max).
Definition third_of_offset (shift : Q) (i_max : nat) : Q := inject_Z (Z.quot (max_offset shift i_max) 3).
(** DD:142-146, a query with shift-queries *)
Definition query_point (partition_dim i_max : nat) (a shift : Q) (c : nat * nat * nat) (u : Q * Q * Q) : Q * Q * Q :=
  let m := third_of_offset shift i_max in
  (a * ((offset_of shift c.1.1 + u.1.1) / 3 + m), a * ((offset_of shift c.1.2 + u.1.2) / 3 + m) * on (1 <? partition_dim)%nat,
   a * ((offset_of shift c.2 + u.2) / 3 + m) * on (2 <? partition_dim)%nat).
