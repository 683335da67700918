(** Model of the two-pass compressed-row-storage queries,
    /repo/src/spatial/detail/ArborX_CrsGraphWrapperImpl.hpp (cited below as Crs).

    What a thread does to the shared views.  The traversal and the user callback are abstracted to the sequence of
    values a thread hands to the inserter (the argument [out] of the callback), each with the index attached to the
    predicate (attach_indices, Crs:166-167).  The callback is taken to be deterministic: both passes insert the same
    values.  Integers are unbounded here (the code uses int). *)
From Verif Require Import Base KernelAlgModel.

(** KokkosExt::exclusive_scan with initial value [acc] (kokkos_ext/ArborX_KokkosExtStdAlgorithms.hpp; taken as a
    specified primitive): entry i becomes [acc] plus the sum of the entries before i. *)
Fixpoint excl_scan (acc : nat) (l : list nat) : list nat :=
  match l with [] => [] | x :: l => acc :: excl_scan (acc + x) l end.

(** Crs:35-40 BufferStatus. *)
Inductive buffer_status := PreallocationNone | PreallocationSoft | PreallocationHard.

(** Crs:42-49 toBufferStatus. *)
Definition toBufferStatus (buffer_size : Z) : buffer_status :=
  if (buffer_size =? 0)%Z then PreallocationNone
  else if (0 <? buffer_size)%Z then PreallocationSoft else PreallocationHard.

Section Crs.
Context {A : Type}.

(** One pass of the inserter. A view element that was allocated without initialisation is [None]. *)
Record pstate := PState {
  p_counts : list nat;
  p_out : list (option A);
  p_thr : list (list (nat * A) * option (nat * A))
    (* per thread: insertions still to do (predicate index, value); the write between fetch_add and store *)
}.

(** One atomic step of thread [t]: either the atomic_fetch_add of the next insertion or the store that follows it
    (Crs:69-111).  [slot i old] says where the value goes when the fetch_add on counts(i) returned [old]: the outer
    option is undefined behaviour (bad index), the inner [None] means that nothing is stored.
    Result [None]: out of bounds access. *)
Definition pstep (slot : nat -> nat -> option (option nat)) (s : pstate) (t : nat) : option pstate :=
  match p_thr s !! t with
  | None | Some ([], None) => Some s
  | Some (prog, Some (d, v)) =>
    out' ← wr (p_out s) d (Some v);
    Some (PState (p_counts s) out' (<[t := (prog, None)]> (p_thr s)))
  | Some ((i, v) :: prog, None) =>
    old ← p_counts s !! i;
    sl ← slot i old;
    Some (PState (<[i := S old]> (p_counts s)) (p_out s)
      (<[t := (prog, d ← sl; Some (d, v))]> (p_thr s)))
  end.

(** A schedule: the thread that moves next, over and over. *)
Fixpoint prun (slot : nat -> nat -> option (option nat)) (ts : list nat) (s : pstate) : option pstate :=
  match ts with [] => Some s | t :: ts => s' ← pstep slot s t; prun slot ts s' end.

Definition pfinished (s : pstate) : bool :=
  forallb (fun th : list (nat * A) * option (nat * A) =>
    match th with ([], None) => true | _ => false end) (p_thr s).

Definition pinit (counts : list nat) (out : list (option A)) (progs : list (list (nat * A))) : pstate :=
  PState counts out (map (fun p => (p, None)) progs).

(** Crs:77-91 FirstPassTag.  PermutedData (PermutedData.hpp:32-35): permuted_offset(i) = offset(permute(i));
    buffer size by [*(&offset + 1) - offset]. *)
Definition slot_first (offset perm : list nat) (i old : nat) : option (option nat) :=
  q ← perm !! i; o ← offset !! q; o1 ← offset !! S q;
  Some (if old <? o1 - o then Some (o + old) else None).

(** Crs:92-97 FirstPassNoBufferOptimizationTag. *)
Definition slot_count (i old : nat) : option (option nat) := Some None.

(** Crs:98-111 SecondPassTag: the counter holds the next position itself. *)
Definition slot_second (i old : nat) : option (option nat) := Some (Some old).

(** Crs:187-198, the overflow reduction. *)
Definition overflow_at (offset perm counts : list nat) (i : nat) : option bool :=
  q ← perm !! i; o ← offset !! q; o1 ← offset !! S q; c ← counts !! i; Some (o1 - o <? c).

Fixpoint any_opt (f : nat -> option bool) (l : list nat) : option bool :=
  match l with [] => Some false | i :: l => b ← f i; r ← any_opt f l; Some (b || r) end.

(** Crs:306-315, copy_valid_values: iteration i moves the values of query i to their final place.  The iterations are
    taken in an arbitrary [order]; they read [out] and write pairwise different entries of [tmp]. *)
Fixpoint copy_one (o p : nat) (js : list nat) (src tmp : list (option A)) : option (list (option A)) :=
  match js with
  | [] => Some tmp
  | j :: js => v ← src !! (p + j); tmp' ← wr tmp (o + j) v; copy_one o p js src tmp'
  end.
Fixpoint copy_values (offset pre : list nat) (order : list nat) (src tmp : list (option A)) : option (list (option A)) :=
  match order with
  | [] => Some tmp
  | i :: order =>
    o ← offset !! i; o1 ← offset !! S i; p ← pre !! i;
    tmp' ← copy_one o p (seq 0 (o1 - o)) src tmp;
    copy_values offset pre order src tmp'
  end.

(** What happened. [UB]: out of bounds access. [Unfinished]: the schedule given did not run a pass to its end. *)
Inductive outcome := UB | Unfinished | Thrown | Done (out : list (option A)) (offset : list nat).

Definition ok {B} (x : option B) (f : B -> outcome) : outcome :=
  match x with None => UB | Some x => f x end.

(** Everything the machine decides: the insertions of each thread and the schedule in both passes, and the order in
    which the simple loops execute their iterations. *)
Record machine := Machine {
  m_prog1 : list (list (nat * A)); m_sched1 : list nat;
  m_prog2 : list (list (nat * A)); m_sched2 : list nat;
  m_order1 : list nat; m_order2 : list nat; m_order3 : list nat
}.

(** Crs:145-323 queryImpl. *)
Definition queryImpl (m : machine) (n : nat) (perm : list nat) (st : buffer_status)
    (out0 : list (option A)) (offset0 : list nat) : outcome :=
  let counts0 := replicate n 0 in
  let slot1 := match st with PreallocationNone => slot_count | _ => slot_first offset0 perm end in
  ok (prun slot1 (m_sched1 m) (pinit counts0 out0 (m_prog1 m))) (fun s1 =>
  if negb (pfinished s1) then Unfinished else
  let counts := p_counts s1 in
  ok (match st with PreallocationNone => Some true
      | _ => any_opt (overflow_at offset0 perm counts) (seq 0 n) end) (fun overflow =>
  let underflow := negb overflow && (sum_list counts <? length (p_out s1)) in
  (* copy_counts_to_offsets, exclusive_scan, lastElement *)
  ok (par_writes (fun i => perm !! i) (fun i => counts !! i) (m_order1 m) offset0) (fun offset1 =>
  let offset2 := excl_scan 0 offset1 in
  ok (list.last offset2) (fun n_results =>
  if n_results =? 0 then Done [] offset2
  else if overflow || (match st with PreallocationNone => true | _ => false end) then
    match st with
    | PreallocationHard => Thrown
    | _ =>
      ok (par_writes (fun i => Some i) (fun i => q ← perm !! i; offset2 !! q) (m_order2 m) counts) (fun counts2 =>
      ok (prun slot_second (m_sched2 m) (pinit counts2 (replicate n_results None) (m_prog2 m))) (fun s2 =>
      if negb (pfinished s2) then Unfinished else Done (p_out s2) offset2))
    end
  else if underflow then
    ok (copy_values offset2 offset0 (m_order3 m) (p_out s1) (replicate n_results None)) (fun tmp => Done tmp offset2)
  else Done (p_out s1) offset2)))).

(** Crs:325-349 allocateAndInitializeStorage for spatial and ordered queries.  [out0] is what the caller passed. *)
Definition alloc_spatial (n : nat) (buffer_size : Z) (out0 : list (option A)) : list (option A) * list nat :=
  let b := Z.abs_nat buffer_size in
  if b =? 0 then (out0, replicate (S n) b)
  else (replicate (n * b) None, excl_scan 0 (replicate (S n) b)).

(** Crs:351-374 allocateAndInitializeStorage for nearest queries; [garbage] is the uninitialised last entry. *)
Definition alloc_nearest (ks : list nat) (garbage : nat) : list (option A) * list nat :=
  let offset := excl_scan 0 (ks ++ [garbage]) in
  (replicate (default 0 (list.last offset)) None, offset).

(** Crs:376-432 queryDispatch, for the three kinds of predicates.  [perm] is either the identity (Iota) or the
    permutation of computeSpaceFillingCurvePermutation. *)
Definition query_spatial (m : machine) (n : nat) (perm : list nat) (buffer_size : Z) (out0 : list (option A)) : outcome :=
  let a := alloc_spatial n buffer_size out0 in queryImpl m n perm (toBufferStatus buffer_size) (fst a) (snd a).
Definition query_ordered (m : machine) (n : nat) (perm : list nat) (buffer_size : Z) (out0 : list (option A)) : outcome :=
  let a := alloc_spatial n buffer_size out0 in queryImpl m n perm PreallocationSoft (fst a) (snd a).
Definition query_nearest (m : machine) (n : nat) (perm : list nat) (ks : list nat) (garbage : nat) : outcome :=
  let a := alloc_nearest ks garbage in queryImpl m n perm PreallocationSoft (fst a) (snd a).

End Crs.
Arguments pstate : clear implicits.
Arguments outcome : clear implicits.
Arguments machine : clear implicits.
