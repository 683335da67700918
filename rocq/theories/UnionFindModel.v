(** Model of /repo/src/cluster/detail/ArborX_UnionFind.hpp (cited as UF): the concurrent union-find, as an interleaving
    machine.  Every read, write and compare-exchange of the shared array [labels] is one step; memory is sequentially
    consistent.  Labels are [nat] (the code uses a signed integer type; the values are always indices).

    A thread executes a list of operations on the structure.  Besides merge and merge_into there is the comparison of two
    representatives with which FDBSCANDenseBox.hpp:155-173 decides to skip work. *)
From Verif Require Export Interleave.

Inductive uop :=
| Merge (i j : nat)          (* UF:139 merge(i, j) *)
| Into (x j : nat)           (* UF:136 merge_into(x, j): labels(x) = representative(j) *)
| Guard (i j : nat) (k : nat). (* if representative(i) == representative(j), skip the next k operations of the thread *)

(** Where a thread is within its current operation.  [st] is [None] while the first representative is computed and
    [Some v] while the second one is, [v] being the first result. *)
Inductive upc :=
| Rep0 (i : nat) (st : option nat)                (* UF:117, about to read labels(i) *)
| Rep1 (prev curr : nat) (st : option nat)        (* UF:122, about to read labels(curr) *)
| Rep2 (prev curr next : nat) (st : option nat)   (* UF:124, about to write labels(prev) = next *)
| Cas (v o : nat)                                 (* UF:171-178, vstat <> ostat, about to compare-exchange *)
| Store (r : nat).                                (* UF:136, about to write labels(x) = r *)

(** Remaining operations and the current one. *)
Definition uthread : Type := list uop * option (uop * upc).

Definition first_arg (op : uop) : nat := match op with Merge i _ => i | Into _ j => j | Guard i _ _ => i end.
Definition ustart (prog : list uop) : uthread :=
  match prog with [] => ([], None) | op :: rest => (rest, Some (op, Rep0 (first_arg op) None)) end.

(** representative() has returned [r]. UF:158-159 (merge: first vstat, then ostat), UF:170 loop condition. *)
Definition uret (op : uop) (st : option nat) (r : nat) (rest : list uop) : uthread :=
  match op, st with
  | Merge _ j, None => (rest, Some (op, Rep0 j (Some r)))
  | Merge _ _, Some v => if v =? r then ustart rest else (rest, Some (op, Cas v r))
  | Into _ _, _ => (rest, Some (op, Store r))
  | Guard _ j _, None => (rest, Some (op, Rep0 j (Some r)))
  | Guard _ _ k, Some v => ustart (if v =? r then drop k rest else rest)
  end.

Record ustate := UState { u_labels : list nat; u_thr : list uthread }.

(** One step of thread [t]; [None]: the thread has finished, or an index is out of bounds. *)
Definition ustep (s : ustate) (t : nat) : option ustate :=
  th ← u_thr s !! t;
  let l := u_labels s in
  match th with
  | (_, None) => None
  | (rest, Some (op, pc)) =>
    match pc with
    | Rep0 i st =>
        curr ← l !! i;
        let th' := if curr =? i then uret op st i rest else (rest, Some (op, Rep1 i curr st)) in
        Some (UState l (<[t := th']> (u_thr s)))
    | Rep1 prev curr st =>
        next ← l !! curr;
        let th' := if next <? curr then (rest, Some (op, Rep2 prev curr next st)) else uret op st curr rest in
        Some (UState l (<[t := th']> (u_thr s)))
    | Rep2 prev curr next st =>
        l' ← wr l prev next;
        Some (UState l' (<[t := (rest, Some (op, Rep1 curr next st))]> (u_thr s)))
    | Cas v o =>
        let '(target, new) := if v <? o then (o, v) else (v, o) in
        old ← l !! target;
        let l' := if old =? target then <[target := new]> l else l in
        let '(v', o') := if v <? o then (v, old) else (old, o) in
        let th' := if v' =? o' then ustart rest else (rest, Some (op, Cas v' o')) in
        Some (UState l' (<[t := th']> (u_thr s)))
    | Store r =>
        match op with
        | Into x _ =>
            l' ← wr l x r;
            Some (UState l' (<[t := ustart rest]> (u_thr s)))
        | _ => None
        end
    end
  end.

Definition uinit (labels0 : list nat) (progs : list (list uop)) : ustate := UState labels0 (ustart <$> progs).
Definition uall_done (s : ustate) : Prop := forall t th, u_thr s !! t = Some th -> snd th = None.

(** Scheduler for examples: skips finished threads. *)
Fixpoint urun (s : ustate) (ts : list nat) : option ustate :=
  match ts with
  | [] => Some s
  | t :: ts => match u_thr s !! t with
               | Some (_, None) => urun s ts
               | _ => s' ← ustep s t; urun s' ts
               end
  end.
