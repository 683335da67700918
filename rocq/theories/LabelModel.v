(** Model of /repo/src/spatial/detail/ArborX_TreeNodeLabeling.hpp (cited as TNL): parents of the tree nodes and
    bottom-up reduction of leaf labels.

    Labels are [Z] (the code uses int); memory is sequentially consistent, one shared access per step. *)
From Verif Require Export Interleave TreeConstructionModel KernelAlgModel.

(** TNL:26-40 findParents.  Iteration i of [n, 2n-1) performs two stores; the 2(n-1) stores are executed in an
    arbitrary [order] (item 2k is the left store of node n+k, item 2k+1 the right one).  The asserts at 31-32 are the
    first test.  [par0] is the caller's array. *)
Definition findParents {V} (T : tree V) (order : list nat) (par0 : list nat) : option (list nat) :=
  let n := t_size T in
  if (2 <=? n) && (length par0 =? 2 * n - 1) then
    par_writes
      (fun k => if Nat.even k then getLeftChild T (n + k / 2) else mjoin (getRightChild T (n + k / 2)))
      (fun k => Some (n + k / 2)) order par0
  else None.

Definition indeterminate : Z := -1.   (* TNL:52 *)
Definition untouched : Z := -2.       (* TNL:53 *)

(** Thread state of the kernel at TNL:59-88. *)
Inductive lpc :=
| LRead (i : nat)              (* 71: about to read labels(i) *)
| LCas (i : nat) (label : Z)   (* 72-75: about to compare-exchange labels(parents(i)) *)
| LWrite (p : nat)             (* 84: about to store indeterminate *)
| LDone.
Record lstate := LState { ls_labels : list Z; ls_pcs : list lpc }.

Section Reduce.
Variable n : nat.              (* TNL:46: (parents.size() + 1) / 2 *)
Variable parents : list nat.

(** TNL:86-87: i = parent; while (i != root), root = n *)
Definition lnext (p : nat) : lpc := if p =? n then LDone else LRead p.

Definition lstep (s : lstate) (t : nat) : option lstate :=
  p ← ls_pcs s !! t;
  match p with
  | LRead i =>
      label ← ls_labels s !! i;
      Some (LState (ls_labels s) (<[t := LCas i label]> (ls_pcs s)))
  | LCas i label =>
      parent ← parents !! i;
      old ← ls_labels s !! parent;
      if (old =? untouched)%Z then
        Some (LState (<[parent := label]> (ls_labels s)) (<[t := LDone]> (ls_pcs s)))
      else if negb (old =? label)%Z then
        Some (LState (ls_labels s) (<[t := LWrite parent]> (ls_pcs s)))
      else Some (LState (ls_labels s) (<[t := lnext parent]> (ls_pcs s)))
  | LWrite p =>
      labels ← wr (ls_labels s) p indeterminate;
      Some (LState labels (<[t := lnext p]> (ls_pcs s)))
  | LDone => None
  end.

(** TNL:55-58: internal labels reset to untouched; one thread per leaf. *)
Definition linit (labels0 : list Z) : lstate :=
  LState (take n labels0 ++ replicate (length labels0 - n) untouched) (LRead <$> seq 0 n).
Definition lall_done (s : lstate) : Prop := forall t p, ls_pcs s !! t = Some p -> p = LDone.

(** Scheduler for examples: skips finished threads. *)
Fixpoint lrun (s : lstate) (ts : list nat) : option lstate :=
  match ts with
  | [] => Some s
  | t :: ts => match ls_pcs s !! t with
               | Some LDone => lrun s ts
               | _ => s' ← lstep s t; lrun s' ts
               end
  end.
End Reduce.
