(** Model of src/spatial/detail/ArborX_TreeConstruction.hpp (hierarchy generation) as an interleaving
    machine, with the node layout of ArborX_Node.hpp and ArborX_HappyTreeFriends.hpp.

    Simplifications: [ROPE_SENTINEL] (-1) is [None], [UNTOUCHED_NODE] (-1) is [None], an uninitialised
    node is [None] (reading it makes the step undefined); volumes are an abstract type with [join]
    (= expand) and [bot] (= a default constructed volume); memory is sequentially consistent, one shared
    access per step. *)
From Verif Require Export Base.

(** ** The delta function.  ArborX_TreeConstruction.hpp:131-170 *)

(** Two's complement reading of the low [w] bits (the implicit conversion of the return statement). *)
Definition to_signed (w : Z) (x : Z) : Z :=
  let y := (x mod 2 ^ w)%Z in if (y <? 2 ^ (w - 1))%Z then y else (y - 2 ^ w)%Z.

(** [w] is 32 or 64, [codes] the sorted codes as unsigned values, [num_internal] = _num_internal_nodes.
    Line 151-152 sentinel, line 164 xor, line 166 the returned expression with its wrap-around. *)
Definition delta_code (w : Z) (codes : list Z) (num_internal : nat) (i : Z) : Z :=
  if ((i <? 0) || (i >=? Z.of_nat num_internal))%Z then (2 ^ (w - 1) - 1)%Z
  else
    let c0 := default 0%Z (codes !! Z.to_nat i) in
    let c1 := default 0%Z (codes !! S (Z.to_nat i)) in
    let x := Z.lxor c0 c1 in
    to_signed w (x + (if (x =? 0)%Z then (- 2 ^ (w - 1)) + Z.lxor i (i + 1) else 0) - 1)%Z.

Section Machine.
Context {V : Type}.
Variable join : V -> V -> V.     (* expand(bounding_volume, volume) *)
Variable bot : V.                (* BoundingVolume{} *)
Variable vol : nat -> V.         (* volume of the user's value with that original index *)
Variable perm : list nat.        (* _permutation_indices *)
Variable num_internal : nat.     (* _num_internal_nodes *)
Variable delta : Z -> Z.         (* instantiated with delta_code *)

(** ArborX_Node.hpp:24-41 *)
Record leaf_node := { l_rope : option nat; l_value : nat }.
Record internal_node := { n_left : nat; n_rope : option nat; n_vol : V }.

(** ArborX_TreeConstruction.hpp:127-128 *)
Definition internalIndex (i : nat) : nat := i + num_internal + 1.

(** ArborX_TreeConstruction.hpp:173-195 *)
Definition rope_of (range_right : nat) (delta_right : Z) : option nat :=
  if negb (range_right =? num_internal)
  then Some (if (delta_right <? delta (Z.of_nat (range_right + 1)))%Z
             then range_right + 1 else internalIndex (range_right + 1))
  else None.

(** Thread-local state of operator() (lines 197-311).  [i], ranges, deltas and volume are the C++
    locals; [lc] is left_child (already the final index), [sib]/[sib_leaf] the sibling to be read. *)
Record locals := { th_i : nat; th_l : nat; th_r : nat; th_dl : Z; th_dr : Z; th_bv : V }.
Inductive pc :=
| PInit                                                      (* before line 199 *)
| PLoop (t : locals)                                         (* line 225, top of the do loop *)
| PRead (t : locals) (lc : nat) (sib_leaf : bool) (sib : nat) (* after a successful CAS: 264 / 291 *)
| PWrite (t : locals) (lc : nat)                           (* line 301 *)
| PDone.

Record state := {
  st_leaves : list (option leaf_node);
  st_nodes : list (option internal_node);
  st_ranges : list (option nat);
  st_pcs : list pc }.

(** The state before the kernel: line 96-104 (allocation without initialisation, ranges untouched). *)
Definition init_state : state :=
  {| st_leaves := replicate (S num_internal) None;
     st_nodes := replicate num_internal None;
     st_ranges := replicate num_internal None;
     st_pcs := replicate (S num_internal) PInit |}.

(** One step of thread [t].  [None]: undefined behaviour (out-of-range or uninitialised access) or
    the thread has finished. *)
Definition step (s : state) (t : nat) : option state :=
  p ← st_pcs s !! t;
  match p with
  | PInit => (* lines 199-218 *)
      o ← perm !! t;
      let dl := delta (Z.of_nat t - 1) in
      let dr := delta (Z.of_nat t) in
      leaves ← wr (st_leaves s) t (Some {| l_rope := rope_of t dr; l_value := o |});
      Some {| st_leaves := leaves; st_nodes := st_nodes s; st_ranges := st_ranges s;
              st_pcs := <[t := PLoop {| th_i := t; th_l := t; th_r := t; th_dl := dl; th_dr := dr;
                                        th_bv := join bot (vol o) |}]> (st_pcs s) |}
  | PLoop x =>
      if (th_dr x <? th_dl x)%Z then (* lines 229-266, left child *)
        let ap := th_r x in
        old ← st_ranges s !! ap;
        match old with
        | None => ranges ← wr (st_ranges s) ap (Some (th_l x));
            Some {| st_leaves := st_leaves s; st_nodes := st_nodes s; st_ranges := ranges;
                    st_pcs := <[t := PDone]> (st_pcs s) |}
        | Some rr =>
            let right_child := ap + 1 in
            Some {| st_leaves := st_leaves s; st_nodes := st_nodes s; st_ranges := st_ranges s;
                    st_pcs := <[t := PRead {| th_i := th_i x; th_l := th_l x; th_r := rr; th_dl := th_dl x;
                                              th_dr := delta (Z.of_nat rr); th_bv := th_bv x |}
                                           (th_i x) (right_child =? rr) right_child]> (st_pcs s) |}
        end
      else (* lines 268-295, right child *)
        if th_l x =? 0 then None else
        let ap := th_l x - 1 in
        old ← st_ranges s !! ap;
        match old with
        | None => ranges ← wr (st_ranges s) ap (Some (th_r x));
            Some {| st_leaves := st_leaves s; st_nodes := st_nodes s; st_ranges := ranges;
                    st_pcs := <[t := PDone]> (st_pcs s) |}
        | Some ll =>
            let left_is_leaf := ap =? ll in
            Some {| st_leaves := st_leaves s; st_nodes := st_nodes s; st_ranges := st_ranges s;
                    st_pcs := <[t := PRead {| th_i := th_i x; th_l := ll; th_r := th_r x;
                                              th_dl := delta (Z.of_nat ll - 1);
                                              th_dr := th_dr x; th_bv := th_bv x |}
                                           (if left_is_leaf then ap else internalIndex ap)
                                           left_is_leaf ap]> (st_pcs s) |}
        end
  | PRead x lc sib_leaf sib => (* lines 262-266 / 286-290: expand by the sibling *)
      v ← (if sib_leaf : bool then o ← st_leaves s !! sib; nd ← o; Some (vol (l_value nd))
           else o ← st_nodes s !! sib; nd ← o; Some (n_vol nd));
      Some {| st_leaves := st_leaves s; st_nodes := st_nodes s; st_ranges := st_ranges s;
              st_pcs := <[t := PWrite {| th_i := th_i x; th_l := th_l x; th_r := th_r x; th_dl := th_dl x;
                                         th_dr := th_dr x; th_bv := join (th_bv x) v |} lc]> (st_pcs s) |}
  | PWrite x lc => (* lines 298-310 *)
      let karras_parent := if (th_dr x <? th_dl x)%Z then th_r x else th_l x in
      nodes ← wr (st_nodes s) karras_parent
                 (Some {| n_left := lc; n_rope := rope_of (th_r x) (th_dr x); n_vol := th_bv x |});
      let i := internalIndex karras_parent in
      Some {| st_leaves := st_leaves s; st_nodes := nodes; st_ranges := st_ranges s;
              st_pcs := <[t := if i =? internalIndex 0 then PDone else
                               PLoop {| th_i := i; th_l := th_l x; th_r := th_r x; th_dl := th_dl x;
                                        th_dr := th_dr x; th_bv := th_bv x |}]> (st_pcs s) |}
  | PDone => None
  end.

(** Any finite schedule of thread steps. *)
Inductive exec : state -> list nat -> state -> Prop :=
| exec_nil s : exec s [] s
| exec_cons s t s' ts s'' : step s t = Some s' -> exec s' ts s'' -> exec s (t :: ts) s''.

Definition is_done (p : pc) : bool := match p with PDone => true | _ => false end.
Definition all_done (s : state) : Prop := forall t p, st_pcs s !! t = Some p -> p = PDone.

(** A computable scheduler used by examples: run the schedule, skipping finished threads. *)
Fixpoint run (s : state) (ts : list nat) : option state :=
  match ts with
  | [] => Some s
  | t :: ts => match st_pcs s !! t with
               | Some PDone => run s ts
               | _ => s' ← step s t; run s' ts
               end
  end.

(** ** The finished tree, as read through HappyTreeFriends. *)
Record tree := { t_size : nat; t_leaves : list leaf_node; t_nodes : list internal_node }.

Definition tree_of (s : state) : option tree :=
  ls ← mapM id (st_leaves s); ns ← mapM id (st_nodes s);
  Some {| t_size := S num_internal; t_leaves := ls; t_nodes := ns |}.
End Machine.

Arguments state : clear implicits.
Arguments pc : clear implicits.
Arguments locals : clear implicits.
Arguments tree : clear implicits.
Arguments internal_node : clear implicits.

Section Friends.
Context {V : Type} (T : tree V).
(** ArborX_HappyTreeFriends.hpp:25-30 *)
Definition getRoot : nat := t_size T.
(** 32-38 *)
Definition isLeaf (i : nat) : bool := i <? t_size T.
(** 46-51 *)
Definition getVolume (i : nat) : option V := n_vol <$> t_nodes T !! (i - t_size T).
(** 59-64 *)
Definition getValue (i : nat) : option nat := l_value <$> t_leaves T !! i.
(** 66-71 *)
Definition getLeftChild (i : nat) : option nat :=
  if isLeaf i then None else n_left <$> t_nodes T !! (i - t_size T).
(** 80-85; outer option: valid access, inner option: ROPE_SENTINEL *)
Definition getRope (i : nat) : option (option nat) :=
  if isLeaf i then l_rope <$> t_leaves T !! i else n_rope <$> t_nodes T !! (i - t_size T).
(** 73-78 *)
Definition getRightChild (i : nat) : option (option nat) :=
  if isLeaf i then None else c ← getLeftChild i; getRope c.
End Friends.
