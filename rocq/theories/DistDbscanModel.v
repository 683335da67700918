(** Model of the distributed DBSCAN (/repo/src/cluster/ArborX_DistributedDBSCAN.hpp, cited as DD, and
    /repo/src/cluster/detail/ArborX_DistributedDBSCANHelpers.hpp, cited as DDH).

    Ranks are indices into lists; a collective operation is a function of the data of all ranks.  [None] is an
    out-of-bounds access or exhausted fuel (the theorems exclude both).  Labels are Z (long long, no overflow).
    Simplifications: parallel_for bodies and final scan passes write to disjoint positions (proved where it matters), so
    they are run in order, except for the in-place compaction of DD:107-121, which has its own order-dependent model
    [compress_par]; the exchange of data (Distributor) is modelled by its effect: a rank receives, sender by sender, what
    was sent to it. *)
From Verif Require Export Base KernelAlgModel.
From Coq Require Export ZArith.
Local Open Scope nat_scope.

(** ** Counts, offsets and global labels *)
(** DDH:127-130: offsets[0] = 0; offsets[i+1] = counts[i] + offsets[i] *)
Fixpoint offsets_from (acc : Z) (counts : list Z) : list Z :=
  match counts with [] => [acc] | c :: counts => acc :: offsets_from (c + acc) counts end.
(** DDH:110-131 computeCountsAndOffsets: MPI_Allgather gives every rank the value of every rank *)
Definition counts_and_offsets (ks : list Z) : list Z * list Z := (ks, offsets_from 0 ks).
(** DDH:166-179 the body of convertLocalToGlobal; [ghosts] is the list of (ghost_rank, ghost_id) *)
Definition convert_label (offs : list Z) (rank n_local : nat) (ghosts : list (nat * nat)) (label : Z) : option Z :=
  if (label =? -1)%Z then Some (-1)%Z
  else if (label <? Z.of_nat n_local)%Z then o ← offs !! rank; Some (o + label)%Z
  else g ← ghosts !! Z.to_nat (label - Z.of_nat n_local); o ← offs !! fst g; Some (o + Z.of_nat (snd g))%Z.
(** DDH:133-180 *)
Definition convertLocalToGlobal (offs : list Z) (rank n_local : nat) (ghosts : list (nat * nat)) (local_labels : list Z) : option (list Z) :=
  mapM (convert_label offs rank n_local ghosts) local_labels.

(** ** Dropping ghosts that are noise *)
(** a ghost: (rank, id, label) *)
Notation ghost := (nat * nat * Z)%type (only parsing).
Definition g_label (g : ghost) : Z := snd g.
(** DD:107-121 run in order: keep the labelled ghosts *)
Definition compress (gs : list ghost) : list ghost := List.filter (fun g => negb (g_label g =? -1)%Z) gs.
(** DD:107-121 as a parallel_scan: the first pass has computed [update] of every index from the original labels; the final
    pass runs the body once for every index, in any order (Kokkos fixes none), on the same views it reads. *)
Definition scan_labelled (gs : list ghost) (i : nat) : nat := length (compress (take i gs)).
Definition compress_body (pos : nat -> nat) (gs : list ghost) (i : nat) : option (list ghost) :=
  g ← gs !! i;
  if (g_label g =? -1)%Z then Some gs else wr gs (pos i) g.
Definition compress_par (order : list nat) (gs : list ghost) : option (list ghost) :=
  out ← foldl (fun acc i => gs' ← acc; compress_body (scan_labelled gs) gs' i) (Some gs) order;
  Some (take (length (compress gs)) out).

(** ** Merge pairs *)
Notation mpair := (Z * Z)%type (only parsing).   (* from, to *)
(** DDH:399-407 *)
Definition mp_ltb (a b : mpair) : bool := (fst a <? fst b)%Z || ((fst a =? fst b)%Z && (snd a <? snd b)%Z).
(** Kokkos::sort: the order is total on pairs, so the sorted view is unique *)
Fixpoint mp_insert (p : mpair) (l : list mpair) : list mpair :=
  match l with [] => [p] | q :: l' => if mp_ltb q p then q :: mp_insert p l' else p :: l end.
Fixpoint mp_sort (l : list mpair) : list mpair := match l with [] => [] | p :: l => mp_insert p (mp_sort l) end.

(** DDH:439-493 the body for one point with ghost labels: new local label, pairs emitted *)
Definition merge_point (is_core : bool) (local_label : Z) (ghost_labels : list Z) : option Z * list mpair :=
  let valid := negb (local_label =? -1)%Z in
  if length ghost_labels + (if valid then 1 else 0) <? 2 then (None, [])
  else if negb is_core then
    (if negb valid then head ghost_labels else None, [])
  else
    (* LLONG_MAX when the local label is invalid: then the minimum of the (non-empty) ghost labels *)
    let min_label := match ghost_labels with
                     | [] => local_label
                     | g :: gs => let m := foldl Z.min g gs in if valid then Z.min m local_label else m
                     end in
    let first := if valid && negb (local_label =? min_label)%Z then [(local_label, min_label)] else [] in
    (if valid && negb (local_label =? min_label)%Z then Some min_label else None,
     first ++ ((fun l => (l, min_label)) <$> List.filter (fun l => negb (l =? min_label)%Z) ghost_labels)).
(** DDH:436-495: the points are distinct (runs of equal ids), so the iterations are independent *)
Definition merge_step (is_core : nat -> bool) (offs ids : list nat) (glabels : list Z) (st : list Z * list mpair) (i : nat) : option (list Z * list mpair) :=
  b ← offs !! i; e ← offs !! S i; id ← ids !! b; l ← fst st !! id;
  let '(upd, pairs) := merge_point (is_core id) l (take (e - b) (drop b glabels)) in
  labels' ← match upd with Some v => wr (fst st) id v | None => Some (fst st) end;
  Some (labels', snd st ++ pairs).
(** DDH:419-497; the pairs are written to a view of size ghost_labels.size() *)
Definition computeMergePairs (is_core : nat -> bool) (labels : list Z) (offs ids : list nat) (glabels : list Z) : option (list Z * list mpair) :=
  st ← foldl (fun acc i => st ← acc; merge_step is_core offs ids glabels st i) (Some (labels, [])) (seq 0 (length offs - 1));
  if length (snd st) <=? length glabels then Some st else None.

(** DDH:537-550 the while loop: further targets of the same label are linked to the smallest one *)
Fixpoint more_targets (fuel : nat) (s : list mpair) (j : nat) (from to : Z) : option (list mpair) :=
  match fuel with
  | O => None
  | S fuel =>
      if length s <=? j then Some []
      else
        p ← s !! j; q ← s !! (j - 1);
        if (fst p =? from)%Z then
          rest ← more_targets fuel s (S j) from to;
          Some (if (snd p =? snd q)%Z then rest else (snd p, to) :: rest)
        else Some []
  end.
(** DDH:520-551 *)
Definition filter_body (s : list mpair) (i : nat) : option (list mpair) :=
  p ← s !! i;
  rest ← more_targets (S (length s)) s (S i) (fst p) (snd p);
  match i with
  | O => Some (p :: rest)
  | S i' => q ← s !! i'; Some (if (fst p =? fst q)%Z then [] else p :: rest)
  end.
(** DDH:499-560; the filtered pairs are written to a view of the same size *)
Definition sortAndFilter (pairs : list mpair) : option (list mpair) :=
  match pairs with
  | [] => Some []
  | _ =>
      let s := mp_sort pairs in
      out ← mapM (filter_body s) (seq 0 (length s));
      if length (concat out) <=? length s then Some (mp_sort (concat out)) else None
  end.

(** DDH:646-656 the loop of relabel *)
Fixpoint chase (fuel : nat) (from to : list Z) (label : Z) : option Z :=
  match fuel with
  | O => None
  | S fuel =>
      next ← lower_bound Z.ltb from 0 (length from) label;
      if next =? length from then Some label
      else f ← from !! next;
           if (f =? label)%Z then t ← to !! next; chase fuel from to t else Some label
  end.
(** DDH:641-659: if no pair applies the label is left alone, which is the same as storing it *)
Definition relabel (pairs : list mpair) (labels : list Z) : option (list Z) :=
  mapM (chase (S (length pairs)) (fst <$> pairs) (snd <$> pairs)) labels.

(** ** The whole program *)
(** What a rank has after step 2 (DD:66-86): its number of points, its ghosts (rank, id) and the labels computed by the
    local DBSCAN on its points followed by the ghosts. *)
Record rank_data := RankData { rd_n : nat; rd_ghosts : list (nat * nat); rd_labels : list Z }.
(** DD:88-104 step 3: global labels of the own points, and the labelled ghosts *)
Definition step3 (offs : list Z) (rank : nat) (d : rank_data) : option (list Z * list ghost) :=
  labels ← convertLocalToGlobal offs rank (rd_n d) (rd_ghosts d) (rd_labels d);
  Some (take (rd_n d) labels, zip (rd_ghosts d) (drop (rd_n d) labels)).
(** DD:125-126, DDH:357-389: what the owner [rank] gets back, sender by sender *)
Definition received (rank : nat) (sent : list (list ghost)) : list (nat * Z) :=
  concat ((fun gs : list ghost => (fun g : ghost => (snd (fst g), g_label g)) <$> List.filter (fun g : ghost => fst (fst g) =? rank) gs) <$> sent).
(** DD:127-170 steps 4b and 5 up to the merge pairs.  [srt] is the key sort (not stable: any sorted permutation). *)
Definition step5 (srt : list (nat * Z) -> list (nat * Z)) (is_core : nat -> bool) (labels : list Z) (recv : list (nat * Z)) : option (list Z * list mpair) :=
  let ids := fst <$> srt recv in
  offs ← computeOffsetsInOrderedView Nat.eqb (seq 0 (S (length ids))) ids (replicate (S (length ids)) 0);
  if 1 <? length offs then computeMergePairs is_core labels offs ids (snd <$> srt recv) else Some (labels, []).
(** DD:66-170 on all ranks: the labels and merge pairs of every rank before the pairs are filtered.
    [is_core rank id]: constantly true for core_min_size = 2 (DD:140-145), otherwise whether the number of neighbours of
    the point among the points and ghosts of its rank reaches core_min_size (DD:146-170). *)
Definition until_pairs (srt : list (nat * Z) -> list (nat * Z)) (is_core : nat -> nat -> bool) (ranks : list rank_data) : option (list (list Z * list mpair)) :=
  let offs := snd (counts_and_offsets ((fun d => Z.of_nat (rd_n d)) <$> ranks)) in
  s3 ← mapM (fun r => d ← ranks !! r; step3 offs r d) (seq 0 (length ranks));
  let sent := (fun x => compress (snd x)) <$> s3 in
  mapM (fun r => x ← s3 !! r; step5 srt (is_core r) (fst x) (received r sent)) (seq 0 (length ranks)).
(** DD:171, DD:178-183: filtered on every rank, gathered, filtered again *)
Definition filter_pairs (raw : list (list mpair)) : option (list mpair) :=
  local ← mapM sortAndFilter raw; sortAndFilter (concat local).
(** DD:25-190 *)
Definition distributed_dbscan (srt : list (nat * Z) -> list (nat * Z)) (is_core : nat -> nat -> bool) (ranks : list rank_data) : option (list (list Z)) :=
  s5 ← until_pairs srt is_core ranks;
  pairs ← filter_pairs (snd <$> s5);
  (* DD:186-188 step 7 *)
  mapM (fun x => relabel pairs (fst x)) s5.
