(** C10: half and full neighbour lists (ArborX_NeighborList.hpp, ArborX_ExpandHalfToFull.hpp). *)
From Verif Require Import Base CrsModel CrsSpec CrsProof NeighborModel NeighborProof TraversalSpec PropertiesTraversal.
From Verif Require Import TreeConstructionProof DeltaProof PropertiesTree.
Local Open Scope nat_scope.

(** [L] lists under each of the n values some neighbours; every pair of distinct neighbours is listed exactly once. *)
Definition HalfList (near : nat -> nat -> bool) (n : nat) (L : list (list nat)) : Prop :=
  length L = n /\
  (forall i l, L !! i = Some l -> NoDup l) /\
  (forall i j l, L !! i = Some l -> j ∈ l ->
     j < n /\ j <> i /\ near i j = true /\ forall l', L !! j = Some l' -> i ∉ l') /\
  (forall i j l l', L !! i = Some l -> L !! j = Some l' -> i <> j -> near i j = true -> j ∈ l \/ i ∈ l').

(** [L] lists under each value exactly its neighbours, once each. *)
Definition FullList (near : nat -> nat -> bool) (n : nat) (L : list (list nat)) : Prop :=
  length L = n /\
  forall i l, L !! i = Some l -> NoDup l /\ forall j, j ∈ l <-> j < n /\ j <> i /\ near i j = true.

(** The views returned hold the lists in compressed rows, everything initialised. *)
Definition Holds (good : list (list nat) -> Prop) (r : outcome nat) : Prop :=
  exists L out offs, r = Done out offs /\ good L /\ IsOffsets L offs /\ out = map Some (concat L).

(** What the traversal hands to the callback, for the pairs of a half traversal. *)
Definition PairsOnce (near : nat -> nat -> bool) (n : nat) (P : list (nat * nat)) : Prop :=
  NoDup P /\
  (forall a b, (a, b) ∈ P -> a <> b /\ a < n /\ b < n /\ near a b = true /\ (b, a) ∉ P) /\
  (forall a b, a < n -> b < n -> a <> b -> near a b = true -> (a, b) ∈ P \/ (b, a) ∈ P).

Lemma sel_NoDup {A} k (E : list (nat * A)) : NoDup E -> NoDup (sel k E).
Proof.
  induction E as [|[j v] E IH]; intros H; [constructor|]. apply NoDup_cons in H as [Hn H]. cbn [sel].
  destruct (Nat.eqb_spec k j) as [->|]; [|auto]. constructor; [|auto]. by rewrite sel_elem_iff.
Qed.
Lemma elem_swap (P : list (nat * nat)) a b : (a, b) ∈ map (fun p => (snd p, fst p)) P <-> (b, a) ∈ P.
Proof.
  change (map ?f P) with (f <$> P). rewrite elem_of_list_fmap. split.
  - intros ([x y]&[= -> ->]&H). done.
  - intros H. exists (b, a). done.
Qed.
Lemma NoDup_swap (P : list (nat * nat)) : NoDup P -> NoDup (map (fun p => (snd p, fst p)) P).
Proof.
  intros H. apply NoDup_ListNoDup. apply FinFun.Injective_map_NoDup; [|by apply NoDup_ListNoDup].
  intros [a b] [c d] E. simpl in E. congruence.
Qed.

Lemma half_of_pairs near n P L : PairsOnce near n P -> (forall a b, near a b = near b a) -> length L = n ->
  (forall k l, L !! k = Some l -> l ≡ₚ sel k (map (fun p => (snd p, fst p)) P)) -> HalfList near n L.
Proof.
  intros (ND&H1&H2) Hs Hl HL.
  assert (forall k l x, L !! k = Some l -> x ∈ l <-> (x, k) ∈ P) as Hin.
  { intros k l x Hk. rewrite (HL _ _ Hk), sel_elem_iff, elem_swap. done. }
  split; [done|]. split; [|split].
  - intros i l Hi. rewrite (HL _ _ Hi). by apply sel_NoDup, NoDup_swap.
  - intros i j l Hi Hj. rewrite (Hin _ _ _ Hi) in Hj. destruct (H1 _ _ Hj) as (?&?&?&Hn&Hnot).
    split; [done|]. split; [done|]. split; [by rewrite Hs|]. intros l' Hl'. by rewrite (Hin _ _ _ Hl').
  - intros i j l l' Hi Hj Hne Hn. rewrite (Hin _ _ _ Hi), (Hin _ _ _ Hj).
    apply H2; auto; [apply lookup_lt_Some in Hj; lia|apply lookup_lt_Some in Hi; lia|by rewrite Hs].
Qed.

Lemma full_of_pairs near n P L : PairsOnce near n P -> (forall a b, near a b = near b a) -> length L = n ->
  (forall k l, L !! k = Some l -> l ≡ₚ sel k (map (fun p => (snd p, fst p)) P) ++ sel k P) -> FullList near n L.
Proof.
  intros (ND&H1&H2) Hs Hl HL. split; [done|]. intros i l Hi. split.
  - rewrite (HL _ _ Hi). apply NoDup_app. split; [by apply sel_NoDup, NoDup_swap|]. split; [|by apply sel_NoDup].
    intros x Hx. rewrite sel_elem_iff in *. rewrite elem_swap in Hx. by apply H1 in Hx as (_&_&_&_&?).
  - intros j. rewrite (HL _ _ Hi), elem_of_app, !sel_elem_iff, elem_swap. split.
    + intros [H|H]; apply H1 in H as (?&?&?&?&_); (split; [done|]); (split; [done|]); [by rewrite Hs|done].
    + intros (Hj&Hne&Hn). apply lookup_lt_Some in Hi. apply H2; auto; [lia|by rewrite Hs].
Qed.

Lemma within_of_pairs near n P : PairsOnce near n P -> Within n P.
Proof. intros (_&H&_) a b Hab. by apply H in Hab as (_&?&?&_). Qed.

Lemma half_pairs_once V (le : V -> V -> Prop) vol n perm T near pv outs :
  Index le vol perm T -> perm ≡ₚ seq 0 n -> (forall a, PruneSafe le vol (near a) (pv a)) ->
  (forall a b, near a b = near b a) ->
  Forall2 (fun i out => half_thread T near pv i = Ok out) (half_threads T) outs -> PairsOnce near n (concat outs).
Proof.
  intros HI HP Hps Hs HF.
  destruct (C09_half_traversal_pairs_once V le vol perm T near pv HI) as (outs'&HF'&ND&H1&H2); auto.
  { rewrite HP. apply NoDup_seq. }
  assert (outs = outs') as ->.
  { clear -HF HF'. revert outs' HF'. induction HF as [|i o l outs Ho _ IH]; intros outs' HF'; inversion HF'; subst; [done|].
    f_equal; [congruence|auto]. }
  assert (forall x, x ∈ perm <-> x < n) as Hx by (intros x; rewrite HP, elem_of_seq; lia).
  split; [done|]. split.
  - intros a b Hab. apply H1 in Hab as (?&?&?&?&?). rewrite <- !Hx. done.
  - intros a b Ha Hb. apply H2; by rewrite Hx.
Qed.

(** findHalfNeighborList on any index over n values, every schedule: no out-of-bounds access; on completion each pair
    of neighbours is listed once. *)
Theorem C10_half_list :
  forall V (le : V -> V -> Prop) vol n perm T near pv outs ts1 ts2,
  Index le vol perm T -> perm ≡ₚ seq 0 n -> (forall a, PruneSafe le vol (near a) (pv a)) ->
  (forall a b, near a b = near b a) ->
  Forall2 (fun i out => half_thread T near pv i = Ok out) (half_threads T) outs ->
  let r := findHalfNeighborList outs n ts1 ts2 in r = Unfinished \/ Holds (HalfList near n) r.
Proof.
  intros V le vol n perm T near pv outs ts1 ts2 HI HP Hps Hs HF r.
  pose proof (half_pairs_once V le vol n perm T near pv outs HI HP Hps Hs HF) as HPO.
  pose proof (half_ok outs n ts1 ts2 (within_of_pairs _ _ _ HPO)) as H. fold r in H.
  destruct r as [| | |out offs]; try done; [by left|]. right. destruct H as (L&Hl&HL&HO&Hout).
  exists L, out, offs. split; [done|]. split; [by eapply half_of_pairs|done].
Qed.
Print Assumptions C10_half_list.

(** findFullNeighborList: exactly the neighbours of each value, once each. *)
Theorem C10_full_list :
  forall V (le : V -> V -> Prop) vol n perm T near pv outs ts1 ts2 ts3,
  Index le vol perm T -> perm ≡ₚ seq 0 n -> (forall a, PruneSafe le vol (near a) (pv a)) ->
  (forall a b, near a b = near b a) ->
  Forall2 (fun i out => half_thread T near pv i = Ok out) (half_threads T) outs ->
  let r := findFullNeighborList outs n ts1 ts2 ts3 in r = Unfinished \/ Holds (FullList near n) r.
Proof.
  intros V le vol n perm T near pv outs ts1 ts2 ts3 HI HP Hps Hs HF r.
  pose proof (half_pairs_once V le vol n perm T near pv outs HI HP Hps Hs HF) as HPO.
  pose proof (full_ok outs n ts1 ts2 ts3 (within_of_pairs _ _ _ HPO)) as H. fold r in H.
  destruct r as [| | |out offs]; try done; [by left|]. right. destruct H as (L&Hl&HL&HO&Hout).
  exists L, out, offs. split; [done|]. split; [by eapply full_of_pairs|done].
Qed.
Print Assumptions C10_full_list.

(** expandHalfToFull turns any half list into the full list. *)
Theorem C10_expand_half_to_full :
  forall near n L offsets ts1 ts2,
  HalfList near n L -> (forall a b, near a b = near b a) -> IsOffsets L offsets ->
  let r := expandHalfToFull offsets (concat L) ts1 ts2 in r = Unfinished \/ Holds (FullList near n) r.
Proof.
  intros near n L offsets ts1 ts2 (Hl&HND&H1&H2) Hs HO r.
  assert (forall a b, (a, b) ∈ list_pairs L <-> exists l, L !! b = Some l /\ a ∈ l) as Hin.
  { intros a b. unfold list_pairs. rewrite elem_of_list_In, in_flat_map. split.
    - intros (i&_&Hab). apply in_map_iff in Hab as (x&[= -> ->]&Hx). destruct (L !! b) as [l|] eqn:E; [|done].
      exists l. split; [done|]. by apply elem_of_list_In.
    - intros (l&Hb&Ha). exists b. split; [apply in_seq; apply lookup_lt_Some in Hb; lia|].
      apply in_map_iff. exists a. split; [done|]. rewrite Hb. by apply elem_of_list_In. }
  assert (PairsOnce near n (list_pairs L)) as HPO.
  { split; [|split].
    - unfold list_pairs. assert (NoDup (seq 0 (length L))) as Hnd by apply NoDup_seq.
      induction (seq 0 (length L)) as [|i q IH]; [constructor|]. apply NoDup_cons in Hnd as [Hi Hnd]. cbn [flat_map].
      apply NoDup_app. split; [|split; [|auto]].
      + destruct (L !! i) as [l|] eqn:E; [|constructor]. apply NoDup_ListNoDup. apply FinFun.Injective_map_NoDup.
        * intros x y Exy. congruence.
        * apply NoDup_ListNoDup. eauto.
      + intros [x y] Hx Hy. apply elem_of_list_In, in_map_iff in Hx as (z&[= -> <-]&_).
        apply elem_of_list_In, in_flat_map in Hy as (j&Hj&Hy). apply in_map_iff in Hy as (z'&[= _ ->]&_).
        apply Hi. by apply elem_of_list_In.
    - intros a b Hab. apply Hin in Hab as (l&Hb&Ha). destruct (H1 _ _ _ Hb Ha) as (?&?&Hn&Hnot).
      split; [done|]. split; [done|]. split; [apply lookup_lt_Some in Hb; lia|]. split; [by rewrite Hs|].
      intros Hx. apply Hin in Hx as (l'&Hl'&Hb'). by apply (Hnot l').
    - intros a b Ha Hb Hne Hn. rewrite !Hin.
      destruct (lookup_lt_is_Some_2 L a) as [la Hla]; [lia|]. destruct (lookup_lt_is_Some_2 L b) as [lb Hlb]; [lia|].
      destruct (H2 a b la lb Hla Hlb Hne Hn); [right|left]; eauto. }
  pose proof (expand_ok L ts1 ts2 offsets HO) as H. fold r in H.
  assert (forall k l x, L !! k = Some l -> x ∈ l -> x < length L) as Hlt.
  { intros k l x Hk Hx. rewrite Hl. by apply (H1 k x l). }
  specialize (H Hlt). destruct r as [| | |out offs]; try done; [by left|]. right. destruct H as (L'&Hl'&HL'&HO'&Hout).
  exists L', out, offs. split; [done|]. split; [|done]. rewrite Hl in Hl'. by eapply full_of_pairs.
Qed.
Print Assumptions C10_expand_half_to_full.

(** The index over six points on a line of C09_example, neighbours at distance at most 4: [ex_outs] is what its half
    traversal reports.  All hypotheses of the theorems hold of it. *)
Definition ex_near (a o : nat) : bool := (zdist (nth a [5; 1; 9; 1; 20; 14]%Z 0%Z, 0, 0)%Z (line_vol o) <=? 16)%Z.
Definition ex_pv (a : nat) (v : zbox) : bool := (zdist (nth a [5; 1; 9; 1; 20; 14]%Z 0%Z, 0, 0)%Z v <=? 16)%Z.
Definition ex_outs : list (list (nat * nat)) := [[(1, 3); (1, 0)]; [(3, 0)]; [(0, 2)]; []; []; []].
Example C10_example_hypotheses :
  Index zle line_vol line_perm line_tree /\ line_perm ≡ₚ seq 0 6 /\
  (forall a, PruneSafe zle line_vol (ex_near a) (ex_pv a)) /\
  (forall a b, ex_near a b = ex_near b a) /\
  Forall2 (fun i out => half_thread line_tree ex_near ex_pv i = Ok out) (half_threads line_tree) ex_outs.
Proof.
  split; [apply line_index|]. split; [|split; [|split]].
  - apply NoDup_Permutation.
    + unfold line_perm. repeat (apply NoDup_cons; split; [rewrite ?elem_of_cons, elem_of_nil; lia|]). constructor.
    + apply NoDup_seq.
    + intros x. rewrite elem_of_seq. unfold line_perm. rewrite !elem_of_cons, elem_of_nil. lia.
  - apply C09_example.
  - intros a b. unfold ex_near, line_vol, pt3, zdist, gap. cbn [fst snd].
    generalize (nth a [5; 1; 9; 1; 20; 14]%Z 0%Z) (nth b [5; 1; 9; 1; 20; 14]%Z 0%Z). intros x y. f_equal. f_equal. f_equal.
    destruct (Z.le_ge_cases x y); [replace (Z.max 0 (Z.max (y - x) (x - y))) with (y - x)%Z by lia; replace (Z.max 0 (Z.max (x - y) (y - x))) with (y - x)%Z by lia; done|
      replace (Z.max 0 (Z.max (y - x) (x - y))) with (x - y)%Z by lia; replace (Z.max 0 (Z.max (x - y) (y - x))) with (x - y)%Z by lia; done].
  - replace (half_threads line_tree) with (seq 0 6) by (vm_compute; reflexivity).
    repeat (constructor; [vm_compute; reflexivity|]). constructor.
Qed.
Example C10_example :
  let sched := concat (repeat [3; 2; 0; 1; 0] 12) in
  let sched3 := concat (repeat [1; 3; 0; 2; 3] 6) in
  findHalfNeighborList ex_outs 6 sched sched = Done [Some 3; Some 1; Some 0; Some 1] [0; 2; 2; 3; 4; 4; 4] /\
  findFullNeighborList ex_outs 6 sched sched sched3 =
    Done [Some 3; Some 1; Some 2; Some 3; Some 0; Some 0; Some 1; Some 0] [0; 3; 5; 6; 8; 8; 8] /\
  expandHalfToFull [0; 2; 2; 3; 4; 4; 4] [3; 1; 0; 1] sched sched3 =
    Done [Some 1; Some 3; Some 2; Some 3; Some 0; Some 0; Some 1; Some 0] [0; 3; 5; 6; 8; 8; 8].
Proof. split; [|split]; vm_compute; reflexivity. Qed.
