(** C73, C74: tree visualization. *)
From Verif Require Import VizProof PropertiesTraversal.
Local Open Scope nat_scope.

(** ** C73: visitAllIterative passes every node to the visitor exactly once, a parent before its children *)
(** What holds: trees of two or more values whose height is at most 63, in particular at most 64 values, ... *)
Theorem C73_height_partial :
  forall V (le : V -> V -> Prop) vol perm T h, Index le vol perm T -> 2 <= length perm ->
  HeightLe T (getRoot T) h -> h <= 63 ->
  exists ns, visit_all T 64 = Ok ns /\ ns ≡ₚ seq 0 (2 * length perm - 1) /\ Preorder T (getRoot T) ns.
Proof.
  intros V le vol perm T h [(? & _)|(_ & VT)] Hn HH Hh; [lia|].
  destruct (visit_all_ok le vol perm T VT 64 h Hn HH ltac:(lia)) as (ns & ? & ? & ?). by exists ns.
Qed.
Print Assumptions C73_height_partial.

Theorem C73_small_partial :
  forall V (le : V -> V -> Prop) vol perm T, Index le vol perm T -> 2 <= length perm <= 64 ->
  exists ns, visit_all T 64 = Ok ns /\ ns ≡ₚ seq 0 (2 * length perm - 1) /\ Preorder T (getRoot T) ns.
Proof.
  intros V le vol perm T HI Hn. pose proof HI as [(? & _)|(_ & VT)]; [lia|].
  apply (C73_height_partial V le vol perm T (length perm - 1 - 0) HI); [lia| |lia].
  apply (height_size le vol perm T VT (length perm) _ 0 (length perm - 1) None); [lia|]. apply VT.
Qed.
Print Assumptions C73_small_partial.

(** ... and any number of values with pairwise distinct 64-bit codes. *)
Theorem C73_distinct_codes_partial :
  forall V (le : V -> V -> Prop) join bot vol codes perm T,
  JoinSemi le join bot -> length perm = length codes -> 2 <= length codes -> (Z.of_nat (length codes) <= 2 ^ 63)%Z ->
  SortedCodes 64 codes -> NoDup codes -> built join bot vol 64 codes perm T ->
  exists ns, visit_all T 64 = Ok ns /\ ns ≡ₚ seq 0 (2 * length perm - 1) /\ Preorder T (getRoot T) ns.
Proof.
  intros V le join bot vol codes perm T JS Hp Hn Hmax HS HND HB.
  pose proof (C01_index_over_any_number_of_values V le join bot vol 64 codes perm T JS ltac:(lia) Hp ltac:(lia) HS HB) as HI.
  apply (C73_height_partial V le vol perm T 63 HI); [lia| |lia].
  destruct perm as [|a [|b perm]]; [simpl in Hp; lia..|]. destruct HB as (ts & s & He & HD & HT).
  exact (construction_height le join bot vol (a :: b :: perm) 64 codes (length codes - 1) JS ltac:(lia) ltac:(lia) ltac:(lia) ltac:(lia) ltac:(lia) HS ts s T He HD HT
      63 63 ltac:(lia) ltac:(lia) ltac:(lia) (distinct_lev codes (length codes - 1) 63 ltac:(lia) HND ltac:(lia))).
Qed.
Print Assumptions C73_distinct_codes_partial.

(** It fails for 65 points of the unit cube (coordinates times 2^21), only two of them equal: bit by bit one point
    leaves the cell of the far corner, so every right child is split again and the left ones wait on the stack. *)
Definition viz_top : Z := (2 ^ 21 - 1)%Z.
Definition viz_points : list (list Z) :=
  concat (map (fun j => let c := (viz_top - 2 ^ Z.of_nat (20 - j))%Z in
    [[c; viz_top; viz_top]; [viz_top; c; viz_top]; [viz_top; viz_top; c]]) (seq 0 21)) ++
  replicate 2 [viz_top; viz_top; viz_top].
Definition viz_check (pts : list (list Z)) : bool :=
  let codes := map code_of pts in
  sorted_codesb 64 codes &&
  match build_seq zjoin None (vol_of pts) 64 codes (seq 0 65) with
  | Some T => is_overflow (visit_all T 64)
  | None => false
  end.

Theorem C73_refuted : exists pts : list (list Z),
  length pts = 65 /\
  (forall p, p ∈ pts -> length p = 3 /\ forall c, c ∈ p -> (0 <= c <= 2 ^ 21)%Z) /\
  let codes := map code_of pts in
  SortedCodes 64 codes /\
  exists T, built zjoin None (vol_of pts) 64 codes (seq 0 65) T /\ visit_all T 64 = Overflow.
Proof.
  exists viz_points. split; [vm_compute; reflexivity|]. split.
  { assert (forallb (fun p => (length p =? 3) && forallb (fun c => (0 <=? c) && (c <=? 2 ^ 21))%Z p) viz_points = true) as H by (vm_compute; reflexivity).
    rewrite forallb_forall in H. intros p Hp. apply elem_of_list_In, H, andb_true_iff in Hp as [H1 H2]. split; [by apply Nat.eqb_eq|].
    rewrite forallb_forall in H2. intros c Hc. apply elem_of_list_In, H2, andb_true_iff in Hc as [H3 H4]. lia. }
  cbv zeta. assert (viz_check viz_points = true) as H by (vm_compute; reflexivity).
  unfold viz_check in H. apply andb_true_iff in H as [H1 H2]. split; [by apply sorted_codesb_ok|].
  destruct (build_seq _ _ _ _ _ _) as [T|] eqn:E; [|discriminate H2]. exists T. split.
  - apply build_seq_built; [rewrite seq_length; lia|exact E].
  - destruct (visit_all T 64); try discriminate H2. reflexivity.
Qed.
Print Assumptions C73_refuted.

(** Trees of no or one value have no internal node; reading the root's children is out of bounds (asserted in debug
    builds only). *)
Theorem C73_one_value_refuted : exists (perm : list nat) (T : tree zbox),
  length perm = 1 /\ built zjoin None (fun _ => pt3 0 0 0) 64 [0%Z] perm T /\ visit_all T 64 = UB.
Proof. eexists [0], _. split; [done|]. split; [reflexivity|]. vm_compute. reflexivity. Qed.
Print Assumptions C73_one_value_refuted.

(** ** C74: what is printed *)
Definition node_stmts (out : list stmt) : list (label * bool) :=
  omap (fun s => match s with NodeStmt l b => Some (l, b) | _ => None end) out.
Definition edge_targets (out : list stmt) : list label :=
  omap (fun s => match s with EdgeStmt _ b _ => Some b | _ => None end) out.
Definition ChildOf {V} (T : tree V) (i c : nat) : Prop := getLeftChild T i = Some c \/ getRightChild T i = Some (Some c).

Section Graph.
Context {V : Type} (le : V -> V -> Prop) (vol : nat -> V) (perm : list nat) (T : tree V).
Hypothesis VT : ValidTree le vol perm T.
Definition lab (i : nat) : label := if isLeaf T i then Leaf (perm !!! i) else Internal i.
Lemma lab_ok i : i < 2 * length perm - 1 -> node_label T i = Some (lab i).
Proof.
  intros Hi. unfold node_label, lab. destruct (isLeaf T i) eqn:HL; [|done].
  unfold isLeaf in HL. apply Nat.ltb_lt in HL. rewrite (vt_size _ _ _ _ VT) in HL.
  rewrite (vt_values _ _ _ _ VT). destruct (lookup_lt_is_Some_2 perm i HL) as [v Hv]. rewrite Hv. simpl. by rewrite (list_lookup_total_correct _ _ _ Hv).
Qed.
Lemma child_range i c : i < 2 * length perm - 1 -> ChildOf T i c -> isLeaf T i = false /\ c ∈ children T i /\ c < 2 * length perm - 1.
Proof.
  intros Hi HC. assert (isLeaf T i = false) as HL.
  { destruct (isLeaf T i) eqn:HL; [|done]. destruct HC as [H|H]; [unfold getLeftChild in H|unfold getRightChild in H]; by rewrite HL in H. }
  destruct (vt_all _ _ _ _ VT i Hi) as (l & r & rp & HCov).
  destruct (node_case le vol perm T VT i l r rp HCov HL) as (s & c1 & c2 & v & Hs & E1 & E2 & _ & _ & _ & C1 & C2).
  split; [done|]. unfold children. rewrite E1, E2. apply (Covers_index le vol perm T VT) in C1, C2.
  destruct HC as [H|H]; rewrite ?E1, ?E2 in H; injection H as <-; (split; [rewrite ?elem_of_cons; auto|done]).
Qed.
Lemma children_child i c : c ∈ children T i -> ChildOf T i c.
Proof.
  unfold children, ChildOf. destruct (getLeftChild T i) as [a|] eqn:E1; [|intros H; by apply elem_of_nil in H].
  destruct (getRightChild T i) as [[b|]|] eqn:E2; [|intros H; by apply elem_of_nil in H..].
  intros [->|[->|H]%elem_of_cons]%elem_of_cons; [by left|by right|by apply elem_of_nil in H].
Qed.
Definition printed (i : nat) : list stmt :=
  NodeStmt (lab i) (isLeaf T i) :: map (fun c => EdgeStmt (lab i) (lab c) (isLeaf T c)) (children T i).
Lemma visit_printed i : i < 2 * length perm - 1 -> graphviz_visit T i = Some (printed i).
Proof.
  intros Hi. unfold graphviz_visit, printed. rewrite (lab_ok i Hi). simpl. destruct (isLeaf T i) eqn:HL.
  - unfold children, getLeftChild. by rewrite HL.
  - destruct (vt_all _ _ _ _ VT i Hi) as (l & r & rp & HCov).
    destruct (node_case le vol perm T VT i l r rp HCov HL) as (s & c1 & c2 & v & Hs & E1 & E2 & _ & _ & _ & C1 & C2).
    apply (Covers_index le vol perm T VT) in C1, C2.
    unfold children. rewrite E1, E2. simpl. unfold edge_stmt. rewrite (lab_ok i Hi), (lab_ok c1 C1), (lab_ok c2 C2). done.
Qed.
Lemma all_printed ns : Forall (fun i => i < 2 * length perm - 1) ns -> mapM (graphviz_visit T) ns = Some (map printed ns).
Proof. induction 1 as [|i ns Hi _ IH]; [done|]. simpl. rewrite (visit_printed i Hi). simpl. by rewrite IH. Qed.
Lemma printed_nodes ns : node_stmts (concat (map printed ns)) = map (fun i => (lab i, isLeaf T i)) ns.
Proof.
  unfold node_stmts. induction ns as [|i ns IH]; [done|]. cbn [map concat]. rewrite omap_app, IH. unfold printed. simpl.
  f_equal. assert (forall l, omap (fun s => match s with NodeStmt l b => Some (l, b) | EdgeStmt _ _ _ => None end) (map (fun c => EdgeStmt (lab i) (lab c) (isLeaf T c)) l) = []) as -> by (induction l; done). done.
Qed.
Lemma printed_targets ns : edge_targets (concat (map printed ns)) = map lab (concat (map (children T) ns)).
Proof.
  unfold edge_targets. induction ns as [|i ns IH]; [done|]. cbn [map concat]. rewrite omap_app, IH, map_app. unfold printed. simpl.
  f_equal. induction (children T i); [done|]. simpl. by f_equal.
Qed.
Lemma lab_all : 1 <= length perm -> map (fun i => (lab i, isLeaf T i)) (seq 0 (2 * length perm - 1)) =
  map (fun v => (Leaf v, true)) perm ++ map (fun i => (Internal i, false)) (seq (length perm) (length perm - 1)).
Proof.
  intros Hn. replace (2 * length perm - 1) with (length perm + (length perm - 1)) by lia. rewrite seq_app, map_app. simpl.
  pose proof (vt_size _ _ _ _ VT) as Hs. f_equal.
  - apply list_eq. intros i. change @map with @list_fmap. rewrite !list_lookup_fmap. destruct (decide (i < length perm)) as [Hi|Hi].
    + rewrite lookup_seq_lt by done. simpl. unfold lab, isLeaf. rewrite Hs. destruct (Nat.ltb_spec i (length perm)); [|lia].
      destruct (lookup_lt_is_Some_2 perm i Hi) as [v Hv]. rewrite Hv. simpl. by rewrite (list_lookup_total_correct _ _ _ Hv).
    + rewrite lookup_seq_ge, lookup_ge_None_2 by lia. done.
  - apply map_ext_in. intros i Hi. apply in_seq in Hi. unfold lab, isLeaf. rewrite Hs. destruct (Nat.ltb_spec i (length perm)); [lia|done].
Qed.
End Graph.

(** The Graphviz output has exactly one node statement per value and per internal node, all with different labels;
    every label but the root's is the target of exactly one edge; the edges are exactly those of the tree. *)
Theorem C74_graphviz :
  forall V (le : V -> V -> Prop) vol perm T h, Index le vol perm T -> NoDup perm -> 2 <= length perm ->
  HeightLe T (getRoot T) h -> h <= 63 ->
  exists out, graphviz T 64 = Ok out /\
    node_stmts out ≡ₚ map (fun v => (Leaf v, true)) perm ++ map (fun i => (Internal i, false)) (seq (length perm) (length perm - 1)) /\
    NoDup (map fst (node_stmts out)) /\
    Internal (length perm) :: edge_targets out ≡ₚ map fst (node_stmts out) /\
    (forall a b p, EdgeStmt a b p ∈ out <->
       exists i c, i < 2 * length perm - 1 /\ ChildOf T i c /\ a = Internal i /\ node_label T c = Some b /\ p = isLeaf T c).
Proof.
  intros V le vol perm T h HI ND Hn HH Hh. destruct (C73_height_partial V le vol perm T h HI Hn HH Hh) as (ns & E & HP & HPre).
  destruct HI as [(? & _)|(_ & VT)]; [lia|].
  assert (Forall (fun i => i < 2 * length perm - 1) ns) as HF.
  { apply Forall_forall. intros i Hi. rewrite HP in Hi. apply elem_of_seq in Hi. lia. }
  exists (concat (map (printed perm T) ns)). split; [|split; [|split; [|split]]].
  - unfold graphviz. rewrite E. by rewrite (all_printed le vol perm T VT ns HF).
  - rewrite printed_nodes. rewrite <- (lab_all le vol perm T VT) by lia. change @map with @list_fmap. by rewrite HP.
  - assert (map fst (node_stmts (concat (map (printed perm T) ns))) ≡ₚ map Leaf perm ++ map Internal (seq (length perm) (length perm - 1))) as HQ.
    { rewrite printed_nodes. transitivity (map fst (map (fun i => (lab perm T i, isLeaf T i)) (seq 0 (2 * length perm - 1)))).
      { change @map with @list_fmap. by rewrite HP. }
      rewrite (lab_all le vol perm T VT) by lia. rewrite map_app, !map_map. done. }
    rewrite HQ. apply NoDup_app. split; [|split].
    + apply NoDup_ListNoDup, FinFun.Injective_map_NoDup; [by intros ? ? [=]|by apply NoDup_ListNoDup].
    + intros x H1 H2. apply elem_of_list_In, in_map_iff in H1 as (? & <- & _). apply elem_of_list_In, in_map_iff in H2 as (? & ? & _). done.
    + apply NoDup_ListNoDup, FinFun.Injective_map_NoDup; [by intros ? ? [=]|apply NoDup_ListNoDup, NoDup_seq].
  - rewrite printed_nodes, printed_targets, map_map. simpl.
    assert (Internal (length perm) = lab perm T (getRoot T)) as ->.
    { unfold lab, isLeaf, getRoot. rewrite Nat.ltb_irrefl. by rewrite (vt_size _ _ _ _ VT). }
    change (lab perm T (getRoot T) :: map (lab perm T) (concat (map (children T) ns))) with (map (lab perm T) (getRoot T :: concat (map (children T) ns))).
    apply Permutation_map. exact (preorder_children T _ _ HPre).
  - intros a b p. rewrite elem_of_list_In, in_concat. split.
    + intros (x & Hx & Hin). apply in_map_iff in Hx as (i & <- & Hi). apply elem_of_list_In in Hi. destruct Hin as [Hin|Hin]; [done|].
      apply in_map_iff in Hin as (c & Ec & Hc). injection Ec as <- <- <-. apply elem_of_list_In in Hc. apply children_child in Hc.
      rewrite Forall_forall in HF. destruct (child_range le vol perm T VT i c (HF i Hi) Hc) as (HL & _ & Hr).
      exists i, c. split; [by apply HF|]. split; [done|]. split; [unfold lab; by rewrite HL|]. split; [by apply (lab_ok le vol)|done].
    + intros (i & c & Hi & HC & -> & Hb & ->). destruct (child_range le vol perm T VT i c Hi HC) as (HL & Hc & Hr).
      exists (printed perm T i). split; [apply in_map, elem_of_list_In; rewrite HP; apply elem_of_seq; lia|]. right.
      apply in_map_iff. exists c. split; [|by apply elem_of_list_In]. rewrite (lab_ok le vol perm T VT c Hr) in Hb. injection Hb as <-. unfold lab at 1. by rewrite HL.
Qed.
Print Assumptions C74_graphviz.

(** visit: whatever the order of the kernel that inverts the permutation, the visitor gets, for every reported value,
    the leaf node that stores it. *)
Theorem C74_visit_reported :
  forall V (le : V -> V -> Prop) vol perm T order garbage values, Index le vol perm T ->
  perm ≡ₚ seq 0 (length perm) -> order ≡ₚ seq 0 (length perm) -> length garbage = length perm ->
  (forall v, v ∈ values -> v ∈ perm) ->
  exists nodes, visit_reported T order garbage values = Some nodes /\
    Forall2 (fun v i => i < t_size T /\ getValue T i = Some v) values nodes.
Proof.
  intros V le vol perm T order garbage values HI HP HO HG HV.
  assert (t_size T = length perm /\ forall i, getValue T i = perm !! i) as [Hs Hv].
  { destruct HI as [(_ & ? & ?)|(_ & VT)]; [done|]. split; apply VT. }
  destruct (par_writes_correct (fun i => getValue T i) (fun i => Some i) order garbage) as (out & E & HL & HW & _).
  - rewrite HO. apply NoDup_seq.
  - intros i Hi. rewrite HO in Hi. apply elem_of_seq in Hi. destruct (lookup_lt_is_Some_2 perm i ltac:(lia)) as [v Hi'].
    exists v, i. rewrite Hv. split; [done|]. split; [done|]. apply elem_of_list_lookup_2 in Hi'. rewrite HP in Hi'. apply elem_of_seq in Hi'. lia.
  - intros i j d _ _. rewrite !Hv. intros Hi Hj. apply (NoDup_lookup perm i j d); [rewrite HP; apply NoDup_seq|done|done].
  - unfold visit_reported, viz_permute. rewrite E. simpl. clear E. induction values as [|v values IH]; [by exists []|].
    destruct IH as (nodes & E & HF); [intros w Hw; apply HV; by right|].
    destruct (elem_of_list_lookup_1 perm v (HV v ltac:(by left))) as [i Hi].
    exists (i :: nodes). cbn [mapM]. assert (out !! v = Some i) as ->.
    { apply (HW i v); [|by rewrite Hv]. rewrite HO. apply elem_of_seq. apply lookup_lt_Some in Hi. lia. }
    simpl. rewrite E. split; [done|]. constructor; [|done]. rewrite Hs, Hv. split; [|done]. by apply lookup_lt_Some in Hi.
Qed.
Print Assumptions C74_visit_reported.

(** ** Examples: three values, built as in C01 *)
Definition viz_small : list (list Z) := [[0; 0; 0]; [5; 0; 0]; [viz_top; 7; 7]]%Z.
Definition viz_tree : tree zbox := default {| t_size := 0; t_leaves := []; t_nodes := [] |} (build_seq zjoin None (vol_of viz_small) 64 (map code_of viz_small) (seq 0 3)).
Lemma viz_built : built zjoin None (vol_of viz_small) 64 (map code_of viz_small) (seq 0 3) viz_tree.
Proof. apply build_seq_built; [simpl; lia|]. vm_compute. reflexivity. Qed.
Lemma viz_index : Index zle (vol_of viz_small) (seq 0 3) viz_tree.
Proof.
  apply (C01_index_over_any_number_of_values _ zle zjoin None _ 64 (map code_of viz_small));
    [apply zbox_JoinSemi|lia|reflexivity|simpl; lia| |exact viz_built]. apply sorted_codesb_ok. vm_compute. reflexivity.
Qed.
Example C73_example : Index zle (vol_of viz_small) (seq 0 3) viz_tree /\ HeightLe viz_tree (getRoot viz_tree) 2 /\ NoDup (map code_of viz_small) /\
  visit_all viz_tree 64 = Ok [3; 2; 4; 1; 0].
Proof.
  split; [exact viz_index|]. split; [|split].
  - pose proof viz_index as [(H & _)|(_ & VT)]; [simpl in H; lia|]. apply (height_size _ _ _ _ VT 3 _ 0 2 None); [lia|]. apply VT.
  - apply (bool_decide_unpack _). vm_compute. exact I.
  - vm_compute. reflexivity.
Qed.
Example C74_example : graphviz viz_tree 64 = Ok
  [NodeStmt (Internal 3) false; EdgeStmt (Internal 3) (Internal 4) false; EdgeStmt (Internal 3) (Leaf 2) true;
   NodeStmt (Leaf 2) true; NodeStmt (Internal 4) false; EdgeStmt (Internal 4) (Leaf 0) true; EdgeStmt (Internal 4) (Leaf 1) true;
   NodeStmt (Leaf 1) true; NodeStmt (Leaf 0) true] /\
  visit_reported viz_tree [2; 0; 1] [9; 9; 9] [1; 2] = Some [1; 2].
Proof. split; vm_compute; reflexivity. Qed.
