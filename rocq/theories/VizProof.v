(** Proofs about the tree visualization. *)
From Verif Require Export VizModel TraversalProof NearestProof HeightProof KernelAlgProof.

(** Nodes of the subtree of a node, parents first and right subtree before left one. *)
Inductive Preorder {V} (T : tree V) : nat -> list nat -> Prop :=
| po_leaf i : isLeaf T i = true -> Preorder T i [i]
| po_node i lc rc l r : isLeaf T i = false -> getLeftChild T i = Some lc -> getRightChild T i = Some (Some rc) ->
    Preorder T rc r -> Preorder T lc l -> Preorder T i (i :: r ++ l).

Section Walk.
Context {V : Type} (le : V -> V -> Prop) (vol : nat -> V) (perm : list nat) (T : tree V).
Hypothesis VT : ValidTree le vol perm T.

Definition vadd (ns : list nat) (r : res (list nat)) : res (list nat) :=
  match r with Ok l => Ok (ns ++ l) | r => r end.

Lemma visit_walk cap d : forall i l r rp h, r - l < d -> Covers T i l r rp -> HeightLe T i h ->
  exists ns, Preorder T i ns /\ length ns = 2 * (r - l) + 1 /\
    forall fuel stack, length stack + h + 1 <= cap ->
      visit_loop T cap (length ns + fuel) (i :: stack) = vadd ns (visit_loop T cap fuel stack).
Proof.
  induction d as [|d IH]; intros i l r rp h Hd HC HH; [lia|]. destruct (isLeaf T i) eqn:HL.
  - destruct (leaf_case le vol perm T VT i l r rp HC HL) as (-> & -> & _). exists [i]. split; [by constructor|].
    split; [simpl; lia|]. intros fuel stack _. simpl. rewrite HL. by destruct (visit_loop _ _ _ _).
  - destruct (node_case le vol perm T VT i l r rp HC HL) as (s & c1 & c2 & v & Hs & E1 & E2 & _ & _ & _ & C1 & C2).
    inversion HH as [? ? HL'|? h' lc rc HL' F1 F2 H1 H2]; subst; [congruence|].
    assert (lc = c1) as -> by congruence. assert (rc = c2) as -> by congruence. rename h' into h.
    destruct (IH c1 l s (Some c2) h ltac:(lia) C1 H1) as (n1 & P1 & L1 & W1).
    destruct (IH c2 (S s) r rp h ltac:(lia) C2 H2) as (n2 & P2 & L2 & W2).
    exists (i :: n2 ++ n1). split; [by econstructor|]. split; [simpl; rewrite app_length; lia|].
    intros fuel stack Hc. cbn [length Nat.add visit_loop]. rewrite HL, E1, E2.
    destruct (Nat.leb_spec (length stack + 2) cap); [|lia]. rewrite app_length, <- Nat.add_assoc, W2 by (simpl; lia).
    rewrite W1 by lia. destruct (visit_loop T cap fuel stack); simpl; try done. by rewrite <- app_assoc.
Qed.

Lemma Covers_det i l r rp : Covers T i l r rp -> forall l' r' rp', Covers T i l' r' rp' -> l = l' /\ r = r' /\ rp = rp'.
Proof.
  induction 1 as [i rp nd Hi Hn Hr|i l s r rp c2 nd Hi Hn Hr Hs H1 IH1 H2 IH2]; intros l' r' rp' H.
  - inversion H; subst; [|lia]. split; [done|]. split; [done|]. congruence.
  - inversion H as [|? ? s' ? ? c2' nd' ? Hn' ? ? H1' H2']; subst; [lia|]. assert (nd' = nd) as -> by congruence.
    apply IH1 in H1' as (-> & -> & E). injection E as ->. by apply IH2 in H2' as (_ & -> & _).
Qed.

Lemma preorder_nodes i ns : Preorder T i ns -> forall l r rp, Covers T i l r rp ->
  NoDup ns /\ length ns = 2 * (r - l) + 1 /\
  forall j, j ∈ ns -> exists l' r' rp', Covers T j l' r' rp' /\ l <= l' /\ r' <= r.
Proof.
  induction 1 as [i HL|i lc rc n1 n2 HL E1 E2 P2 IH2 P1 IH1]; intros l r rp HC.
  - destruct (leaf_case le vol perm T VT i l r rp HC HL) as (-> & -> & _). split; [apply NoDup_singleton|]. split; [simpl; lia|].
    intros j Hj. apply elem_of_list_singleton in Hj as ->. by exists i, i, rp.
  - destruct (node_case le vol perm T VT i l r rp HC HL) as (s & c1 & c2 & v & Hs & E1' & E2' & _ & _ & _ & C1 & C2).
    assert (c1 = lc) as -> by congruence. assert (c2 = rc) as -> by congruence.
    destruct (IH1 _ _ _ C1) as (N1 & L1 & R1), (IH2 _ _ _ C2) as (N2 & L2 & R2). split; [|split].
    + constructor.
      * intros [Hi|Hi]%elem_of_app; [apply R2 in Hi|apply R1 in Hi]; destruct Hi as (l' & r' & rp' & HC' & ? & ?);
          destruct (Covers_det _ _ _ _ HC _ _ _ HC') as (-> & -> & _); lia.
      * apply NoDup_app. split; [done|]. split; [|done]. intros j Hj2 Hj1.
        apply R2 in Hj2 as (l2 & r2 & p2 & D2 & ? & ?). apply R1 in Hj1 as (l1 & r1 & p1 & D1 & ? & ?).
        destruct (Covers_det _ _ _ _ D2 _ _ _ D1) as (-> & -> & _).
        destruct (Covers_range le vol perm T VT _ _ _ _ D1). lia.
    + simpl. rewrite app_length. lia.
    + intros j [->|[Hj|Hj]%elem_of_app]%elem_of_cons; [by exists l, r, rp|apply R2 in Hj|apply R1 in Hj];
        destruct Hj as (l' & r' & rp' & ? & ? & ?); exists l', r', rp'; (split; [done|lia]).
Qed.

Lemma Covers_index i l r rp : Covers T i l r rp -> i < 2 * length perm - 1.
Proof.
  pose proof (vt_size _ _ _ _ VT) as Hs. pose proof (vt_nodes _ _ _ _ VT) as Hn. destruct 1 as [i rp nd Hi|i l s r rp c2 nd Hi Hl]; [lia|].
  apply lookup_lt_Some in Hl. lia.
Qed.

Lemma preorder_all ns : 1 <= length perm -> Preorder T (getRoot T) ns -> ns ≡ₚ seq 0 (2 * length perm - 1).
Proof.
  intros Hn HP. destruct (preorder_nodes _ _ HP _ _ _ (vt_root _ _ _ _ VT)) as (ND & HL & HR).
  apply submseteq_Permutation_length_eq; [rewrite seq_length; lia|]. apply NoDup_submseteq; [done|].
  intros j Hj. apply HR in Hj as (l' & r' & rp' & HC & _ & _). apply Covers_index in HC. apply elem_of_seq. lia.
Qed.

Lemma visit_all_ok cap h : 2 <= length perm -> HeightLe T (getRoot T) h -> h + 1 <= cap ->
  exists ns, visit_all T cap = Ok ns /\ Preorder T (getRoot T) ns /\ ns ≡ₚ seq 0 (2 * length perm - 1).
Proof.
  intros Hn HH Hc. destruct (visit_walk cap (length perm) _ 0 (length perm - 1) None h ltac:(lia) (vt_root _ _ _ _ VT) HH) as (ns & HP & HL & HW).
  exists ns. split; [|split; [done|by apply preorder_all; [lia|]]]. unfold visit_all. rewrite (vt_size _ _ _ _ VT).
  replace (2 * length perm) with (length ns + 1) by lia. rewrite HW by (simpl; lia). simpl. by rewrite app_nil_r.
Qed.

(** The children of all nodes are all nodes but the first. *)
Definition children (i : nat) : list nat :=
  match getLeftChild T i, getRightChild T i with Some lc, Some (Some rc) => [lc; rc] | _, _ => [] end.
Lemma preorder_children i ns : Preorder T i ns -> i :: concat (map children ns) ≡ₚ ns.
Proof.
  induction 1 as [i HL|i lc rc n1 n2 HL E1 E2 P2 IH2 P1 IH1]; simpl.
  - unfold children, getLeftChild. by rewrite HL.
  - constructor. unfold children at 1. rewrite E1, E2, map_app, concat_app. rewrite <- IH2 at 2. rewrite <- IH1 at 2.
    simpl. solve_Permutation || (rewrite (Permutation_middle _ _ lc), <- !app_assoc; simpl; apply Permutation_refl).
Qed.
End Walk.
