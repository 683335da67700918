(** C50: parents and labels of the tree nodes (src/spatial/detail/ArborX_TreeNodeLabeling.hpp). *)
From Verif Require Import LabelProof PropertiesTree PropertiesTraversal.
Local Open Scope nat_scope.

(** The children of an internal node, as the tree interface shows them. *)
Definition IsChildOf {V} (T : tree V) (c p : nat) : Prop :=
  p < 2 * t_size T - 1 /\ (getLeftChild T p = Some c \/ getRightChild T p = Some (Some c)).

(** findParents, for any order of its stores: every node except the root gets the one node it is a child of. *)
Theorem C50_parents_are_the_parents :
  forall V (le : V -> V -> Prop) vol perm (T : tree V) order par0,
  ValidTree le vol perm T -> 2 <= length perm ->
  order ≡ₚ seq 0 (2 * (length perm - 1)) -> length par0 = 2 * length perm - 1 ->
  exists par, findParents T order par0 = Some par /\ length par = 2 * length perm - 1 /\
    (forall c p, IsChildOf T c p -> par !! c = Some p) /\
    (forall c, c < 2 * length perm - 1 -> c <> getRoot T -> exists p, IsChildOf T c p /\ forall p', IsChildOf T c p' -> p' = p).
Proof.
  intros V le vol perm T order par0 VT Hn HO HL. pose proof (vt_size _ _ _ _ VT) as Hz.
  destruct (findParents_ok le vol perm T VT Hn order par0 HO HL) as (par & E & Lp & HP & _).
  exists par. split; [done|]. split; [done|]. split.
  - intros c p [Hp Hc]. apply HP; [lia|done].
  - intros c Hc Hr. unfold getRoot in Hr.
    destruct (child_exists le vol perm T VT Hn c Hc) as (p & Hp & Hpc); [lia|].
    exists p. split; [split; [lia|done]|]. intros p' [Hp' Hpc'].
    exact (child_unique le vol perm T VT Hn p' p c ltac:(lia) ltac:(lia) Hpc' Hpc).
Qed.
Print Assumptions C50_parents_are_the_parents.

(** reduceLabels on the array computed by findParents, for every interleaving of its n threads: no undefined access, no
    thread stuck, at most 3n^2 steps, and at the end every node carries the common label of its leaves, or -1 when two of
    its leaves differ.  Leaf labels must be different from the two reserved values (asserted in the code). *)
Theorem C50_labels_identify_uniform_subtrees :
  forall V (le : V -> V -> Prop) vol perm (T : tree V) order par0 par labels0,
  ValidTree le vol perm T -> 2 <= length perm ->
  order ≡ₚ seq 0 (2 * (length perm - 1)) -> length par0 = 2 * length perm - 1 ->
  findParents T order par0 = Some par ->
  length labels0 = 2 * length perm - 1 ->
  (forall k L, k < length perm -> labels0 !! k = Some L -> (L <> -1 /\ L <> -2)%Z) ->
  forall ts s, execg (lstep (length perm) par) (linit (length perm) labels0) ts s ->
    length ts <= 3 * length perm * length perm /\
    (forall t p, ls_pcs s !! t = Some p -> p <> LDone -> exists s', lstep (length perm) par s t = Some s') /\
    (lall_done s -> forall i l r rp, Covers T i l r rp ->
       (exists L, ls_labels s !! i = Some L /\ forall k, l <= k <= r -> labels0 !! k = Some L) \/
       (ls_labels s !! i = Some (-1)%Z /\ exists k k', l <= k <= r /\ l <= k' <= r /\ labels0 !! k <> labels0 !! k')).
Proof.
  intros V le vol perm T order par0 par labels0 VT Hn HO HL HF HLen HLab ts s He.
  destruct (findParents_ok le vol perm T VT Hn order par0 HO HL) as (par' & E & Lp & HP & _).
  rewrite HF in E. injection E as <-.
  destruct (reduce_ok le vol perm T VT Hn par HP labels0 HLen HLab ts s He) as (H1 & H2 & H3).
  split; [lia|]. split; [done|]. intros HD i l r rp HC. rewrite (H3 HD i l r rp HC).
  pose proof (Covers_range le vol perm T VT _ _ _ _ HC) as Hr.
  destruct (uni_spec labels0 (length perm) (lab_ex (length perm) labels0 HLen HLab) l r) as [[U N]|[Eu N]]; [lia| |].
  - left. exists (uni labels0 l r). split; [done|]. exact U.
  - right. rewrite Eu. split; [done|].
    destruct (lab_ex (length perm) labels0 HLen HLab l) as (L & EL & _); [lia|].
    unfold uni in Eu. rewrite EL in Eu. simpl in Eu.
    destruct (forallb (fun k => bool_decide (labels0 !! k = Some L)) (seq l (S r - l))) eqn:Ef.
    + exfalso. subst L. destruct (HLab l indeterminate) as [? _]; [lia|done|]. done.
    + assert (exists k, k ∈ seq l (S r - l) /\ labels0 !! k <> Some L) as (k & Hk & Hne).
      { clear - Ef. induction (seq l (S r - l)) as [|a q IH]; [done|]. simpl in Ef.
        destruct (bool_decide (labels0 !! a = Some L)) eqn:Eb.
        - destruct (IH Ef) as (k & ? & ?). exists k. split; [by right|done].
        - exists a. split; [left|]. by apply bool_decide_eq_false in Eb. }
      apply elem_of_seq in Hk. exists l, k. split; [lia|]. split; [lia|]. rewrite EL. congruence.
Qed.
Print Assumptions C50_labels_identify_uniform_subtrees.

(** Six leaves, two labels; node 6 is the root.  The initial content of both arrays is garbage. *)
Definition label_order : list nat := [9; 0; 3; 2; 1; 8; 7; 4; 5; 6].
Definition label_par : list nat := default [] (findParents line_tree label_order (replicate 11 77)).
Definition label_init : list Z := [4; 4; 4; 7; 7; 7; 99; 99; 99; 99; 99]%Z.
Example C50_example_hypotheses : 2 <= length line_perm /\ ValidTree zle line_vol line_perm line_tree /\
  label_order ≡ₚ seq 0 (2 * (length line_perm - 1)) /\ findParents line_tree label_order (replicate 11 77) = Some label_par /\
  (forall k L, k < length line_perm -> label_init !! k = Some L -> (L <> -1 /\ L <> -2)%Z).
Proof.
  split; [simpl; lia|]. split.
  { destruct line_index as [[H _]|[_ H]]; [simpl in H; lia|done]. }
  split; [apply (bool_decide_unpack _); vm_compute; reflexivity|].
  split; [vm_compute; reflexivity|].
  intros k L Hk. do 6 (destruct k as [|k]; [intros [= <-]; lia|]). simpl in Hk. lia.
Qed.
Example C50_example :
  label_par = [7; 7; 8; 9; 9; 6; 77; 8; 10; 10; 6] /\
  match lrun 6 label_par (linit 6 label_init) (concat (replicate 12 [5; 0; 3; 1; 4; 2])) with
  | Some s => ls_labels s = [4; 4; 4; 7; 7; 7; -1; 4; 4; 7; -1]%Z /\ forallb (fun p => match p with LDone => true | _ => false end) (ls_pcs s) = true
  | None => False
  end.
Proof. vm_compute. split; [reflexivity|]. split; reflexivity. Qed.
