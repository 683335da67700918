(** C49, C58: the process grid. *)
From Coq Require Import Sorting.Sorted.
From Verif Require Import Base FactorsModel.

Definition product (l : list nat) : nat := foldr Nat.mul 1 l.

Lemma product_perm l l' : l ≡ₚ l' -> product l = product l'.
Proof. induction 1; simpl; lia. Qed.
Lemma insert_sorted_perm x l : insert_sorted x l ≡ₚ x :: l.
Proof. induction l as [|y l IH]; simpl; [done|]. destruct (x <=? y); [done|]. rewrite IH. apply Permutation_swap. Qed.
Lemma std_sort_perm l : std_sort l ≡ₚ l.
Proof. induction l as [|x l IH]; simpl; [done|]. by rewrite insert_sorted_perm, IH. Qed.
Lemma insert_sorted_sorted x l : StronglySorted le l -> StronglySorted le (insert_sorted x l).
Proof.
  induction 1 as [|y l HS IH HF]; simpl; [by repeat constructor|]. destruct (Nat.leb_spec x y).
  - constructor; [by constructor|]. constructor; [done|]. eapply Forall_impl; [exact HF|]. intros; simpl in *; lia.
  - constructor; [done|]. rewrite insert_sorted_perm. constructor; [lia|done].
Qed.
Lemma std_sort_sorted l : StronglySorted le (std_sort l).
Proof. induction l as [|x l IH]; simpl; [constructor|]. by apply insert_sorted_sorted. Qed.

(** Every divisor of nn other than 1 is at least i. *)
Definition NoSmall (i nn : nat) : Prop := forall d, 2 <= d -> Nat.divide d nn -> i <= d.
Lemma prime_factors_ok fuel : forall i nn, 2 <= i -> 1 <= nn -> NoSmall i nn -> 2 * nn + 1 <= fuel + i -> 1 <= fuel ->
  exists fs, prime_factors fuel i nn = Some fs /\ product fs = nn.
Proof.
  induction fuel as [|fuel IH]; intros i nn Hi Hnn HN Hf Hf1; [lia|]. simpl. destruct (Nat.ltb_spec 1 nn) as [H1|H1].
  2:{ exists []. split; [done|]. simpl. lia. }
  assert (i <= nn) as Hin by (apply HN; [lia|apply Nat.divide_refl]).
  destruct (Nat.eqb_spec i 0); [lia|]. destruct (Nat.eqb_spec (nn mod i) 0) as [E|E]; simpl.
  - apply Nat.mod_divide in E; [|lia]. destruct E as [z Ez]. assert (nn / i = z) as -> by (rewrite Ez; apply Nat.div_mul; lia).
    assert (1 <= z) by (destruct z; lia).
    destruct (IH i z) as (fs&->&Hp); [done|done| |nia|nia|].
    { intros d Hd Hdz. apply HN; [done|]. rewrite Ez. by apply Nat.divide_mul_l. }
    exists (i :: fs). split; [done|]. simpl. rewrite Hp. lia.
  - apply IH; [lia|done| |lia|lia]. intros d Hd Hdn. pose proof (HN d Hd Hdn). destruct (decide (d = i)) as [->|]; [|lia].
    exfalso. apply E. by apply Nat.mod_divide; [lia|].
Qed.

Lemma distribute_ok fs : forall result, result <> [] -> StronglySorted le result -> Forall (fun x => 1 <= x) result -> Forall (fun x => 1 <= x) fs ->
  exists out, distribute fs result = Some out /\ length out = length result /\ product out = product result * product fs /\ StronglySorted le out /\ Forall (fun x => 1 <= x) out.
Proof.
  induction fs as [|f fs IH]; intros result Hne HS HF HFs; simpl; [exists result; repeat split; try done; lia|].
  destruct result as [|x result]; [done|]. apply Forall_cons in HFs as [Hf HFs]. apply Forall_cons in HF as [Hx HF].
  pose proof (std_sort_perm (x * f :: result)) as HP.
  destruct (IH (std_sort (x * f :: result))) as (out&E&HL&Hp&HS'&HF').
  - intros E. rewrite E in HP. by apply Permutation_nil_cons in HP.
  - apply std_sort_sorted.
  - rewrite HP. constructor; [nia|done].
  - done.
  - exists out. split; [done|]. rewrite HL, (Permutation_length HP). split; [done|]. rewrite Hp, (product_perm _ _ HP). simpl. split; [lia|done].
Qed.

Lemma reverse_sorted l : StronglySorted le l -> StronglySorted ge (reverse l).
Proof.
  induction 1 as [|x l HS IH HF]; [constructor|]. rewrite reverse_cons.
  assert (Forall (fun y => x <= y) (reverse l)) as HF' by by rewrite reverse_Permutation.
  revert IH HF'. generalize (reverse l). intros k IH HF'. induction IH as [|y k HS' IH' HF2]; simpl; [by repeat constructor|].
  apply Forall_cons in HF' as [Hy HF']. constructor; [by apply IH'|]. apply Forall_app. split; [done|]. by repeat constructor.
Qed.

(** closestFactors<DIM>(n) never runs out of its loop or divides by zero; it returns DIM positive numbers, in
    descending order, whose product is n. *)
Theorem C49_closestFactors : forall DIM n, 1 <= DIM -> 1 <= n ->
  exists out, closestFactors DIM n = Some out /\ length out = DIM /\ foldr Nat.mul 1 out = n /\
    (forall x, x ∈ out -> 1 <= x) /\ StronglySorted ge out.
Proof.
  intros DIM n HD Hn. unfold closestFactors. destruct (Nat.eqb_spec DIM 1) as [->|HD1].
  - exists [n]. split; [done|]. split; [done|]. split; [simpl; lia|]. split; [|by repeat constructor]. intros x Hx. by apply elem_of_list_singleton in Hx as ->.
  - destruct (prime_factors_ok (2 * n + 1) 2 n) as (fs&E&Hp); [lia|done|intros d Hd _; lia|lia|lia|]. rewrite E. cbn [mbind option_bind].
    assert (Forall (fun x => 1 <= x) (reverse fs)) as HFs.
    { rewrite reverse_Permutation. clear -Hp Hn. revert n Hp Hn. induction fs as [|f fs IH]; intros n Hp Hn; [constructor|]. simpl in Hp. constructor; [destruct f; lia|]. apply (IH (product fs)); [done|nia]. }
    destruct (distribute_ok (reverse fs) (replicate DIM 1)) as (out&E'&HL&Hpo&HS&HF).
    + destruct DIM; [lia|done].
    + clear. induction DIM; simpl; constructor; [done|]. by apply Forall_replicate.
    + by apply Forall_replicate.
    + done.
    + rewrite E'. cbn [mbind option_bind]. exists (reverse out). split; [done|]. rewrite reverse_length, HL, replicate_length. split; [done|].
      split; [|split; [|by apply reverse_sorted]].
      * change (foldr Nat.mul 1 (reverse out)) with (product (reverse out)). rewrite (product_perm _ _ (reverse_Permutation out)), Hpo, (product_perm _ _ (reverse_Permutation fs)), Hp.
        assert (product (replicate DIM 1) = 1) as -> by (clear; induction DIM; simpl; lia). lia.
      * intros x Hx. rewrite elem_of_reverse in Hx. by apply (proj1 (Forall_forall _ _) HF).
Qed.
Example C49_example : closestFactors 3 60 = Some [5; 4; 3] /\ closestFactors 2 7 = Some [7; 1] /\ closestFactors 1 12 = Some [12].
Proof. vm_compute. done. Qed.

(** "Find closest DIM factors for a number" (DU:22): in two dimensions, no other way to write n as a product has its
    factors closer together.  False: 72 becomes 12 x 6 instead of 9 x 8. *)
Theorem C58_closest_refuted : exists n a b c d, closestFactors 2 n = Some [a; b] /\ c * d = n /\ d <= c /\ c - d < a - b.
Proof. exists 72, 12, 6, 9, 8. vm_compute. repeat split; lia. Qed.

Print Assumptions C49_closestFactors.
Print Assumptions C58_closest_refuted.
