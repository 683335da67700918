(** Common imports, list-as-memory helpers.  No model of /repo code here. *)
From stdpp Require Export list list_numbers.
From Coq Require Export Lia ZArith ZifyBool ZifyNat ZifyN.
Global Open Scope Z_scope.
Global Open Scope nat_scope.
Global Unset Program Cases.

Global Arguments Nat.mul : simpl never.
Global Arguments Nat.div : simpl never.
Global Arguments Nat.modulo : simpl never.

Ltac Zify.zify_post_hook ::= Z.div_mod_to_equations.

(** A checked write: [None] when the index is out of bounds (undefined behaviour in C++). *)
Definition wr {A} (l : list A) (i : nat) (v : A) : option (list A) :=
  if i <? length l then Some (<[i:=v]> l) else None.

Lemma wr_Some {A} (l : list A) i v : i < length l -> wr l i v = Some (<[i:=v]> l).
Proof. intros H. unfold wr. destruct (Nat.ltb_spec i (length l)); [done|lia]. Qed.

Lemma wr_inv {A} (l l' : list A) i v :
  wr l i v = Some l' -> i < length l /\ l' = <[i:=v]> l.
Proof. unfold wr. destruct (Nat.ltb_spec i (length l)); naive_solver. Qed.

Lemma insert_swap_perm {A} (l : list A) i j x y :
  l !! i = Some x -> l !! j = Some y -> <[i:=y]> (<[j:=x]> l) ≡ₚ l.
Proof.
  intros Hi Hj.
  destruct (decide (i = j)) as [->|Hne].
  { assert (x = y) by congruence. subst. rewrite list_insert_insert, list_insert_id; done. }
  pose proof (lookup_lt_Some _ _ _ Hi). pose proof (lookup_lt_Some _ _ _ Hj).
  assert (forall (l : list A) i j x y, l !! i = Some x -> l !! j = Some y -> i < j ->
     <[i:=y]> (<[j:=x]> l) ≡ₚ l) as Hw.
  { clear. induction l as [|a l IH]; intros i j x y Hi Hj Hlt; [done|].
    destruct i as [|i], j as [|j]; simpl in *; try lia.
    - injection Hi as ->. clear IH Hlt. revert j Hj.
      induction l as [|b l IH]; intros j Hj; [done|].
      destruct j as [|j]; simpl in *.
      + injection Hj as ->. constructor.
      + rewrite (Permutation_swap b y). rewrite (IH j Hj). constructor.
    - f_equiv. apply IH; auto; lia. }
  destruct (Nat.lt_trichotomy i j) as [?|[?|?]]; [eauto|done|].
  rewrite list_insert_commute by done. eapply Hw; eauto.
Qed.

(** The boolean range [0..n-1] as a list is [seq 0 n]. *)
Lemma nth_error_lookup {A} (l : list A) i : nth_error l i = l !! i.
Proof. revert i; induction l; intros [|i]; simpl; auto. Qed.

(** Reduce only the option monad. *)
Ltac simplo := cbn [mbind option_bind].
