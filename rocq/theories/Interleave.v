(** Schedules of a machine whose threads take atomic steps; not a model of any /repo code.
    [step s t] is [None] when thread [t] has finished or would perform an undefined access; the theorems tell the two
    apart by proving that a thread which has not finished can always step. *)
From Verif Require Export Base.

Section Gen.
Context {St : Type} (step : St -> nat -> option St).

Inductive execg : St -> list nat -> St -> Prop :=
| execg_nil s : execg s [] s
| execg_cons s t s' ts s'' : step s t = Some s' -> execg s' ts s'' -> execg s (t :: ts) s''.

Lemma execg_inv (I : St -> Prop) (pot : St -> nat) :
  (forall s t s', I s -> step s t = Some s' -> I s' /\ pot s' < pot s) ->
  forall s ts s', I s -> execg s ts s' -> I s' /\ pot s' + length ts <= pot s.
Proof.
  intros H s ts s' HI He. induction He as [|s t s' ts s'' Hs He IH]; [simpl; split; [done|lia]|].
  destruct (H _ _ _ HI Hs) as [HI' Hp]. destruct (IH HI') as [? ?]. split; [done|]. simpl. lia.
Qed.

Lemma execg_inv_only (I : St -> Prop) :
  (forall s t s', I s -> step s t = Some s' -> I s') ->
  forall s ts s', I s -> execg s ts s' -> I s'.
Proof. intros H s ts s' HI He. induction He; eauto. Qed.

Lemma execg_app s ts s' ts' s'' : execg s ts s' -> execg s' ts' s'' -> execg s (ts ++ ts') s''.
Proof. induction 1; simpl; [done|]. intros. econstructor; eauto. Qed.
End Gen.

(** A parallel kernel: every schedule is bounded, a live thread can always take its next step (no undefined access),
    and when no thread is live the state satisfies [post], the rest of the program. *)
Definition Kernel {St} (step : St -> nat -> option St) (live : St -> nat -> Prop) (s0 : St) (post : St -> Prop) : Prop :=
  exists bound, forall ts s, execg step s0 ts s ->
    length ts <= bound /\ (forall t, live s t -> is_Some (step s t)) /\ ((forall t, ~ live s t) -> post s).

(** Sum of a per-thread potential. *)
Lemma sum_map_insert {A} (f : A -> nat) (l : list A) t p q : l !! t = Some p ->
  sum_list_with f (<[t:=q]> l) + f p = sum_list_with f l + f q.
Proof.
  revert t. induction l as [|a l IH]; intros [|t] H; simpl in *; try done.
  - injection H as ->. lia.
  - specialize (IH _ H). lia.
Qed.

Lemma upd_cases {A} (l : list A) t p u q : <[t:=p]> l !! u = Some q ->
  (u = t /\ q = p /\ t < length l) \/ (u <> t /\ l !! u = Some q).
Proof.
  intros H. destruct (decide (u = t)) as [->|Hne].
  - left. pose proof (lookup_lt_Some _ _ _ H) as L. rewrite insert_length in L.
    rewrite list_lookup_insert in H by done. injection H as <-. auto.
  - right. rewrite list_lookup_insert_ne in H by done. auto.
Qed.
