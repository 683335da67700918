(** C21: the concurrent union-find computes connected components. *)
From Verif Require Export UnionFindProof.

(** What the callers must respect: merge is applied to mergeable points only, merge_into attaches a point that is not
    mergeable to a mergeable one (in DBSCAN: core points are mergeable, border points are not). *)
Definition OpOK (n : nat) (core : nat -> bool) (op : uop) : Prop :=
  match op with
  | Merge i j => i < n /\ j < n /\ core i = true /\ core j = true
  | Into x j => x < n /\ j < n /\ core x = false /\ core j = true
  | Guard _ _ _ => False
  end.

(** The labels after all the operations. *)
Record Components (n : nat) (core : nat -> bool) (progs : list (list uop)) (labels : list nat) : Prop := {
  co_len : length labels = n;
  co_core : forall c, c < n -> core c = true -> exists m, RootOf labels c m /\ LeastConn (Linked progs) c m;
  co_untouched : forall x, x < n -> core x = false -> (forall prog j, prog ∈ progs -> Into x j ∉ prog) -> labels !! x = Some x;
  co_attached : forall x prog j, prog ∈ progs -> Into x j ∈ prog ->
     exists c prog' j', labels !! x = Some c /\ prog' ∈ progs /\ Into x j' ∈ prog' /\ Conn (Linked progs) c j' }.

Definition total_ops (progs : list (list uop)) : nat := sum_list_with length progs.

(** For any number of threads, any programs and any interleaving [ts] of their atomic steps: the run is bounded (no
    livelock), a thread that has not finished can always step (no out-of-bounds access), and once all have finished the
    root of every point is the smallest point it is connected to by the requested merges. *)
Theorem C21_union_find_computes_components : forall n core progs ts s,
  (forall prog op, prog ∈ progs -> op ∈ prog -> OpOK n core op) ->
  execg ustep (uinit (seq 0 n) progs) ts s ->
  length ts <= (8 * n + 12) * total_ops progs /\
  (forall t th, u_thr s !! t = Some th -> snd th <> None -> is_Some (ustep s t)) /\
  (uall_done s -> Components n core progs (u_labels s)).
Proof.
  intros n core progs ts s HO He. set (C := fun c => core c = true). set (R := Conn (Linked progs)).
  destruct (Conn_equiv (Linked progs)) as (R1 & R2 & R3). fold R in R1, R2, R3.
  assert (forall prog op, prog ∈ progs -> op ∈ prog -> op_ok n C R op) as HO'.
  { intros prog op Hp Hop. pose proof (HO _ _ Hp Hop) as H. destruct op as [i j|x j|i j k]; simpl in *; [|split; [|tauto]|done].
    - destruct H as (?&?&?&?). split; [done|]. split; [done|]. apply rst_step. exists prog. done.
    - unfold C. destruct H as (_ & _ & -> & _). done. }
  destruct (uexec_ok n C R progs R1 R2 R3 HO' _ _ _ (GoodL_seq n C R progs R1) He) as (I & U & HL).
  split; [exact HL|]. split; [intros; by eapply (ustep_progress n C R progs)|]. intros HD.
  pose proof (udone_ok n C R progs s I HD) as HE. pose proof (ui_good _ _ _ _ _ I) as G.
  assert (forall prog, prog ∈ progs -> forall i j k, Guard i j k ∉ prog) as HG by (intros prog Hp i j k Hi; exact (HO _ _ Hp Hi)).
  assert (forall a b, R a b -> root (u_labels s) a = root (u_labels s) b) as HR.
  { intros a b HR. induction HR as [a b (prog & Hp & Hm)| |a b _ IH|a b c _ IH1 _ IH2]; [|done|done|congruence].
    eapply Exec_merged; eauto. }
  constructor.
  - apply G.
  - intros c Hc Hcc. exists (root (u_labels s) c). split; [eapply (GoodL_rootof n C R progs); eauto; by split|].
    split; [by apply (gl_sound _ _ _ _ _ G)|]. intros y Hy. rewrite (HR _ _ Hy). apply root_le.
  - intros x Hx Hcx HN. destruct (gl_other _ _ _ _ _ G x Hx) as [E|(_ & _ & prog & j & Hp & Hin & _)]; [by unfold C; rewrite Hcx| |].
    + rewrite lab_lookup by (rewrite (gl_len _ _ _ _ _ G); done). congruence.
    + by destruct (HN _ _ Hp Hin).
  - intros x prog j Hp Hin. pose proof (HO _ _ Hp Hin) as (Hx & _ & Hcx & _).
    assert (C (lab (u_labels s) x)) as HC by (eapply Exec_assigned; eauto).
    destruct (gl_other _ _ _ _ _ G x Hx) as [E|(_ & _ & prog' & j' & Hp' & Hin' & HR')]; [by unfold C; rewrite Hcx| |].
    + rewrite E in HC. unfold C in HC. congruence.
    + exists (lab (u_labels s) x), prog', j'. split; [|done]. apply lab_lookup. rewrite (gl_len _ _ _ _ _ G). done.
Qed.

(** Example: three threads over seven points, point 6 is not mergeable; a round-robin schedule. *)
Definition uf_core (x : nat) : bool := negb (x =? 6).
Definition uf_progs : list (list uop) := [[Merge 3 4; Merge 1 3]; [Merge 4 1; Into 6 4]; [Merge 5 2]].
Fixpoint round_robin (k m : nat) : list nat := match k with O => [] | S k => seq 0 m ++ round_robin k m end.

Lemma urun_exec : forall ts s s', urun s ts = Some s' -> exists ts', execg ustep s ts' s'.
Proof.
  induction ts as [|t ts IH]; intros s s'; simpl; [intros [= <-]; exists []; constructor|].
  destruct (u_thr s !! t) as [[rest [x|]]|] eqn:E; [| |].
  - destruct (ustep s t) as [s1|] eqn:Es; [|done]. simpl. intros H. destruct (IH _ _ H) as [ts' H']. exists (t :: ts').
    econstructor; eauto.
  - apply IH.
  - destruct (ustep s t) as [s1|] eqn:Es; [|done]. simpl. intros H. destruct (IH _ _ H) as [ts' H']. exists (t :: ts').
    econstructor; eauto.
Qed.

Example C21_union_find_computes_components_ex :
  (forall prog op, prog ∈ uf_progs -> op ∈ prog -> OpOK 7 uf_core op) /\
  exists ts s, execg ustep (uinit (seq 0 7) uf_progs) ts s /\ uall_done s /\ u_labels s = [0; 1; 2; 1; 1; 2; 1].
Proof.
  split.
  - intros prog op Hp Hop. unfold uf_progs in Hp.
    repeat (apply elem_of_cons in Hp as [Hp|Hp]; [subst; repeat (apply elem_of_cons in Hop as [Hop|Hop]; [subst; vm_compute; repeat split; lia|]); by apply elem_of_nil in Hop|]).
    by apply elem_of_nil in Hp.
  - destruct (urun (uinit (seq 0 7) uf_progs) (round_robin 20 3)) as [s|] eqn:E; [|by vm_compute in E].
    destruct (urun_exec _ _ _ E) as [ts H]. exists ts, s. split; [done|].
    vm_compute in E. injection E as <-. split; [|vm_compute; reflexivity].
    intros [|[|[|t]]] th Ht; simpl in Ht; try (injection Ht as <-; reflexivity); by rewrite lookup_nil in Ht.
Qed.
Print Assumptions C21_union_find_computes_components.
