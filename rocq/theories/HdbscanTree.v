(** The single-linkage dendrogram of the Boruvka rounds, without the machines. *)
From Verif Require Export BoruvkaGraph.
Local Open Scope nat_scope.

Section Stages.
Context (n : nat) (lt : nat * nat -> nat * nat -> bool) (PO : PairOrder n lt).
Notation SW := (po_weak n lt PO).
(** the components after [i] rounds *)
Fixpoint stage (i : nat) : nat -> nat := match i with 0 => fun v => v | S i => c' n lt (stage i) end.
Context (R : nat).
Hypothesis Htwo : forall i, i < R -> exists a b, a < n /\ b < n /\ stage i a <> stage i b.

Lemma stage_ok i : i <= R -> (forall v, v < n -> stage i v < n) /\ (forall v, v < n -> stage i (stage i v) = stage i v).
Proof.
  induction i as [|i IH]; intros Hi; [done|]. destruct IH as [H1 H2]; [lia|]. assert (i < R) as HiR by lia. split.
  - apply (c'_lt n lt PO _ H1 H2 (Htwo i HiR)).
  - apply (c'_idem n lt PO _ H1 H2 (Htwo i HiR)).
Qed.
Lemma stage_lt i v : i <= R -> v < n -> stage i v < n. Proof. intros. by apply stage_ok. Qed.
Lemma stage_idem i v : i <= R -> v < n -> stage i (stage i v) = stage i v. Proof. intros. by apply stage_ok. Qed.
Lemma stage_mono i j a b : i <= j -> stage i a = stage i b -> stage j a = stage j b.
Proof. induction 1 as [|j _ IH]; [done|]. intros E. cbn. unfold c'. by rewrite IH. Qed.

(** the smallest edge leaving the component of [v] after [i] rounds *)
Definition B (i v : nat) : nat * nat := best n lt (stage i) (stage i v).
Lemma rep i v : i <= R -> v < n -> Rep n (stage i) (stage i v).
Proof. intros. split; [by apply stage_lt|by apply stage_idem]. Qed.
Lemma B_same i a b : stage i a = stage i b -> B i a = B i b.
Proof. intros E. unfold B. by rewrite E. Qed.
Lemma B_out i v : i < R -> v < n -> (B i v).1 < n /\ (B i v).2 < n /\ stage i (B i v).1 = stage i v /\ stage i (B i v).2 <> stage i v.
Proof. intros Hi Hv. apply (best_spec n lt PO _ (proj1 (stage_ok i ltac:(lia))) (proj2 (stage_ok i ltac:(lia))) (Htwo i Hi) _ (rep i v ltac:(lia) Hv)). Qed.
Lemma B_min i v q : i < R -> v < n -> q.1 < n -> q.2 < n -> stage i q.1 = stage i v -> stage i q.2 <> stage i v -> lt q (B i v) = false.
Proof. intros Hi Hv H1 H2 H3 H4. apply (best_spec n lt PO _ (proj1 (stage_ok i ltac:(lia))) (proj2 (stage_ok i ltac:(lia))) (Htwo i Hi) _ (rep i v ltac:(lia) Hv)). done. Qed.
Lemma B_joins i v : i < R -> v < n -> stage (S i) (B i v).1 = stage (S i) v /\ stage (S i) (B i v).2 = stage (S i) v.
Proof.
  intros Hi Hv. destruct (B_out i v Hi Hv) as (_ & _ & E & _). split.
  - by apply (stage_mono i); [lia|].
  - cbn. unfold c'. pose proof (fin_nxt n lt PO _ (proj1 (stage_ok i ltac:(lia))) (proj2 (stage_ok i ltac:(lia))) (Htwo i Hi) _ (rep i v ltac:(lia) Hv)) as H. exact H.
Qed.
Lemma B_neq i v : i < R -> v < n -> (B i v).1 <> (B i v).2.
Proof. intros Hi Hv. destruct (B_out i v Hi Hv) as (_ & _ & E1 & E2). congruence. Qed.

Lemma le_trans p q r : lt q p = false -> lt r q = false -> lt r p = false.
Proof. intros H1 H2. by apply (sw_incomp _ SW r q p). Qed.
Lemma lt_le_trans p q r : lt p q = true -> lt r q = false -> lt p r = true.
Proof.
  intros H1 H2. destruct (lt p r) eqn:E; [done|]. pose proof (sw_incomp _ SW _ _ _ E H2). congruence.
Qed.
Lemma le_lt_trans p q r : lt q p = false -> lt q r = true -> lt p r = true.
Proof.
  intros H1 H2. destruct (lt p r) eqn:E; [done|]. pose proof (sw_incomp _ SW _ _ _ H1 E). congruence.
Qed.
Lemma lt_le p q : lt p q = true -> lt q p = false.
Proof. intros H. destruct (lt q p) eqn:E; [|done]. pose proof (sw_trans _ SW _ _ _ H E) as Hx. by rewrite (sw_irrefl _ SW) in Hx. Qed.
Lemma le_refl p : lt p p = false. Proof. apply (sw_irrefl _ SW). Qed.
Definition Pr (p : nat * nat) : Prop := p.1 < n /\ p.2 < n /\ p.1 <> p.2.
Lemma total p q : Pr p -> Pr q -> ~ SamePair p q -> lt p q = false -> lt q p = true.
Proof.
  intros (? & ? & ?) (? & ? & ?) HS Hl. destruct (lt q p) eqn:E; [done|]. exfalso. apply HS. by apply (po_total n lt PO).
Qed.
Lemma B_pr i v : i < R -> v < n -> Pr (B i v).
Proof. intros Hi Hv. destruct (B_out i v Hi Hv) as (? & ? & _). split_and!; [done..|]. by apply B_neq. Qed.

(** ** Every component has a core, its label, from which its outgoing edges are reached along smaller edges. *)
Definition Below (g : nat * nat) (a b : nat) : Prop := a < n /\ b < n /\ a <> b /\ lt (a, b) g = true.
Definition BelowEq (g : nat * nat) (a b : nat) : Prop := a < n /\ b < n /\ a <> b /\ lt g (a, b) = false.
Lemma below_eq g a b : Conn (Below g) a b -> Conn (BelowEq g) a b.
Proof. apply conn_mono. intros x y (? & ? & ? & ?). split_and!; [done..|]. by apply lt_le. Qed.
Lemma beloweq_le g g' a b : lt g' g = false -> Conn (BelowEq g) a b -> Conn (BelowEq g') a b.
Proof. intros Hl. apply conn_mono. intros x y (? & ? & ? & Hxy). split_and!; [done..|]. destruct (lt g' (x, y)) eqn:E; [|done]. pose proof (le_lt_trans g g' (x, y) Hl E). congruence. Qed.
Lemma below_lt g g' a b : lt g g' = true -> Conn (BelowEq g) a b -> Conn (Below g') a b.
Proof. intros Hl. apply conn_mono. intros x y (? & ? & ? & Hxy). split_and!; [done..|]. by apply (le_lt_trans _ g). Qed.
Lemma below_swap p a b : Conn (Below (p.2, p.1)) a b -> Conn (Below p) a b.
Proof. apply conn_mono. intros x y (? & ? & ? & Hxy). split_and!; [done..|]. by rewrite (lt_swap n lt PO) in Hxy. Qed.
Definition CoreOut (i : nat) : Prop := forall x y, x < n -> y < n -> stage i x <> stage i y -> Conn (Below (x, y)) x (stage i x).
Section CoreStep.
Context (i : nat) (HiR : i < R) (HO : CoreOut i).
Notation c := (stage i).
Notation Hc := (proj1 (stage_ok i (Nat.lt_le_incl _ _ HiR))).
Notation Hcc := (proj2 (stage_ok i (Nat.lt_le_incl _ _ HiR))).
Lemma core_nxt r : Rep n c r -> Conn (BelowEq (best n lt c r)) r (nxt n lt c r).
Proof.
  intros Hr. destruct (best_spec n lt PO c Hc Hcc (Htwo i HiR) r Hr) as [(B1 & B2 & B3 & B4) _]. set (b := best n lt c r) in *.
  assert (b.1 <> b.2) as Hne by congruence.
  assert (Conn (Below b) b.1 (c b.1)) as H1. { rewrite (surjective_pairing b) at 1. apply HO; [done..|congruence]. }
  assert (Conn (Below b) b.2 (c b.2)) as H2. { apply below_swap. apply HO; [done..|congruence]. }
  apply (conn_trans _ _ b.1); [apply conn_sym, below_eq; by rewrite B3 in H1|]. apply (conn_trans _ _ b.2); [|by apply below_eq].
  apply conn_step. split_and!; [done..|]. rewrite <- surjective_pairing. apply le_refl.
Qed.
Lemma best_step_le r : Rep n c r -> lt (best n lt c r) (best n lt c (step n lt c r)) = false.
Proof.
  intros Hr. unfold step. destruct (_ =? _); [|by apply (nxt_le n lt PO c Hc Hcc (Htwo i HiR))].
  destruct (Nat.min_spec r (nxt n lt c r)) as [[_ ->]|[_ ->]]; [apply le_refl|by apply (nxt_le n lt PO c Hc Hcc (Htwo i HiR))].
Qed.
Lemma core_iter k : forall r, Rep n c r -> Conn (BelowEq (best n lt c r)) r (Nat.iter k (step n lt c) r) /\ lt (best n lt c r) (best n lt c (Nat.iter k (step n lt c) r)) = false.
Proof.
  induction k as [|k IH]; intros r Hr; [split; [apply conn_refl|apply le_refl]|]. rewrite Nat.iter_succ_r.
  destruct (IH (step n lt c r)) as [H1 H2]; [by apply (step_rep n lt PO c Hc Hcc (Htwo i HiR))|]. pose proof (best_step_le r Hr) as H3. split.
  - apply (conn_trans _ _ (step n lt c r)); [|by apply (beloweq_le (best n lt c (step n lt c r)))].
    unfold step. destruct (_ =? _); [|by apply core_nxt]. destruct (Nat.min_spec r (nxt n lt c r)) as [[_ ->]|[_ ->]]; [apply conn_refl|by apply core_nxt].
  - by apply (le_trans _ (best n lt c (step n lt c r))).
Qed.
End CoreStep.
Lemma core_step_of i v : i < R -> CoreOut i -> v < n -> Conn (BelowEq (B i v)) (stage i v) (stage (S i) v).
Proof. intros Hi HO Hv. apply (core_iter i Hi HO (n + 2) (stage i v)). by apply rep; [lia|]. Qed.
Lemma core_out i : i <= R -> CoreOut i.
Proof.
  induction i as [|i IH]; intros Hi; [intros x y _ _ _; apply conn_refl|]. assert (i < R) as HiR by lia. specialize (IH ltac:(lia)).
  intros x y Hx Hy Hne. assert (stage i x <> stage i y) as Hne' by (intros E; apply Hne; by apply (stage_mono i); [lia|]).
  apply (conn_trans _ _ (stage i x)); [by apply IH|]. apply (below_lt (B i x)); [|by apply core_step_of].
  apply total; [split_and!; cbn; [done..|congruence]|by apply B_pr| |apply B_min; cbn; [done..|congruence]].
  destruct (B_joins i x HiR Hx) as [J1 J2]. intros [E|E]; rewrite E in J1, J2; cbn [fst snd] in J1, J2; congruence.
Qed.
Lemma core_step i v : i < R -> v < n -> Conn (BelowEq (B i v)) (stage i v) (stage (S i) v).
Proof. intros Hi. apply core_step_of; [done|]. apply core_out. lia. Qed.

(** ** Edges chosen in round [k] *)
Definition Lev (k : nat) (e : nat * nat) : Prop := 0 < k <= R /\ exists v, v < n /\ SamePair (B (k - 1) v) e.
Lemma lev_pr k e : Lev k e -> Pr e.
Proof. intros [Hk (v & Hv & HS)]. destruct (B_pr (k - 1) v) as (? & ? & ?); [lia|done|]. destruct HS as [->| ->]; unfold Pr; cbn; auto. Qed.
Lemma lev_in k e i : Lev k e -> k <= i -> stage i e.1 = stage i e.2.
Proof.
  intros [Hk (v & Hv & HS)] Hi. apply (stage_mono k); [done|]. destruct (B_joins (k - 1) v) as [H1 H2]; [lia|done|]. replace (S (k - 1)) with k in * by lia.
  destruct HS as [->| ->]; cbn; congruence.
Qed.
Lemma lev_out k e i : Lev k e -> i < k -> stage i e.1 <> stage i e.2.
Proof.
  intros [Hk (v & Hv & HS)] Hi E. assert (stage (k - 1) e.1 = stage (k - 1) e.2) as E2 by (apply (stage_mono i); [lia|done]).
  destruct (B_out (k - 1) v) as (_ & _ & H1 & H2); [lia|done|]. destruct HS as [->| ->]; cbn in E2; congruence.
Qed.
Lemma lev_unique k k' e e' : Lev k e -> Lev k' e' -> SamePair e e' -> k = k'.
Proof.
  intros H H' HS. destruct (decide (k < k')) as [L|L].
  - exfalso. pose proof (lev_out _ _ k H' L) as Hne. pose proof (lev_in _ _ k H ltac:(lia)) as E. destruct HS as [->| ->]; cbn in *; congruence.
  - destruct (decide (k' < k)) as [L'|L']; [|lia]. exfalso. pose proof (lev_out _ _ k' H L') as Hne. pose proof (lev_in _ _ k' H' ltac:(lia)) as E. destruct HS as [->| ->]; cbn in *; congruence.
Qed.
Lemma lev_B i v : i < R -> v < n -> Lev (S i) (B i v).
Proof. intros Hi Hv. split; [lia|]. exists v. split; [done|]. replace (S i - 1) with i by lia. by left. Qed.
Lemma lev_same k e e' : Lev k e -> SamePair e e' -> Lev k e'.
Proof. intros [Hk (v & Hv & HS)] HS'. split; [done|]. exists v. split; [done|]. destruct HS as [->| ->], HS' as [->| ->]; cbn; [by left|by right|by right|left; by rewrite <- surjective_pairing]. Qed.
Lemma lev_core k e : Lev k e -> Conn (BelowEq e) e.1 (stage k e.1).
Proof.
  intros HL. destruct (lev_pr _ _ HL) as (E1 & E2 & E3). pose proof (lev_out _ _ (k - 1) HL) as Hout. pose proof (lev_in _ _ k HL ltac:(lia)) as Hin.
  pose proof HL as [Hk (v & Hv & HS)]. specialize (Hout ltac:(lia)).
  assert (Conn (Below e) e.1 (stage (k - 1) e.1)) as C1. { rewrite (surjective_pairing e) at 1. apply core_out; [lia|done..]. }
  assert (Conn (Below e) e.2 (stage (k - 1) e.2)) as C2. { apply below_swap. apply core_out; [lia|done..|congruence]. }
  pose proof (core_step (k - 1) v ltac:(lia) Hv) as C3. replace (S (k - 1)) with k in C3 by lia.
  destruct (B_out (k - 1) v) as (_ & _ & B3 & _); [lia|done|]. assert (lt (B (k - 1) v) e = false /\ lt e (B (k - 1) v) = false) as [L1 L2].
  { rewrite <- (lt_same n lt PO _ _ _ HS), <- (lt_same_r n lt PO _ _ _ HS). split; apply le_refl. }
  assert (stage k v = stage k e.1) as Ek. { destruct (B_joins (k - 1) v) as [J1 J2]; [lia|done|]. replace (S (k - 1)) with k in * by lia. destruct HS as [->| ->]; cbn; congruence. }
  apply (beloweq_le _ e) in C3; [|done]. rewrite Ek in C3.
  destruct HS as [->| ->]; cbn [fst snd] in *.
  - apply (conn_trans _ _ (stage (k - 1) (B (k - 1) v).1)); [by apply below_eq|]. by rewrite B3.
  - apply (conn_trans _ _ (B (k - 1) v).1); [apply conn_step; split_and!; [done..|apply le_refl]|].
    apply (conn_trans _ _ (stage (k - 1) (B (k - 1) v).1)); [by apply below_eq|]. by rewrite B3.
Qed.

(** [Stop k m e]: [m] is the first stage from [k] on at which the edge leaving the component of [e] is larger than [e]. *)
Definition Stop (k m : nat) (e : nat * nat) : Prop :=
  k <= m <= R /\ (forall i, k <= i < m -> lt (B i e.1) e = true) /\ (m < R -> lt e (B m e.1) = true).
Lemma not_same_in i v e : i < R -> v < n -> stage i e.1 = stage i e.2 -> ~ SamePair (B i v) e.
Proof. intros Hi Hv Hin HS. destruct (B_out i v Hi Hv) as (_ & _ & H1 & H2). destruct HS as [->| ->]; cbn in Hin; congruence. Qed.
Lemma B_total k e i : Lev k e -> k <= i -> i < R -> lt e (B i e.1) = false -> lt (B i e.1) e = true.
Proof.
  intros HL Hki HiR Hl. destruct (lev_pr _ _ HL) as (E1 & E2 & E3). apply total; [by apply (lev_pr k)|by apply B_pr| |done].
  intros HS. apply (not_same_in i e.1 e); [done..|by apply (lev_in k)|]. by apply same_sym.
Qed.
Lemma stop_unique k m m' e : Stop k m e -> Stop k m' e -> m = m'.
Proof.
  intros (H1 & H2 & H3) (H1' & H2' & H3'). destruct (decide (m < m')) as [L|L].
  - specialize (H2' m ltac:(lia)). specialize (H3 ltac:(lia)). apply lt_le in H3. congruence.
  - destruct (decide (m' < m)) as [L'|L']; [|lia]. specialize (H2 m' ltac:(lia)). specialize (H3' ltac:(lia)). apply lt_le in H3'. congruence.
Qed.
Lemma stop_core k m e : Lev k e -> Stop k m e -> Conn (BelowEq e) e.1 (stage m e.1).
Proof.
  intros HL (H1 & H2 & H3). destruct (lev_pr _ _ HL) as (E1 & _). clear H3.
  assert (forall j, k <= j <= m -> Conn (BelowEq e) e.1 (stage j e.1)) as H; [|apply H; lia].
  intros j [Hj1 Hj2]. induction Hj1 as [|j Hj1 IH]; [by apply lev_core|]. apply (conn_trans _ _ (stage j e.1)); [apply IH; lia|].
  apply (beloweq_le (B j e.1)); [apply lt_le, H2; lia|]. apply core_step; [lia|done].
Qed.
(** two edges that stop at the same component *)
Lemma chain_conn k m e k' e' : Lev k e -> Stop k m e -> Lev k' e' -> Stop k' m e' -> stage m e.1 = stage m e'.1 -> lt e' e = false -> Conn (BelowEq e') e.1 e'.1.
Proof.
  intros H1 H2 H3 H4 E Hl. apply (conn_trans _ _ (stage m e.1)); [apply (beloweq_le e); [done|by apply (stop_core k)]|]. rewrite E. apply conn_sym. by apply (stop_core k').
Qed.
(** an edge and the edge leaving the component at which it stops *)
Lemma parent_conn k m e : Lev k e -> Stop k m e -> m < R -> lt e (B m e.1) = true /\ Conn (BelowEq (B m e.1)) e.1 (B m e.1).1.
Proof.
  intros HL HS Hm. pose proof HS as (H1 & H2 & H3). specialize (H3 Hm). split; [done|]. destruct (lev_pr _ _ HL) as (E1 & _).
  apply (conn_trans _ _ (stage m e.1)); [apply (beloweq_le e); [by apply lt_le|by apply (stop_core k)]|].
  destruct (B_out m e.1 Hm E1) as (O1 & O2 & O3 & O4). apply conn_sym, below_eq. rewrite <- O3. set (b := B m e.1) in *. rewrite (surjective_pairing b) at 1. apply core_out; [lia|done|done|congruence].
Qed.

(** ** The vertices below an edge *)
Inductive Climb (a : nat) : nat * nat -> Prop :=
| climb_first : Climb a (B 0 a)
| climb_up e k m : Climb a e -> Lev k e -> Stop k m e -> m < R -> Climb a (B m e.1).
Lemma climb_max a i : a < n -> i < R -> exists i0, i0 <= i /\ Climb a (B i0 a) /\ (forall j, j <= i -> lt (B i0 a) (B j a) = false) /\ (forall j, i0 < j <= i -> lt (B j a) (B i0 a) = true).
Proof.
  intros Ha. induction i as [|i IH]; intros Hi.
  { exists 0. split_and!; [lia|apply climb_first| |intros; lia]. intros j Hj. assert (j = 0) as -> by lia. apply le_refl. }
  destruct IH as (i0 & H0 & HC & Hle & Hlt); [lia|]. pose proof (lev_B i0 a ltac:(lia) Ha) as HL.
  destruct (B_out i0 a ltac:(lia) Ha) as (_ & _ & E1 & _).
  assert (Hsame : forall j, i0 <= j -> B j (B i0 a).1 = B j a). { intros j Hj. apply B_same. by apply (stage_mono i0). }
  destruct (lt (B (S i) a) (B i0 a)) eqn:E.
  - exists i0. split_and!; [lia|done| |].
    + intros j Hj. destruct (decide (j = S i)) as [->|]; [by apply lt_le|]. apply Hle. lia.
    + intros j Hj. destruct (decide (j = S i)) as [->|]; [done|]. apply Hlt. lia.
  - assert (lt (B i0 a) (B (S i) a) = true) as E'.
    { apply total; [by apply B_pr; [lia|]|by apply B_pr; [lia|]| |done]. apply (not_same_in (S i) a); [lia|done|]. apply (lev_in (S i0)); [done|lia]. }
    exists (S i). split_and!; [lia| | |intros; lia].
    + rewrite <- (Hsame (S i)) by lia. apply (climb_up a (B i0 a) (S i0) (S i)); [done..| |lia]. split; [lia|]. split.
      * intros j Hj. rewrite Hsame by lia. apply Hlt. lia.
      * intros _. by rewrite Hsame by lia.
    + intros j Hj. destruct (decide (j = S i)) as [->|]; [apply le_refl|]. apply (le_trans _ (B i0 a)); [apply Hle; lia|]. by apply lt_le.
Qed.
(** From each end of an edge one climbs to the edge itself or to a smaller one that stops at the same component. *)
Lemma climb_edge k m e a : Lev k e -> Stop k m e -> a = e.1 \/ a = e.2 ->
  exists M k', Climb a M /\ lt e M = false /\ Lev k' M /\ (SamePair M e \/ Stop k' m M /\ stage m M.1 = stage m e.1).
Proof.
  intros HL HS Ha. destruct (lev_pr _ _ HL) as (E1 & E2 & E3). pose proof HL as [Hk _]. pose proof HS as (Hm & Hlt & Hgt).
  assert (a < n) as Han by (destruct Ha as [->| ->]; done).
  assert (Hst : forall j, k <= j -> stage j a = stage j e.1). { intros j Hj. pose proof (lev_in _ _ j HL Hj). destruct Ha as [->| ->]; congruence. }
  destruct (climb_max a (m - 1) Han ltac:(lia)) as (i0 & Hi0 & HC & Hle & Hl). set (M := B i0 a) in *. pose proof (lev_B i0 a ltac:(lia) Han) as HLM. fold M in HLM.
  destruct (B_out i0 a ltac:(lia) Han) as (_ & _ & EM & _). fold M in EM.
  assert (lt e M = false) as HeM.
  { destruct (decide (i0 < k)) as [L|L].
    - pose proof (lev_out _ _ i0 HL L) as Hne. destruct Ha as [->| ->]; [|rewrite <- (lt_swap_l n lt PO)]; apply B_min; cbn; auto; lia.
    - apply lt_le. unfold M. rewrite (B_same i0 a e.1) by (apply Hst; lia). apply Hlt. lia. }
  exists M, (S i0). split; [done|]. split; [done|]. split; [done|].
  destruct (lt M e) eqn:EMe.
  - right. split; [|transitivity (stage m a); [apply (stage_mono i0); [lia|done]|apply Hst; lia]]. split; [lia|]. split.
    + intros j Hj. rewrite (B_same j M.1 a) by (apply (stage_mono i0); [lia|done]). apply Hl. lia.
    + intros HmR. rewrite (B_same m M.1 e.1). { apply (sw_trans _ SW _ e); [done|by apply Hgt]. }
      transitivity (stage m a); [apply (stage_mono i0); [lia|done]|apply Hst; lia].
  - left. destruct (lev_pr _ _ HLM) as (? & ? & ?). by apply (po_total n lt PO).
Qed.

(** ** An edge chosen by both its components is the smallest edge that stops at their union. *)
Lemma root_min j f v : j < R -> Pr f -> SamePair (B j f.1) f -> SamePair (B j f.2) f -> v < n -> stage (S j) v = stage (S j) f.1 -> lt (B j v) f = false.
Proof.
  intros Hj (F1 & F2 & F3) H1 H2 Hv Hs. destruct (stage_ok j ltac:(lia)) as [Hc Hcc]. pose proof (rep j f.1 ltac:(lia) F1) as R1. pose proof (rep j f.2 ltac:(lia) F2) as R2. pose proof (rep j v ltac:(lia) Hv) as Rv.
  destruct (core_iter j Hj (core_out j ltac:(lia)) (n + 2) (stage j v) Rv) as [_ Hmin]. fold (fin n lt (stage j) (stage j v)) in Hmin.
  change (fin n lt (stage j) (stage j v)) with (stage (S j) v) in Hmin. rewrite Hs in Hmin.
  assert (SamePair (best n lt (stage j) (stage (S j) f.1)) f) as HSP; [|rewrite (lt_same_r n lt PO _ _ _ HSP) in Hmin; exact Hmin].
  change (stage (S j) f.1) with (fin n lt (stage j) (stage j f.1)). fold (B j f.1) in *. fold (B j f.2) in *.
  destruct (B_out j f.1 Hj F1) as (_ & _ & O1 & O2). destruct (B_out j f.2 Hj F2) as (_ & _ & O3 & O4).
  assert (B j f.1 = f) as Ef1. { destruct H1 as [E|E]; [done|]. exfalso. apply O2. f_equal. apply (f_equal fst) in E. by cbn in E. }
  assert (B j f.2 = (f.2, f.1)) as Ef2.
  { destruct H2 as [E|E].
    - exfalso. apply O4. f_equal. apply (f_equal snd) in E. by cbn in E.
    - pose proof (f_equal fst E) as Ea. pose proof (f_equal snd E) as Eb. cbn in Ea, Eb. rewrite (surjective_pairing (B j f.2)). congruence. }
  assert (nxt n lt (stage j) (stage j f.1) = stage j f.2) as N1. { unfold nxt. fold (B j f.1). by rewrite Ef1. }
  assert (nxt n lt (stage j) (stage j f.2) = stage j f.1) as N2. { unfold nxt. fold (B j f.2). by rewrite Ef2. }
  rewrite <- (fin_step n lt PO _ Hc Hcc (Htwo j Hj) _ R1). unfold step. rewrite N1, N2, Nat.eqb_refl.
  destruct (Nat.min_spec (stage j f.1) (stage j f.2)) as [[L ->]|[L ->]].
  - rewrite fin_of_fixed; [fold (B j f.1); by rewrite Ef1; left|]. apply (step_fixed n lt PO _ Hc Hcc (Htwo j Hj)); [done|]. rewrite N1, N2. done.
  - rewrite fin_of_fixed; [fold (B j f.2); rewrite Ef2; right; cbn; apply surjective_pairing|]. apply (step_fixed n lt PO _ Hc Hcc (Htwo j Hj)); [done|]. rewrite N2, N1. split; [done|].
    rewrite Ef1 in O2. lia.
Qed.
Lemma mutual_first j f m k e : j < R -> Pr f -> SamePair (B j f.1) f -> SamePair (B j f.2) f -> Stop (S j) m f ->
  Lev k e -> Stop k m e -> stage m e.1 = stage m f.1 -> lt e f = false.
Proof.
  intros Hj Hf H1 H2 HSf HL HS Hst. pose proof Hf as (F1 & F2 & F3). pose proof HSf as (Hm & Hl & _). destruct (lev_pr _ _ HL) as (E1 & E2 & E3). pose proof (root_min j f) as Hroot.
  assert (m = S j) as ->.
  { destruct (decide (m = S j)) as [|Hne]; [done|]. exfalso. specialize (Hl (S j) ltac:(lia)). destruct (B_out (S j) f.1 ltac:(lia) F1) as (O1 & O2 & O3 & O4). set (al := B (S j) f.1) in *.
    pose proof (Hroot al.1 Hj Hf H1 H2 O1 O3) as L1. assert (lt al (B j al.1) = false) as L2. { apply B_min; auto. intros E. apply O4. rewrite <- O3. apply (stage_mono j); [lia|done]. }
    pose proof (le_trans _ _ _ L1 L2). congruence. }
  pose proof HS as (Hk & Hlt & _). pose proof HL as [Hk0 (v & Hv & HSv)]. destruct (decide (k = S j)) as [->|Hne].
  - replace (S j - 1) with j in HSv by lia. rewrite <- (lt_same n lt PO _ _ _ HSv). apply Hroot; auto. destruct (B_joins j v Hj Hv) as [J1 J2]. rewrite <- Hst. destruct HSv as [->| ->]; cbn [fst snd]; congruence.
  - pose proof (Hroot e.1 Hj Hf H1 H2 E1 Hst) as L1. apply (le_trans _ (B j e.1)); [done|]. apply lt_le, Hlt. lia.
Qed.
End Stages.
