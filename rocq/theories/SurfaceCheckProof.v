(** Deciding whether given triangles are a surface. *)
From stdpp Require Import sorting.
From Verif Require Import SurfaceModel SurfaceSpec.
Local Open Scope nat_scope.

Notation tr := (nat * nat * nat)%type.
Definition insert3 (t : tr) : tr := let '(a, b, c) := t in
  let (a, b) := if b <? a then (b, a) else (a, b) in let (b, c) := if c <? b then (c, b) else (b, c) in let (a, b) := if b <? a then (b, a) else (a, b) in (a, b, c).
Definition surfaceb (n : nat) (ts : list tr) : bool :=
  forallb (fun t => forallb (fun v => v <? n) (corners t) && bool_decide (NoDup (corners t))) ts &&
  forallb (fun v => existsb (fun t => bool_decide (v ∈ corners t)) ts) (seq 0 n) &&
  forallb (fun u => forallb (fun v => (u =? v) || (around ts u v <=? 2)) (seq 0 n)) (seq 0 n) &&
  bool_decide (NoDup (map insert3 ts)).
Ltac perm_tac := first [lia|reflexivity|apply perm_swap|apply perm_skip, perm_swap|(etransitivity; [apply perm_swap|apply perm_skip, perm_swap])|(etransitivity; [apply perm_skip, perm_swap|apply perm_swap])|
  (etransitivity; [apply perm_swap|]; etransitivity; [apply perm_skip, perm_swap|apply perm_swap])].
Lemma insert3_perm t t' : corners t ≡ₚ corners t' -> insert3 t = insert3 t'.
Proof.
  assert (forall t, corners (insert3 t) ≡ₚ corners t /\ StronglySorted le (corners (insert3 t))) as Hs.
  { intros [[a b] c]. unfold insert3. destruct (Nat.ltb_spec b a).
    - destruct (Nat.ltb_spec c a); [destruct (Nat.ltb_spec c b)|destruct (Nat.ltb_spec a b)]; simpl; (split; [|repeat constructor; lia]); perm_tac.
    - destruct (Nat.ltb_spec c b); [destruct (Nat.ltb_spec c a)|destruct (Nat.ltb_spec b a)]; simpl; (split; [|repeat constructor; lia]); perm_tac. }
  intros HP. destruct (Hs t) as [P1 S1]. destruct (Hs t') as [P2 S2].
  assert (corners (insert3 t) = corners (insert3 t')) as E by (eapply (StronglySorted_unique le); [done|done|]; by rewrite P1, P2, HP).
  destruct (insert3 t) as [[a b] c], (insert3 t') as [[a' b'] c']. simpl in E. congruence.
Qed.
Lemma around_sym ts u v : around ts u v = around ts v u.
Proof. unfold around. f_equal. apply filter_ext. intros t. by rewrite andb_comm. Qed.
Lemma around_none n ts u v : (forall t w, t ∈ ts -> w ∈ corners t -> w < n) -> n <= u -> around ts u v = 0.
Proof.
  intros HR Hu. unfold around. induction ts as [|t ts IH]; [done|]. cbn [List.filter]. rewrite bool_decide_false; [apply IH; intros t' w Ht; apply HR; by right|]. intros Hi. apply (HR t) in Hi; [lia|by left].
Qed.
Lemma surfaceb_ok n ts : surfaceb n ts = true -> Surface n ts.
Proof.
  unfold surfaceb. rewrite !andb_true_iff, !forallb_forall. intros [[[H1 H2] H3] H4].
  assert (forall t v, t ∈ ts -> v ∈ corners t -> v < n) as HR.
  { intros t v Ht Hv. apply elem_of_list_In in Ht. apply H1, andb_true_iff in Ht as [Ht _]. rewrite forallb_forall in Ht. apply elem_of_list_In, Ht, Nat.ltb_lt in Hv. done. }
  constructor; [done| | | |].
  - intros t Ht. apply elem_of_list_In, H1, andb_true_iff in Ht as [_ Ht]. by apply bool_decide_eq_true in Ht.
  - intros v Hv. specialize (H2 v ltac:(apply in_seq; lia)). apply existsb_exists in H2 as (t & Ht & Hc). apply bool_decide_eq_true in Hc. exists t. by rewrite elem_of_list_In.
  - intros u v Huv. destruct (decide (u < n)) as [Hu|Hu]; [|rewrite (around_none n) by (done || lia); lia]. destruct (decide (v < n)) as [Hv|Hv]; [|rewrite around_sym, (around_none n) by (done || lia); lia].
    specialize (H3 u ltac:(apply in_seq; lia)). rewrite forallb_forall in H3. specialize (H3 v ltac:(apply in_seq; lia)). apply orb_true_iff in H3 as [H3|H3]; [apply Nat.eqb_eq in H3; done|by apply Nat.leb_le in H3].
  - intros i j t t' Hi Hj HP. apply bool_decide_eq_true in H4. apply (NoDup_lookup (map insert3 ts) i j (insert3 t)); [done| |]; rewrite list_lookup_fmap, ?Hi, ?Hj; [done|]. simpl. f_equal. by apply insert3_perm.
Qed.
Definition closedb (n : nat) (ts : list tr) : bool := forallb (fun u => forallb (fun v => (u =? v) || negb (around ts u v =? 1)) (seq 0 n)) (seq 0 n).
Lemma closedb_ok n ts : Surface n ts -> closedb n ts = true -> Closed ts.
Proof.
  intros HS H u v Huv. destruct (decide (u < n)) as [Hu|Hu]; [|rewrite (around_none n) by (apply HS || lia); lia]. destruct (decide (v < n)) as [Hv|Hv]; [|rewrite around_sym, (around_none n) by (apply HS || lia); lia].
  unfold closedb in H. rewrite forallb_forall in H. specialize (H u ltac:(apply in_seq; lia)). rewrite forallb_forall in H. specialize (H v ltac:(apply in_seq; lia)). apply orb_true_iff in H as [H|H]; [apply Nat.eqb_eq in H; done|].
  apply negb_true_iff, Nat.eqb_neq in H. done.
Qed.
Definition nbb (t t' : tr) : bool := existsb (fun u => existsb (fun v => negb (u =? v) && bool_decide (u ∈ corners t') && bool_decide (v ∈ corners t')) (corners t)) (corners t).
Fixpoint reach (fuel : nat) (ts : list tr) (seen : list nat) : list nat :=
  match fuel with 0 => seen | S f => reach f ts (List.filter (fun j => existsb (fun i => (i =? j) || match ts !! i, ts !! j with Some t, Some t' => nbb t t' | _, _ => false end) seen) (seq 0 (length ts))) end.
Definition connectedb (ts : list tr) : bool := let l := reach (length ts) ts [0] in forallb (fun i => bool_decide (i ∈ l)) (seq 0 (length ts)).
Lemma nb_sym ts i j : Neighbours ts i j -> Neighbours ts j i.
Proof. intros (t & t' & u & v & ? & ? & ? & ? & ? & ? & ?). by exists t', t, u, v. Qed.
Lemma reach_ok fuel ts : forall seen i, (forall j, j ∈ seen -> rtc (Neighbours ts) 0 j) -> i ∈ reach fuel ts seen -> rtc (Neighbours ts) 0 i.
Proof.
  induction fuel as [|f IH]; intros seen i Hs Hi; [by apply Hs|]. simpl in Hi. eapply IH, Hi. clear i Hi IH. intros j Hj. rewrite elem_of_list_In, filter_In, existsb_exists in Hj. destruct Hj as [_ (i & Hi & Hj)]. apply elem_of_list_In, Hs in Hi.
  apply orb_true_iff in Hj as [Hj|Hj]; [apply Nat.eqb_eq in Hj; by subst|]. destruct (ts !! i) as [t|] eqn:Ei; [|done]. destruct (ts !! j) as [t'|] eqn:Ej; [|done]. eapply rtc_r; [done|].
  unfold nbb in Hj. apply existsb_exists in Hj as (u & Hu & Hj). apply existsb_exists in Hj as (v & Hv & Hj). apply andb_true_iff in Hj as [Hj Hv']. apply andb_true_iff in Hj as [Huv Hu']. apply bool_decide_eq_true in Hu', Hv'. apply negb_true_iff, Nat.eqb_neq in Huv.
  rewrite <- elem_of_list_In in Hu, Hv. by exists t, t', u, v.
Qed.
Lemma connectedb_ok ts : connectedb ts = true -> Connected ts.
Proof.
  unfold connectedb. rewrite forallb_forall. intros H. assert (forall i, i < length ts -> rtc (Neighbours ts) 0 i) as H0.
  { intros i Hi. specialize (H i ltac:(apply in_seq; lia)). apply bool_decide_eq_true in H. eapply reach_ok, H. intros j Hj. apply elem_of_list_singleton in Hj as ->. done. }
  intros i j Hi Hj. transitivity 0; [|by apply H0]. specialize (H0 i Hi). clear -H0. induction H0 as [|x y z Hxy _ IH]; [done|]. eapply rtc_r; [exact IH|]. by apply nb_sym.
Qed.
