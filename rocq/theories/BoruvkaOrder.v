(** Kernels with an invariant, and the order of the edges in the minimum spanning tree. *)
From Verif Require Export BoruvkaModel BoruvkaGraph PropertiesEdge.
Local Open Scope nat_scope.

(** A kernel is correct when an invariant holds and a potential decreases. *)
Lemma Kernel_inv {St} (step : St -> nat -> option St) (live : St -> nat -> Prop) (s0 : St) (post : St -> Prop) (I : St -> Prop) (pot : St -> nat) :
  I s0 -> (forall s t s', I s -> step s t = Some s' -> live s t) ->
  (forall s t, I s -> live s t -> exists s', step s t = Some s' /\ I s' /\ pot s' < pot s) ->
  (forall s, I s -> (forall t, ~ live s t) -> post s) -> Kernel step live s0 post.
Proof.
  intros H0 HL HS HP. exists (pot s0). intros ts s He.
  destruct (execg_inv step I pot) with (s := s0) (ts := ts) (s' := s) as [HI Hb]; [|done|done|].
  - intros x t y HI Hs. destruct (HS x t HI (HL _ _ _ HI Hs)) as (y' & E & ? & ?). rewrite Hs in E. injection E as <-. done.
  - split_and!; [lia| |by apply HP]. intros t Ht. destruct (HS s t HI Ht) as (y & E & _). by exists y.
Qed.
Lemma Kernel_weaken {St} (step : St -> nat -> option St) (live : St -> nat -> Prop) (s0 : St) (P Q : St -> Prop) :
  (forall s, P s -> Q s) -> Kernel step live s0 P -> Kernel step live s0 Q.
Proof. intros HPQ [b Hb]. exists b. intros ts s He. destruct (Hb ts s He) as (? & ? & ?). split_and!; auto. Qed.

Section Order.
Context {W : Type} (ltb : W -> W -> bool) (SW : StrictWeak ltb).
Lemma w_asym a b : ltb a b = true -> ltb b a = false.
Proof. intros H. destruct (ltb b a) eqn:E; [|done]. pose proof (sw_trans _ SW _ _ _ H E) as X. by rewrite (sw_irrefl _ SW) in X. Qed.
(** [ltb b a = false] is a <= b *)
Lemma w_trans a b c : ltb b a = false -> ltb c b = false -> ltb c a = false.
Proof. intros H1 H2. by apply (sw_incomp _ SW _ b). Qed.
Lemma w_lt_le a b c : ltb a b = true -> ltb c b = false -> ltb a c = true.
Proof. intros H1 H2. destruct (ltb a c) eqn:E; [done|]. rewrite (w_trans b c a) in H1; done. Qed.
Lemma w_le_lt a b c : ltb b a = false -> ltb b c = true -> ltb a c = true.
Proof. intros H1 H2. destruct (ltb a c) eqn:E; [done|]. rewrite (w_trans c a b) in H2; done. Qed.
Lemma weq_refl a : weq ltb a a = true. Proof. apply weq_true. split; apply (sw_irrefl _ SW). Qed.
Lemma weq_sym a b : weq ltb a b = weq ltb b a. Proof. unfold weq. apply andb_comm. Qed.
Lemma weq_trans a b c : weq ltb a b = true -> weq ltb b c = true -> weq ltb a c = true.
Proof. rewrite !weq_true. intros [] []. split; eapply w_trans; eauto. Qed.
Lemma wmin_le old new : ltb old (wmin ltb old new) = false /\ ltb new (wmin ltb old new) = false.
Proof. unfold wmin. destruct (ltb new old) eqn:E; split; try done; [by apply w_asym|apply (sw_irrefl _ SW)|apply (sw_irrefl _ SW)]. Qed.
Lemma wmin_ge x old new : ltb old x = false -> ltb new x = false -> ltb (wmin ltb old new) x = false.
Proof. unfold wmin. by destruct (ltb new old). Qed.
Lemma wleb_iff a b : BoruvkaModel.leb ltb a b = true <-> ltb b a = false. Proof. unfold BoruvkaModel.leb. apply negb_true_iff. Qed.

Lemma dedge_congr d d' a a' b b' : weq ltb a a' = true -> weq ltb b b' = true -> dedge_lt ltb (DEdge d a) (DEdge d' b) = dedge_lt ltb (DEdge d a') (DEdge d' b').
Proof.
  intros E1 E2. unfold dedge_lt. cbn [weight directed_edge].
  assert (ltb a b = ltb a' b') as EL.
  { apply weq_true in E1 as [A B], E2 as [C D]. apply eq_true_iff_eq. split; intros H.
    - apply (w_le_lt _ a); [done|]. by apply (w_lt_le _ b).
    - apply (w_le_lt _ a'); [done|]. by apply (w_lt_le _ b'). }
  assert (weq ltb a b = weq ltb a' b') as ->; [|by rewrite EL]. apply eq_true_iff_eq. split; intros H.
  - apply (weq_trans _ b); [|done]. apply (weq_trans _ a); [by rewrite weq_sym|done].
  - apply (weq_trans _ b'); [|by rewrite weq_sym]. by apply (weq_trans _ a').
Qed.

Variable w : nat * nat -> W.
Definition sort (p : nat * nat) : nat * nat := (Nat.min p.1 p.2, Nat.max p.1 p.2).
(** directed edge of the code *)
Definition edge_of (p : nat * nat) : dedge W := mk_edge (N.of_nat p.1) (N.of_nat p.2) (w p).
(** the order of unordered pairs *)
Definition plt (p q : nat * nat) : bool := dedge_lt ltb (edge_of (sort p)) (edge_of (sort q)).
Variable n : nat.
Hypothesis Hn : (N.of_nat n <= 2 ^ 31)%N.
Hypothesis Hsym : forall i j, i < n -> j < n -> i <> j -> weq ltb (w (i, j)) (w (j, i)) = true.
Definition InN (p : nat * nat) : Prop := p.1 < n /\ p.2 < n /\ p.1 <> p.2.

Lemma vertex i : i < n -> is_vertex (N.of_nat i).
Proof. intros Hi. unfold is_vertex. lia. Qed.
Lemma sort_N p : InN p -> InN (sort p).
Proof. intros (? & ? & ?). unfold sort, InN. cbn. lia. Qed.
Lemma w_sort p : InN p -> weq ltb (w p) (w (sort p)) = true.
Proof.
  intros (? & ? & ?). destruct p as [a b]. unfold sort. cbn in *. destruct (decide (a <= b)).
  - rewrite Nat.min_l, Nat.max_r by lia. apply weq_refl.
  - rewrite Nat.min_r, Nat.max_l by lia. apply Hsym; auto.
Qed.
Lemma sort_pack p : InN p -> pack (N.of_nat (sort p).1) (N.of_nat (sort p).2) = (N.of_nat (Nat.min p.1 p.2) * 2 ^ 32 + N.of_nat (Nat.max p.1 p.2) * 2)%N.
Proof.
  intros Hp. pose proof (sort_N p Hp) as (H1 & H2 & _). rewrite pack_eq by (by apply vertex). destruct Hp as (? & ? & ?). unfold sort in *. cbn in *.
  destruct (N.ltb_spec (N.of_nat (p.1 `min` p.2)) (N.of_nat (p.1 `max` p.2))); lia.
Qed.
Lemma plt_order : PairOrder n plt.
Proof.
  destruct (C28_total _ ltb SW) as (SD & HT & _). constructor.
  - constructor; unfold plt; intros.
    + apply SD.
    + by eapply (sw_trans _ SD).
    + by eapply (sw_incomp _ SD).
  - intros p. unfold plt, sort. cbn [fst snd]. rewrite (Nat.min_comm p.2), (Nat.max_comm p.2). apply SD.
  - intros p q P1 P2 Q1 Q2 HP HQ H1 H2. pose proof (sort_N p (conj P1 (conj P2 HP))) as (A1 & A2 & _). pose proof (sort_N q (conj Q1 (conj Q2 HQ))) as (B1 & B2 & _).
    destruct (HT _ _ _ _ _ _ (vertex _ A1) (vertex _ A2) (vertex _ B1) (vertex _ B2) H1 H2) as (E1 & E2 & _).
    apply Nat2N.inj in E1, E2. unfold sort, SamePair in *. destruct p as [a b], q as [d e]. cbn in *.
    destruct (decide (a = d)) as [->|]; [left; f_equal; lia|right; f_equal; lia].
Qed.
Lemma plt_weight p q : InN p -> InN q -> plt q p = false -> ltb (w q) (w p) = false.
Proof.
  intros Hp Hq H. pose proof (w_sort p Hp) as E1. pose proof (w_sort q Hq) as E2. unfold plt, dedge_lt in H. cbn [weight edge_of mk_edge] in H.
  assert (ltb (w (sort q)) (w (sort p)) = false) as E.
  { destruct (weq ltb (w (sort q)) (w (sort p))) eqn:E; [|done]. by apply weq_true in E as [? ?]. }
  apply weq_true in E1 as [? ?], E2 as [? ?]. apply (w_trans _ (w (sort q))); [|done]. by apply (w_trans _ (w (sort p))).
Qed.
Lemma same_sort p q : InN p -> InN q -> N.min (N.of_nat p.1) (N.of_nat p.2) = N.min (N.of_nat q.1) (N.of_nat q.2) ->
  N.max (N.of_nat p.1) (N.of_nat p.2) = N.max (N.of_nat q.1) (N.of_nat q.2) -> SamePair p q.
Proof.
  intros (? & ? & ?) (? & ? & ?) E1 E2. unfold SamePair. destruct p as [a b], q as [d e]. cbn in *. destruct (decide (a = d)) as [->|]; [left; f_equal; lia|right; f_equal; lia].
Qed.
(** edges with the same source: the code's comparison is the order of the pairs *)
Lemma same_source p q : InN p -> InN q -> p.1 = q.1 -> dedge_lt ltb (edge_of p) (edge_of q) = plt p q.
Proof.
  intros Hp Hq E. destruct (C28_total _ ltb SW) as (SD & _ & HO & _).
  destruct (decide (p.2 = q.2)) as [E2|E2].
  - assert (p = q) as -> by (destruct p, q; cbn in *; congruence). rewrite (sw_irrefl _ SD). unfold plt. by rewrite (sw_irrefl _ SD).
  - pose proof (w_sort p Hp) as WP. pose proof (w_sort q Hq) as WQ. unfold plt, edge_of at 1 2, mk_edge. rewrite (dedge_congr _ _ _ _ _ _ WP WQ).
    destruct Hp as (P1 & P2 & P3), Hq as (Q1 & Q2 & Q3). destruct p as [a b], q as [d e]. cbn [fst snd] in *. subst d.
    pose proof (vertex a P1) as VA. pose proof (vertex b P2) as VB. pose proof (vertex e Q2) as VE.
    assert (H1 : forall W1 W2, dedge_lt ltb (mk_edge (N.of_nat a) (N.of_nat b) W1) (mk_edge (N.of_nat a) (N.of_nat e) W2) =
                    dedge_lt ltb (mk_edge (N.of_nat (Nat.min a b)) (N.of_nat (Nat.max a b)) W1) (mk_edge (N.of_nat a) (N.of_nat e) W2)).
    { intros W1 W2. destruct (decide (a <= b)); [rewrite Nat.min_l, Nat.max_r by lia; done|]. rewrite Nat.min_r, Nat.max_l by lia.
      apply HO; try done; lia. }
    assert (H2 : forall W1 W2, dedge_lt ltb (mk_edge (N.of_nat (Nat.min a b)) (N.of_nat (Nat.max a b)) W1) (mk_edge (N.of_nat a) (N.of_nat e) W2) =
                    dedge_lt ltb (mk_edge (N.of_nat (Nat.min a b)) (N.of_nat (Nat.max a b)) W1) (mk_edge (N.of_nat (Nat.min a e)) (N.of_nat (Nat.max a e)) W2)).
    { intros W1 W2. destruct (decide (a <= e)); [rewrite (Nat.min_l a e), (Nat.max_r a e) by lia; done|]. rewrite (Nat.min_r a e), (Nat.max_l a e) by lia.
      apply eq_true_iff_eq. assert (is_vertex (N.of_nat (a `min` b))) by (apply vertex; lia). assert (is_vertex (N.of_nat (a `max` b))) by (apply vertex; lia).
      rewrite !C28_order by done. unfold LexLess. rewrite (N.min_comm (N.of_nat e)), (N.max_comm (N.of_nat e)).
      split; (intros [?|(? & ? & ?)]; [by left|right]; split_and!; [done|done|lia]). }
    unfold mk_edge in H1, H2. rewrite H1, H2. done.
Qed.
(** of two edges of equal weight the smaller has the smaller word *)
Lemma pack_le p q : InN p -> InN q -> weq ltb (w p) (w q) = true -> plt q p = false -> q <> (p.2, p.1) ->
  (pack (N.of_nat p.1) (N.of_nat p.2) <= pack (N.of_nat q.1) (N.of_nat q.2))%N.
Proof.
  intros Hp Hq E H Hns. pose proof (w_sort p Hp) as WP. pose proof (w_sort q Hq) as WQ.
  assert (weq ltb (w (sort q)) (w (sort p)) = true) as E'.
  { rewrite weq_sym. apply (weq_trans _ (w q)); [|done]. apply (weq_trans _ (w p)); [by rewrite weq_sym|done]. }
  unfold plt, dedge_lt in H. cbn [weight edge_of mk_edge directed_edge] in H. rewrite E' in H. cbn [negb] in H.
  rewrite (sort_pack p Hp), (sort_pack q Hq) in H. apply N.ltb_ge in H. destruct Hp as (P1 & P2 & P3), Hq as (Q1 & Q2 & Q3).
  rewrite !pack_eq by (by apply vertex). change (2 ^ 31)%N with 2147483648%N in Hn.
  destruct p as [a b], q as [d e]. cbn [fst snd] in *. clear Hsym E E' WP WQ.
  assert (~ (e = a /\ d = b)) by (intros [-> ->]; done). clear Hns. change (2 ^ 32)%N with 4294967296%N in *.
  destruct (N.ltb_spec (N.of_nat a) (N.of_nat b)), (N.ltb_spec (N.of_nat d) (N.of_nat e)); lia.
Qed.
End Order.
