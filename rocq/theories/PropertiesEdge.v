(** C28: the edges of the minimum spanning tree carry their end points exactly and are totally ordered. *)
From Verif Require Export EdgeModel HeapSpec.
Local Open Scope N_scope.

(** vertices are non-negative C++ ints *)
Definition is_vertex (v : N) : Prop := v < 2 ^ 31.

Lemma land_mask (k v : N) : is_vertex v -> k <= 32 -> N.land (N.shiftl (N.shiftr uint_max 1) k) (u64 (N.shiftl v k)) = v * 2 ^ k.
Proof.
  intros Hv Hk. unfold is_vertex in Hv. assert (2 ^ k <= 2 ^ 32) as Hp by (apply N.pow_le_mono_r; lia).
  assert (0 < 2 ^ k) by (apply N.neq_0_lt_0, N.pow_nonzero; lia).
  unfold u64. rewrite N.mod_small; [|rewrite N.shiftl_mul_pow2; change (2 ^ 31) with 2147483648 in Hv; change (2 ^ 32) with 4294967296 in Hp; change (2 ^ 64) with 18446744073709551616; nia].
  rewrite <- N.shiftl_land, N.shiftl_mul_pow2. f_equal. change (N.shiftr uint_max 1) with (N.ones 31). rewrite N.land_comm, N.land_ones. by apply N.mod_small.
Qed.
(** the layout of the word: smaller vertex, larger vertex, direction *)
Lemma pack_eq s t : is_vertex s -> is_vertex t ->
  pack s t = N.min s t * 2 ^ 32 + N.max s t * 2 + (if s <? t then 0 else 1).
Proof.
  intros Hs Ht. unfold pack, mask_source, mask_target, source_shift, target_shift, reverse_direction.
  unfold is_vertex in *. change (2 ^ 31) with 2147483648 in *.
  destruct (N.ltb_spec s t); rewrite !land_mask by (unfold is_vertex; change (2 ^ 31) with 2147483648; done); unfold u64;
    change (2 ^ 1) with 2; change (2 ^ 32) with 4294967296; change (2 ^ 64) with 18446744073709551616.
  - rewrite N.min_l, N.max_r by lia. rewrite N.mod_small by lia. lia.
  - rewrite N.min_r, N.max_l by lia. rewrite N.mod_small by lia. lia.
Qed.
Lemma mask_src e : N.shiftr (N.land e mask_source) source_shift = (e / 2 ^ 32) mod 2 ^ 31.
Proof.
  unfold mask_source, source_shift. rewrite N.shiftr_land, N.shiftr_shiftl_l by lia. simpl (32 - 32). rewrite N.shiftl_0_r.
  change (N.shiftr uint_max 1) with (N.ones 31). by rewrite N.land_ones, N.shiftr_div_pow2.
Qed.
Lemma mask_tgt e : N.shiftr (N.land e mask_target) target_shift = (e / 2) mod 2 ^ 31.
Proof.
  unfold mask_target, target_shift. rewrite N.shiftr_land, N.shiftr_shiftl_l by lia. simpl (1 - 1). rewrite N.shiftl_0_r.
  change (N.shiftr uint_max 1) with (N.ones 31). by rewrite N.land_ones, N.shiftr_div_pow2.
Qed.
Lemma decode a b f : is_vertex a -> is_vertex b -> f < 2 -> let e := a * 2 ^ 32 + b * 2 + f in
  N.shiftr (N.land e mask_source) source_shift = a /\ N.shiftr (N.land e mask_target) target_shift = b /\ is_reverse e = (f =? 1).
Proof.
  intros Ha Hb Hf e. unfold is_vertex in *. change (2 ^ 31) with 2147483648 in *. rewrite mask_src, mask_tgt.
  assert (e / 2 ^ 32 = a) as ->.
  { symmetry. apply (N.div_unique e (2 ^ 32) a (b * 2 + f)); unfold e; change (2 ^ 32) with 4294967296; lia. }
  assert (e / 2 = a * 2147483648 + b) as ->.
  { symmetry. apply (N.div_unique e 2 _ f); unfold e; change (2 ^ 32) with 4294967296; lia. }
  change (2 ^ 31) with 2147483648. split; [by apply N.mod_small|]. split.
  - rewrite N.add_comm, N.mod_add by lia. by apply N.mod_small.
  - unfold is_reverse, reverse_direction. change 1 with (N.ones 1) at 1. rewrite N.land_ones. change (2 ^ 1) with 2. f_equal.
    unfold e. change (2 ^ 32) with (2147483648 * 2). replace (a * (2147483648 * 2) + b * 2 + f) with (f + (a * 2147483648 + b) * 2) by lia.
    rewrite N.mod_add by lia. by apply N.mod_small.
Qed.

(** The end points of an edge are recovered exactly, in the right direction, whatever the vertices. *)
Theorem C28_endpoints : forall s t, is_vertex s -> is_vertex t -> source (pack s t) = s /\ target (pack s t) = t /\ pack s t < ullong_max.
Proof.
  intros s t Hs Ht. unfold source, target. rewrite pack_eq by done. destruct (N.ltb_spec s t) as [H|H].
  - rewrite N.min_l, N.max_r by lia. destruct (decode s t 0 Hs Ht) as (-> & -> & ->); [lia|]. split; [done|]. split; [done|].
    unfold is_vertex in *. unfold ullong_max. change (2 ^ 31) with 2147483648 in *. change (2 ^ 32) with 4294967296. change (2 ^ 64) with 18446744073709551616. lia.
  - rewrite N.min_r, N.max_l by lia. destruct (decode t s 1 Ht Hs) as (-> & -> & ->); [lia|]. split; [done|]. split; [done|].
    unfold is_vertex in *. unfold ullong_max. change (2 ^ 31) with 2147483648 in *. change (2 ^ 32) with 4294967296. change (2 ^ 64) with 18446744073709551616. lia.
Qed.

(** Lexicographic order on weight, smaller vertex, larger vertex and direction (forward first), stated on the end points. *)
Definition LexLess {W} (ltb : W -> W -> bool) (s t : N) (w : W) (s' t' : N) (w' : W) : Prop :=
  ltb w w' = true \/ (ltb w w' = false /\ ltb w' w = false /\
    (N.min s t < N.min s' t' \/ (N.min s t = N.min s' t' /\
      (N.max s t < N.max s' t' \/ (N.max s t = N.max s' t' /\ s < t /\ t' <= s'))))).

Lemma weq_true {W} (ltb : W -> W -> bool) a b : weq ltb a b = true <-> ltb a b = false /\ ltb b a = false.
Proof. unfold weq. rewrite andb_true_iff, !negb_true_iff. done. Qed.

Theorem C28_order : forall W (ltb : W -> W -> bool), StrictWeak ltb ->
  forall s t w s' t' w', is_vertex s -> is_vertex t -> is_vertex s' -> is_vertex t' ->
  (dedge_lt ltb (mk_edge s t w) (mk_edge s' t' w') = true <-> LexLess ltb s t w s' t' w').
Proof.
  intros W ltb SW s t w s' t' w' Hs Ht Hs' Ht'. unfold dedge_lt, mk_edge, LexLess. simpl. destruct (weq ltb w w') eqn:E; simpl.
  - apply weq_true in E as [E1 E2]. rewrite E1, E2. rewrite N.ltb_lt, !pack_eq by done. unfold is_vertex in *.
    change (2 ^ 31) with 2147483648 in *. change (2 ^ 32) with 4294967296. destruct (N.ltb_spec s t), (N.ltb_spec s' t'); split.
    all: try (intros H1; right; split; [done|]; split; [done|]; lia). all: intros [H1|(_ & _ & H1)]; [done|]; lia.
  - split; [intros H; by left|]. intros [H|(H1 & H2 & _)]; [done|]. assert (weq ltb w w' = true) by (by apply weq_true). congruence.
Qed.

(** A total order: of two edges one is smaller, or they have the same end points in the same direction and equal weight;
    opposite directions of one undirected edge are neighbours in the order; every edge of finite (or infinite) weight is
    smaller than the "no edge" value. *)
Theorem C28_total : forall W (ltb : W -> W -> bool), StrictWeak ltb ->
  StrictWeak (dedge_lt ltb) /\
  (forall s t w s' t' w', is_vertex s -> is_vertex t -> is_vertex s' -> is_vertex t' ->
     dedge_lt ltb (mk_edge s t w) (mk_edge s' t' w') = false -> dedge_lt ltb (mk_edge s' t' w') (mk_edge s t w) = false ->
     s = s' /\ t = t' /\ ltb w w' = false /\ ltb w' w = false) /\
  (forall s t s' t' w w', is_vertex s -> is_vertex t -> is_vertex s' -> is_vertex t' -> s <> t -> s' <> t' ->
     ~ (N.min s t = N.min s' t' /\ N.max s t = N.max s' t') ->
     dedge_lt ltb (mk_edge s t w) (mk_edge s' t' w') = dedge_lt ltb (mk_edge t s w) (mk_edge s' t' w') /\
     dedge_lt ltb (mk_edge s t w) (mk_edge s' t' w') = wedge_lt ltb (WEdge s t w) (WEdge s' t' w')) /\
  (forall s t w inf, is_vertex s -> is_vertex t -> ltb inf w = false -> dedge_lt ltb (mk_edge s t w) (no_edge inf) = true).
Proof.
  intros W ltb SW.
  assert (forall a b, ltb a b = true -> ltb b a = false) as Hasym.
  { intros a b H. destruct (ltb b a) eqn:E; [|done]. pose proof (sw_trans _ SW _ _ _ H E). by rewrite (sw_irrefl _ SW) in *. }
  assert (forall l r, dedge_lt ltb l r = true <-> ltb (weight l) (weight r) = true \/ (ltb (weight l) (weight r) = false /\ ltb (weight r) (weight l) = false /\ directed_edge l < directed_edge r)) as HL.
  { intros l r. unfold dedge_lt. destruct (weq ltb (weight l) (weight r)) eqn:E; simpl.
    - apply weq_true in E as [E1 E2]. rewrite E1, E2, N.ltb_lt. intuition congruence.
    - split; [by left|]. intros [H|(H1 & H2 & _)]; [done|]. assert (weq ltb (weight l) (weight r) = true) by (by apply weq_true). congruence. }
  assert (forall l r, dedge_lt ltb l r = false <-> ltb (weight l) (weight r) = false /\ (ltb (weight r) (weight l) = true \/ directed_edge r <= directed_edge l)) as HF.
  { intros l r. rewrite <- not_true_iff_false, HL. destruct (ltb (weight l) (weight r)) eqn:E1, (ltb (weight r) (weight l)) eqn:E2.
    - by rewrite (Hasym _ _ E1) in E2.
    - intuition congruence.
    - intuition congruence.
    - rewrite <- N.nlt_ge. intuition congruence. }
  split; [constructor|split; [|split]].
  - intros x. apply HF. split; [apply SW|right; lia].
  - intros x y z H1 H2. apply HL in H1, H2. apply HL. destruct H1 as [H1|(A1 & A2 & A3)], H2 as [H2|(B1 & B2 & B3)].
    + left. by eapply (sw_trans _ SW).
    + left. destruct (ltb (weight x) (weight z)) eqn:E; [done|]. rewrite (sw_incomp _ SW _ _ _ E B2) in H1. done.
    + left. destruct (ltb (weight x) (weight z)) eqn:E; [done|]. rewrite (sw_incomp _ SW _ _ _ A2 E) in H2. done.
    + right. split; [by eapply (sw_incomp _ SW)|]. split; [by eapply (sw_incomp _ SW)|]. lia.
  - intros x y z H1 H2. apply HF in H1 as [A1 A2], H2 as [B1 B2]. apply HF. split; [by eapply (sw_incomp _ SW)|].
    destruct (ltb (weight z) (weight x)) eqn:E; [by left|right]. destruct A2 as [A2|A2].
    + rewrite (sw_incomp _ SW _ _ _ B1 E) in A2. done.
    + destruct B2 as [B2|B2]; [|lia]. rewrite (sw_incomp _ SW _ _ _ E A1) in B2. done.
  - intros s t w s' t' w' Hs Ht Hs' Ht' H1 H2. apply HF in H1 as [A1 A2], H2 as [B1 B2]. simpl in *. rewrite B1 in A2. rewrite A1 in B2.
    destruct A2 as [?|A2]; [done|]. destruct B2 as [?|B2]; [done|]. assert (pack s t = pack s' t') as E by lia.
    destruct (C28_endpoints s t Hs Ht) as (E1 & E2 & _), (C28_endpoints s' t' Hs' Ht') as (E3 & E4 & _). rewrite E in E1, E2. split; [congruence|]. split; [congruence|done].
  - intros s t s' t' w w' Hs Ht Hs' Ht' Hn Hn' Hne. split.
    + apply eq_true_iff_eq. rewrite !C28_order by done. unfold LexLess. rewrite (N.min_comm t s), (N.max_comm t s). intuition lia.
    + apply eq_true_iff_eq. rewrite C28_order by done. unfold wedge_lt, LexLess. simpl. destruct (weq ltb w w') eqn:E; simpl.
      * apply weq_true in E as [E1 E2]. rewrite E1, E2. destruct (N.eqb_spec (N.min s t) (N.min s' t')) as [Em|Em]; simpl; rewrite N.ltb_lt.
        -- rewrite Em. split; [intros [?|(_ & _ & [?|(_ & [?|(? & _)])])]; [done|lia|done|]|]. { exfalso. by apply Hne. } intros ?. right. intuition lia.
        -- split; [intros [?|(_ & _ & [?|(? & _)])]; [done|done|done]|]. intros ?. right. intuition lia.
      * split; [|by left]. intros [H|(H1 & H2 & _)]; [done|]. assert (weq ltb w w' = true) by (by apply weq_true). congruence.
  - intros s t w inf Hs Ht Hw. apply HL. simpl. destruct (ltb w inf) eqn:E; [by left|right]. split; [done|]. split; [done|]. by apply C28_endpoints.
Qed.
Print Assumptions C28_endpoints.
Print Assumptions C28_order.
Print Assumptions C28_total.

Example C28_example : is_vertex 2147483647 /\ pack 5 2147483647 = 25769803774 /\ source (pack 2147483647 5) = 2147483647 /\ target (pack 2147483647 5) = 5 /\
  dedge_lt N.ltb (mk_edge 5 2 7) (mk_edge 3 4 7) = true /\ dedge_lt N.ltb (mk_edge 2 5 7) (mk_edge 5 2 7) = true.
Proof. repeat split; vm_compute; reflexivity. Qed.
