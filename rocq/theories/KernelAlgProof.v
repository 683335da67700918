From Verif Require Import KernelAlgModel HeapSpec.

Section Kernel.
Context {A : Type} (lt : A -> A -> bool) (SW : StrictWeak lt).

(** [l'] differs from [l] only inside [lo,hi), as a rearrangement. *)
Definition SegPerm (l l' : list A) (lo hi : nat) : Prop :=
  l' ≡ₚ l /\ length l' = length l /\
  (forall k, k < lo \/ hi <= k -> l' !! k = l !! k) /\
  (forall k, lo <= k < hi -> exists k', lo <= k' < hi /\ l' !! k = l !! k').

Lemma SegPerm_refl l lo hi : SegPerm l l lo hi.
Proof. split; [done|]. split; [done|]. split; [done|]. eauto. Qed.
Lemma SegPerm_trans l1 l2 l3 lo hi :
  SegPerm l1 l2 lo hi -> SegPerm l2 l3 lo hi -> SegPerm l1 l3 lo hi.
Proof.
  intros (P1&L1&F1&S1) (P2&L2&F2&S2). split; [by rewrite P2|]. split; [lia|].
  split. { intros k Hk. rewrite F2, F1; auto. }
  intros k Hk. destruct (S2 k Hk) as (k'&Hk'&E). destruct (S1 k' Hk') as (k''&?&E').
  exists k''. split; [done|]. congruence.
Qed.
Lemma SegPerm_weaken l l' lo hi lo' hi' :
  lo' <= lo -> hi <= hi' -> SegPerm l l' lo hi -> SegPerm l l' lo' hi'.
Proof.
  intros H1 H2 (P&L&F&S). split; [done|]. split; [done|]. split.
  { intros k Hk. apply F. lia. }
  intros k Hk. destruct (decide (lo <= k < hi)) as [Hin|Hout].
  - destruct (S k Hin) as (k'&?&?). exists k'. split; [lia|done].
  - exists k. split; [done|]. apply F. lia.
Qed.

Lemma swap_correct l i j lo hi :
  lo <= i < hi -> lo <= j < hi -> hi <= length l ->
  exists l', swap l i j = Some l' /\ SegPerm l l' lo hi /\
    l' !! i = l !! j /\ l' !! j = l !! i /\ (forall k, k <> i -> k <> j -> l' !! k = l !! k).
Proof.
  intros Hi Hj Hh. unfold swap.
  destruct (lookup_lt_is_Some_2 l i) as [x Hx]; [lia|].
  destruct (lookup_lt_is_Some_2 l j) as [y Hy]; [lia|].
  rewrite Hx, Hy; simpl. eexists. split; [done|].
  assert (<[i:=y]> (<[j:=x]> l) !! i = Some y) as E1.
  { apply list_lookup_insert. rewrite insert_length. lia. }
  assert (<[i:=y]> (<[j:=x]> l) !! j = Some x) as E2.
  { destruct (decide (i = j)) as [->|]; [congruence|].
    rewrite list_lookup_insert_ne by done. apply list_lookup_insert. lia. }
  assert (forall k, k <> i -> k <> j -> <[i:=y]> (<[j:=x]> l) !! k = l !! k) as E3.
  { intros k ??. by rewrite !list_lookup_insert_ne by done. }
  split; [|split; [congruence|split; [congruence|done]]].
  split; [by apply insert_swap_perm|]. split; [by rewrite !insert_length|].
  split. { intros k Hk. apply E3; lia. }
  intros k Hk. destruct (decide (k = i)) as [->|]; [exists j; split; [done|congruence]|].
  destruct (decide (k = j)) as [->|]; [exists i; split; [done|congruence]|].
  exists k. split; [done|]. by apply E3.
Qed.

Lemma partitionLoop_correct fuel : forall l i j left right pv,
  right - j < fuel -> left <= i -> i <= j -> j <= right -> right < length l ->
  l !! right = Some pv ->
  (forall k x, left <= k < i -> l !! k = Some x -> lt x pv = true) ->
  (forall k x, i <= k < j -> l !! k = Some x -> lt x pv = false) ->
  exists l' p, partitionLoop lt fuel l i j right = Some (l', p) /\
    left <= p <= right /\ SegPerm l l' left right /\
    (forall k x, left <= k < p -> l' !! k = Some x -> lt x pv = true) /\
    (forall k x, p <= k < right -> l' !! k = Some x -> lt x pv = false).
Proof.
  induction fuel as [|fuel IH]; intros l i j left right pv Hf Hl Hij Hjr Hr Hpv H1 H2; [lia|].
  cbn [partitionLoop]. destruct (Nat.ltb_spec j right) as [Hlt|Hge].
  - destruct (lookup_lt_is_Some_2 l j) as [xj Hxj]; [lia|]. rewrite Hxj, Hpv; simpl.
    destruct (lt xj pv) eqn:E.
    + destruct (swap_correct l j i left right) as (l1&->&SP&E1&E2&E3); try lia. simpl.
      destruct (IH l1 (S i) (S j) left right pv) as (l'&p&->&Hp&SP'&G1&G2); try lia.
      * destruct SP as (_&->&_). lia.
      * rewrite E3 by lia. done.
      * intros k x Hk Hx. destruct (decide (k = i)) as [->|].
        { assert (x = xj) by congruence. congruence. }
        rewrite E3 in Hx by lia. apply (H1 k); [lia|done].
      * intros k x Hk Hx. destruct (decide (k = j)) as [->|].
        { rewrite E1 in Hx. apply (H2 i); [lia|done]. }
        rewrite E3 in Hx by lia. apply (H2 k); [lia|done].
      * exists l', p. split; [done|]. split; [done|]. split; [|done].
        eapply SegPerm_trans; eauto.
    + destruct (IH l i (S j) left right pv) as (l'&p&->&Hp&SP'&G1&G2); try lia; auto.
      * intros k x Hk Hx. destruct (decide (k = j)) as [->|]; [congruence|].
        apply (H2 k); [lia|done].
      * exists l', p. auto.
  - exists l, i. split; [done|]. split; [lia|]. split; [apply SegPerm_refl|].
    split; [done|]. intros k x Hk. apply (H2 k). lia.
Qed.

Lemma partition_correct l left right pivot :
  left <= pivot < right -> right <= length l ->
  exists l' p pv, lomutoPartition lt l left right pivot = Some (l', p) /\
    left <= p < right /\ SegPerm l l' left right /\ l' !! p = Some pv /\
    (forall k x, left <= k < p -> l' !! k = Some x -> lt x pv = true) /\
    (forall k x, p < k < right -> l' !! k = Some x -> lt x pv = false).
Proof.
  intros Hp Hr. unfold lomutoPartition.
  destruct (swap_correct l pivot (right-1) left right) as (l1&->&SP1&E1&E2&E3); try lia. simplo.
  destruct (lookup_lt_is_Some_2 l pivot) as [pv Hpv]; [lia|].
  assert (length l1 = length l) as L1 by apply SP1.
  destruct (partitionLoop_correct (S (right-1)) l1 left left left (right-1) pv)
    as (l2&p&->&Hp2&SP2&G1&G2); try lia; try congruence.
  simplo.
  assert (length l2 = length l) as L2 by (destruct SP2 as (_&->&_); lia).
  assert (l2 !! (right-1) = Some pv) as Hpv2.
  { destruct SP2 as (_&_&F&_). rewrite F by lia. congruence. }
  destruct (swap_correct l2 p (right-1) left right) as (l3&->&SP3&F1&F2&F3); try lia. simplo.
  exists l3, p, pv. split; [done|]. split; [lia|]. split.
  { eapply SegPerm_trans; [eapply SegPerm_trans|]; eauto.
    eapply SegPerm_weaken; [| |exact SP2]; lia. }
  split; [congruence|]. split.
  - intros k x Hk Hx. rewrite F3 in Hx by lia. by apply (G1 k).
  - intros k x Hk Hx. destruct (decide (k = right - 1)) as [->|].
    + rewrite F2 in Hx. apply (G2 p); [lia|done].
    + rewrite F3 in Hx by lia. apply (G2 k); [lia|done].
Qed.

(** no element of l at a position in P is greater than one in Q *)
Definition SegLe (l : list A) (a b c d : nat) : Prop :=
  forall k k' x y, a <= k < b -> c <= k' < d -> l !! k = Some x -> l !! k' = Some y -> lt y x = false.

Lemma quickselect_correct fuel : forall l lo hi first nth last,
  last - first < fuel -> lo <= first -> first <= nth < last -> last <= hi -> hi <= length l ->
  SegLe l lo first first hi -> SegLe l lo last last hi ->
  exists l', quickselect lt fuel l first nth last = Some l' /\ SegPerm l l' lo hi /\
   forall v, l' !! nth = Some v ->
     (forall k x, lo <= k < nth -> l' !! k = Some x -> lt v x = false) /\
     (forall k x, nth < k < hi -> l' !! k = Some x -> lt x v = false).
Proof.
  induction fuel as [|fuel IH]; intros l lo hi first nth last Hf H1 H2 H3 H4 HA HB; [lia|].
  cbn [quickselect]. destruct (Nat.eqb_spec first last); [lia|].
  destruct (partition_correct l first last nth) as (l'&p&pv&->&Hp&SP&Hpv&G1&G2); try lia.
  simpl.
  destruct SP as (P&L&F&SS).
  assert (SegPerm l l' first last) as SP by (split; auto).
  assert (forall a b, lo <= a < first -> first <= b < hi -> forall x y, l' !! a = Some x -> l' !! b = Some y ->
     lt y x = false) as HA'.
  { intros a b Ha Hb x y Hx Hy. rewrite F in Hx by lia.
    destruct (decide (b < last)).
    - destruct (SS b) as (b'&Hb'&E); [lia|]. rewrite E in Hy. apply (HA a b' x y); auto; lia.
    - rewrite F in Hy by lia. apply (HA a b x y); auto; lia. }
  assert (forall a b, lo <= a < last -> last <= b < hi -> forall x y, l' !! a = Some x -> l' !! b = Some y ->
     lt y x = false) as HB'.
  { intros a b Ha Hb x y Hx Hy. rewrite F in Hy by lia.
    destruct (decide (first <= a)).
    - destruct (SS a) as (a'&Ha'&E); [lia|]. rewrite E in Hx. apply (HB a' b x y); auto; lia.
    - rewrite F in Hx by lia. apply (HB a b x y); auto; lia. }
  assert (forall k x, lo <= k < p -> l' !! k = Some x -> lt pv x = false) as LL.
  { intros k x Hk Hx. destruct (decide (first <= k)).
    - assert (lt x pv = true) by (apply (G1 k); auto; lia).
      destruct (lt pv x) eqn:E; [|done]. pose proof (sw_trans _ SW _ _ _ H E) as HH.
      by rewrite (sw_irrefl _ SW) in HH.
    - apply (HA' k p); auto; lia. }
  assert (forall k x, p < k < hi -> l' !! k = Some x -> lt x pv = false) as RR.
  { intros k x Hk Hx. destruct (decide (k < last)).
    - apply (G2 k); auto; lia.
    - apply (HB' p k); auto; lia. }
  destruct (Nat.eqb_spec p nth) as [->|Hne].
  { exists l'. split; [done|]. split; [eapply SegPerm_weaken; [| |exact SP]; lia|].
    intros v Hv. assert (v = pv) by congruence. subst. auto. }
  destruct (Nat.ltb_spec nth p) as [Hlt|Hge].
  - destruct (IH l' lo hi first nth p) as (l''&->&SP'&G); try lia.
    + intros k k' x y Hk Hk' Hx Hy. apply (HA' k k'); auto.
    + intros k k' x y Hk Hk' Hx Hy.
      eapply (sw_incomp _ SW y pv x); [|by apply (LL k)].
      destruct (decide (k' = p)) as [->|].
      { assert (y = pv) by congruence. subst. apply (sw_irrefl _ SW). }
      apply (RR k'); auto; lia.
    + exists l''. split; [done|]. split; [|done].
      eapply SegPerm_trans; [|exact SP']. eapply SegPerm_weaken; [| |exact SP]; lia.
  - destruct (IH l' lo hi (S p) nth last) as (l''&->&SP'&G); try lia.
    + intros k k' x y Hk Hk' Hx Hy.
      eapply (sw_incomp _ SW y pv x); [apply (RR k'); auto; lia|].
      destruct (decide (k = p)) as [->|].
      { assert (x = pv) by congruence. subst. apply (sw_irrefl _ SW). }
      apply (LL k); auto; lia.
    + intros k k' x y Hk Hk' Hx Hy. apply (HB' k k'); auto.
    + exists l''. split; [done|]. split; [|done].
      eapply SegPerm_trans; [|exact SP']. eapply SegPerm_weaken; [| |exact SP]; lia.
Qed.

Lemma nth_element_correct l first nth last :
  first <= nth < last -> last <= length l ->
  exists l', nth_element lt l first nth last = Some l' /\ SegPerm l l' first last /\
   forall v, l' !! nth = Some v ->
     (forall k x, first <= k < nth -> l' !! k = Some x -> lt v x = false) /\
     (forall k x, nth < k < last -> l' !! k = Some x -> lt x v = false).
Proof.
  intros H1 H2. unfold nth_element.
  destruct (Nat.eqb_spec first last); [lia|]. destruct (Nat.eqb_spec nth last); [lia|]. cbn [orb].
  apply quickselect_correct; try lia; intros k k' x y; lia.
Qed.

Lemma lower_bound_loop_correct fuel : forall l first count value,
  count < fuel -> first + count <= length l ->
  (forall k k' x y, first <= k -> k <= k' -> k' < first + count -> l !! k = Some x -> l !! k' = Some y ->
     lt y value = true -> lt x value = true) ->
  exists p, lower_bound_loop lt fuel l first count value = Some p /\ first <= p <= first + count /\
    (forall k x, first <= k < p -> l !! k = Some x -> lt x value = true) /\
    (forall k x, p <= k < first + count -> l !! k = Some x -> lt x value = false).
Proof.
  induction fuel as [|fuel IH]; intros l first count value Hf Hl Hs; [lia|].
  cbn [lower_bound_loop]. destruct (Nat.ltb_spec 0 count) as [Hc|Hc].
  2:{ exists first. split; [done|]. split; [lia|]. split; intros; lia. }
  destruct (lookup_lt_is_Some_2 l (first + count/2)) as [x Hx]; [lia|]. rewrite Hx; simpl.
  destruct (lt x value) eqn:E.
  - destruct (IH l (first + (count/2+1)) (count - (count/2+1)) value) as (p&->&Hp&G1&G2); try lia.
    { intros k k' a b ? ? ? Ha Hb Hlt. apply (Hs k k' a b); auto; lia. }
    exists p. split; [done|]. split; [lia|]. split.
    + intros k y Hk Hy. destruct (decide (first + (count/2+1) <= k)).
      { apply (G1 k); auto; lia. }
      apply (Hs k (first+count/2) y x); auto; lia.
    + intros k y Hk Hy. apply (G2 k); auto; lia.
  - destruct (IH l first (count/2) value) as (p&->&Hp&G1&G2); try lia.
    { intros k k' a b ? ? ? Ha Hb Hlt. apply (Hs k k' a b); auto; lia. }
    exists p. split; [done|]. split; [lia|]. split; [done|].
    intros k y Hk Hy. destruct (decide (k < first + count/2)).
    { apply (G2 k); auto; lia. }
    destruct (lt y value) eqn:E'; [|done].
    rewrite (Hs (first+count/2) k x y) in E; auto; lia.
Qed.

Lemma upper_bound_loop_correct fuel : forall l first count value,
  count < fuel -> first + count <= length l ->
  (forall k k' x y, first <= k -> k <= k' -> k' < first + count -> l !! k = Some x -> l !! k' = Some y ->
     lt value y = false -> lt value x = false) ->
  exists p, upper_bound_loop lt fuel l first count value = Some p /\ first <= p <= first + count /\
    (forall k x, first <= k < p -> l !! k = Some x -> lt value x = false) /\
    (forall k x, p <= k < first + count -> l !! k = Some x -> lt value x = true).
Proof.
  induction fuel as [|fuel IH]; intros l first count value Hf Hl Hs; [lia|].
  cbn [upper_bound_loop]. destruct (Nat.ltb_spec 0 count) as [Hc|Hc].
  2:{ exists first. split; [done|]. split; [lia|]. split; intros; lia. }
  destruct (lookup_lt_is_Some_2 l (first + count/2)) as [x Hx]; [lia|]. rewrite Hx; simpl.
  destruct (lt value x) eqn:E; simpl.
  - destruct (IH l first (count/2) value) as (p&->&Hp&G1&G2); try lia.
    { intros k k' a b ? ? ? Ha Hb Hlt. apply (Hs k k' a b); auto; lia. }
    exists p. split; [done|]. split; [lia|]. split; [done|].
    intros k y Hk Hy. destruct (decide (k < first + count/2)).
    { apply (G2 k); auto; lia. }
    destruct (lt value y) eqn:E'; [done|].
    rewrite (Hs (first+count/2) k x y) in E; auto; lia.
  - destruct (IH l (first + (count/2+1)) (count - (count/2+1)) value) as (p&->&Hp&G1&G2); try lia.
    { intros k k' a b ? ? ? Ha Hb Hlt. apply (Hs k k' a b); auto; lia. }
    exists p. split; [done|]. split; [lia|]. split.
    + intros k y Hk Hy. destruct (decide (first + (count/2+1) <= k)).
      { apply (G1 k); auto; lia. }
      apply (Hs k (first+count/2) y x); auto; lia.
    + intros k y Hk Hy. apply (G2 k); auto; lia.
Qed.

(** sortedness of a subrange *)
Definition SortedRange (l : list A) (first last : nat) : Prop :=
  forall i j x y, first <= i -> i < j -> j < last -> l !! i = Some x -> l !! j = Some y -> lt y x = false.

Lemma lower_bound_correct l first last value :
  first <= last -> last <= length l -> SortedRange l first last ->
  exists p, lower_bound lt l first last value = Some p /\ first <= p <= last /\
    (forall k x, first <= k < p -> l !! k = Some x -> lt x value = true) /\
    (forall k x, p <= k < last -> l !! k = Some x -> lt x value = false).
Proof.
  intros H1 H2 HS.
  destruct (lower_bound_loop_correct (S (last-first)) l first (last-first) value) as (p&E&Hp&G1&G2); try lia.
  { intros k k' x y Hk Hkk Hk' Hx Hy Hlt.
    destruct (decide (k = k')) as [->|]; [congruence|].
    destruct (lt x value) eqn:E; [done|].
    assert (lt y x = false) as Hyx by (apply (HS k k'); auto; lia).
    pose proof (sw_incomp _ SW _ _ _ Hyx E). congruence. }
  exists p. replace (first + (last-first)) with last in * by lia. auto.
Qed.

Lemma upper_bound_correct l first last value :
  first <= last -> last <= length l -> SortedRange l first last ->
  exists p, upper_bound lt l first last value = Some p /\ first <= p <= last /\
    (forall k x, first <= k < p -> l !! k = Some x -> lt value x = false) /\
    (forall k x, p <= k < last -> l !! k = Some x -> lt value x = true).
Proof.
  intros H1 H2 HS.
  destruct (upper_bound_loop_correct (S (last-first)) l first (last-first) value) as (p&E&Hp&G1&G2); try lia.
  { intros k k' x y Hk Hkk Hk' Hx Hy Hlt.
    destruct (decide (k = k')) as [->|]; [congruence|].
    assert (lt y x = false) as Hyx by (apply (HS k k'); auto; lia).
    exact (sw_incomp _ SW _ _ _ Hlt Hyx). }
  exists p. replace (first + (last-first)) with last in * by lia. auto.
Qed.

End Kernel.

(** Disjoint parallel writes. *)
Lemma par_writes_correct {A} (dst : nat -> option nat) (val : nat -> option A) order : forall out,
  NoDup order ->
  (forall i, i ∈ order -> exists d v, dst i = Some d /\ val i = Some v /\ d < length out) ->
  (forall i j d, i ∈ order -> j ∈ order -> dst i = Some d -> dst j = Some d -> i = j) ->
  exists out', par_writes dst val order out = Some out' /\ length out' = length out /\
    (forall i d, i ∈ order -> dst i = Some d -> out' !! d = val i) /\
    (forall d, (forall i, i ∈ order -> dst i <> Some d) -> out' !! d = out !! d).
Proof.
  induction order as [|i order IH]; intros out ND HD HI.
  { exists out. split; [done|]. split; [done|]. split; [|done]. intros i d Hi. by apply elem_of_nil in Hi. }
  apply NoDup_cons in ND as [Hni ND].
  destruct (HD i) as (d&v&Ed&Ev&Hd); [left|].
  cbn [par_writes]. rewrite Ed, Ev; simpl. rewrite wr_Some by done. simpl.
  destruct (IH (<[d:=v]> out)) as (out'&E&L&W&F); auto.
  { intros j Hj. rewrite insert_length. apply HD. by right. }
  { intros j k e Hj Hk. apply HI; by right. }
  exists out'. split; [done|]. rewrite insert_length in L. split; [done|]. split.
  - intros j e Hj Ee. apply elem_of_cons in Hj as [->|Hj]; [|eauto].
    assert (e = d) by congruence. subst.
    rewrite F. { rewrite Ev. by apply list_lookup_insert. }
    intros k Hk Hkd. apply Hni. rewrite (HI i k d); auto; [left|by right].
  - intros e He. rewrite F by (intros k Hk; apply He; by right).
    apply list_lookup_insert_ne. intros ->. apply (He i); [left|done].
Qed.

(** [perm] lists 0..n-1 in some order. *)
Lemma perm_seq_facts (perm : list nat) n : perm ≡ₚ seq 0 n ->
  length perm = n /\ (forall i p, perm !! i = Some p -> p < n) /\
  (forall i j p, perm !! i = Some p -> perm !! j = Some p -> i = j) /\
  (forall p, p < n -> exists i, perm !! i = Some p).
Proof.
  intros P. split; [by rewrite P, seq_length|].
  assert (NoDup perm) as ND by (rewrite P; apply NoDup_seq).
  split; [|split].
  - intros i p Hp. apply elem_of_list_lookup_2 in Hp. rewrite P in Hp.
    apply elem_of_seq in Hp. lia.
  - intros i j p Hi Hj. eapply NoDup_lookup; eauto.
  - intros p Hp. apply elem_of_list_lookup. rewrite P. apply elem_of_seq. lia.
Qed.

Lemma fmap_Some_perm {A} (l l' : list A) : Some <$> l ≡ₚ Some <$> l' -> l ≡ₚ l'.
Proof.
  intros H.
  assert (forall k : list A, omap id (Some <$> k) = k) as Ho.
  { induction k; [done|]. cbn. f_equal. exact IHk. }
  rewrite <- (Ho l), <- (Ho l'). by rewrite H.
Qed.

Lemma fmap_lookup_seq {A} (inp : list A) : Some <$> inp = (fun p => inp !! p) <$> seq 0 (length inp).
Proof.
  apply list_eq. intros i. rewrite !list_lookup_fmap.
  destruct (decide (i < length inp)).
  - rewrite lookup_seq_lt by lia. simpl. destruct (lookup_lt_is_Some_2 inp i) as [v Hv]; [done|].
    by rewrite Hv.
  - rewrite lookup_seq_ge by lia. rewrite (proj2 (lookup_ge_None inp i)) by lia. done.
Qed.

Lemma gather_perm {A} (perm : list nat) (inp out : list A) :
  perm ≡ₚ seq 0 (length inp) -> length out = length inp ->
  (forall i p, perm !! i = Some p -> out !! i = inp !! p) -> out ≡ₚ inp.
Proof.
  intros HP HL Hlk. destruct (perm_seq_facts _ _ HP) as (Lp&Bp&Ip&Sp).
  apply fmap_Some_perm. rewrite (fmap_lookup_seq inp), <- HP.
  assert (Some <$> out = (fun p => inp !! p) <$> perm) as ->; [|done].
  apply list_eq. intros i. rewrite !list_lookup_fmap.
  destruct (perm !! i) as [p|] eqn:Ep; simpl.
  - rewrite (Hlk i p Ep). destruct (lookup_lt_is_Some_2 inp p) as [v Hv]; [eauto|]. by rewrite Hv.
  - apply lookup_ge_None in Ep. rewrite (proj2 (lookup_ge_None out i)) by lia. done.
Qed.

Lemma applyPermutation_correct {A} order perm (inp out : list A) :
  order ≡ₚ seq 0 (length inp) -> perm ≡ₚ seq 0 (length inp) -> length out = length inp ->
  exists out', applyPermutation order perm inp out = Some out' /\ length out' = length inp /\
    (forall i p, perm !! i = Some p -> out' !! i = inp !! p) /\ out' ≡ₚ inp.
Proof.
  intros HO HP HL.
  destruct (perm_seq_facts _ _ HP) as (Lp&Bp&Ip&Sp).
  destruct (par_writes_correct (fun i => Some i) (fun i => p ← perm !! i; inp !! p) order out)
    as (out'&E&L&W&F).
  { rewrite HO. apply NoDup_seq. }
  { intros i Hi. rewrite HO in Hi. apply elem_of_seq in Hi.
    destruct (lookup_lt_is_Some_2 perm i) as [p Hp]; [lia|].
    destruct (lookup_lt_is_Some_2 inp p) as [v Hv]; [eauto|].
    exists i, v. rewrite Hp; simpl. split; [done|]. split; [done|lia]. }
  { intros i j d _ _. congruence. }
  exists out'. unfold applyPermutation. rewrite Lp, HL, Nat.eqb_refl; simpl.
  split; [done|]. split; [lia|].
  assert (forall i p, perm !! i = Some p -> out' !! i = inp !! p) as Hlk.
  { intros i p Hp. rewrite (W i i); [|rewrite HO; apply elem_of_seq|done].
    - by rewrite Hp.
    - apply lookup_lt_Some in Hp. lia. }
  split; [done|]. apply (gather_perm perm); auto; lia.
Qed.

Lemma applyInversePermutation_correct {A} order perm (inp out : list A) :
  order ≡ₚ seq 0 (length inp) -> perm ≡ₚ seq 0 (length inp) -> length out = length inp ->
  exists out', applyInversePermutation order perm inp out = Some out' /\ length out' = length inp /\
    (forall i p, perm !! i = Some p -> out' !! p = inp !! i) /\ out' ≡ₚ inp.
Proof.
  intros HO HP HL.
  destruct (perm_seq_facts _ _ HP) as (Lp&Bp&Ip&Sp).
  destruct (par_writes_correct (fun i => perm !! i) (fun i => inp !! i) order out)
    as (out'&E&L&W&F).
  { rewrite HO. apply NoDup_seq. }
  { intros i Hi. rewrite HO in Hi. apply elem_of_seq in Hi.
    destruct (lookup_lt_is_Some_2 perm i) as [p Hp]; [lia|].
    destruct (lookup_lt_is_Some_2 inp i) as [v Hv]; [lia|].
    exists p, v. split; [done|]. split; [done|]. rewrite HL. eauto. }
  { intros i j d _ _. eauto. }
  exists out'. unfold applyInversePermutation. rewrite Lp, HL, Nat.eqb_refl; simpl.
  split; [done|]. split; [lia|].
  assert (forall i p, perm !! i = Some p -> out' !! p = inp !! i) as Hlk.
  { intros i p Hp. apply W; [|done]. rewrite HO. apply elem_of_seq.
    apply lookup_lt_Some in Hp. lia. }
  split; [done|]. symmetry. apply (gather_perm perm); [by rewrite L, HL|lia|].
  intros i p Hp. symmetry. eauto.
Qed.

(** Offsets of runs. *)
Section Offsets.
Context {A : Type} (eqb : A -> A -> bool) (eqb_ok : forall x y, eqb x y = true <-> x = y).

Lemma scan_before_mono view i j : i <= j -> scan_before eqb view i <= scan_before eqb view j.
Proof. induction 1; simpl; lia. Qed.
Lemma scan_before_le view i : scan_before eqb view i <= i.
Proof. induction i as [|i IH]; simpl; [done|]. destruct (first_flag eqb view i) as [[]|]; lia. Qed.
Lemma scan_before_flag_lt view i j : first_flag eqb view i = Some true -> i < j ->
  scan_before eqb view i < scan_before eqb view j.
Proof.
  intros Hf Hij. assert (scan_before eqb view (S i) <= scan_before eqb view j) by (apply scan_before_mono; lia).
  simpl in *. rewrite Hf in *. lia.
Qed.
Lemma scan_before_surj view m : forall d, d < scan_before eqb view m ->
  exists i, i < m /\ first_flag eqb view i = Some true /\ scan_before eqb view i = d.
Proof.
  induction m as [|m IH]; intros d Hd; simpl in Hd; [lia|].
  destruct (decide (d < scan_before eqb view m)) as [H|H].
  - destruct (IH d H) as (i&?&?&?). exists i. split; [lia|done].
  - destruct (first_flag eqb view m) as [[]|] eqn:E; try lia.
    exists m. split; [lia|]. split; [done|]. lia.
Qed.

(** Run structure of [offs] for [view]. *)
Lemma computeOffsets_correct order (view : list A) scratch :
  order ≡ₚ seq 0 (S (length view)) -> length scratch = S (length view) ->
  exists offs, computeOffsetsInOrderedView eqb order view scratch = Some offs /\
    1 <= length offs /\ offs !! 0 = Some 0 /\ offs !! (length offs - 1) = Some (length view) /\
    (forall k a b, offs !! k = Some a -> offs !! (S k) = Some b -> a < b) /\
    (forall k a b i x y, offs !! k = Some a -> offs !! (S k) = Some b -> a <= i < b ->
       view !! a = Some x -> view !! i = Some y -> x = y) /\
    (forall k a x y, offs !! (S k) = Some a -> a < length view ->
       view !! (a - 1) = Some x -> view !! a = Some y -> x <> y).
Proof.
  intros HO HS. unfold computeOffsetsInOrderedView. rewrite HS, Nat.eqb_refl.
  set (n := length view) in *.
  set (P := fun i => match first_flag eqb view i with Some true => true | _ => false end).
  assert (forall i, i ∈ List.filter P order <-> i <= n /\ first_flag eqb view i = Some true) as Hfl.
  { intros i. rewrite elem_of_list_In, filter_In, <- elem_of_list_In, HO, elem_of_seq.
    unfold P. destruct (first_flag eqb view i) as [[]|]; naive_solver lia. }
  destruct (par_writes_correct (fun i => Some (scan_before eqb view i)) (fun i => Some i)
     (List.filter P order) scratch) as (out&->&L&W&F).
  { apply NoDup_ListNoDup, List.NoDup_filter, NoDup_ListNoDup. rewrite HO. apply NoDup_seq. }
  { intros i Hi. apply Hfl in Hi as [Hi Hf]. eexists _, i. split; [done|]. split; [done|].
    rewrite HS. pose proof (scan_before_le view i). lia. }
  { intros i j d Hi Hj. apply Hfl in Hi as [Hi Hfi]. apply Hfl in Hj as [Hj Hfj]. intros Ei Ej.
    destruct (Nat.lt_trichotomy i j) as [H|[H|H]]; [|done|].
    - pose proof (scan_before_flag_lt view i j Hfi H). congruence || (simplify_eq; lia).
    - pose proof (scan_before_flag_lt view j i Hfj H). simplify_eq; lia. }
  simplo. set (m := scan_before eqb view (S n)).
  assert (m <= S n) as Hm by apply scan_before_le.
  assert (first_flag eqb view 0 = Some true) as Hf0 by done.
  assert (first_flag eqb view n = Some true) as Hfn.
  { unfold first_flag. fold n. rewrite Nat.eqb_refl, orb_true_r. done. }
  assert (m = S (scan_before eqb view n)) as Hmn.
  { unfold m. cbn [scan_before]. rewrite Hfn. lia. }
  exists (take m out). split; [reflexivity|].
  assert (length (take m out) = m) as LT by (rewrite take_length; lia).
  assert (forall d, d < m -> exists i, i <= n /\ first_flag eqb view i = Some true /\
     scan_before eqb view i = d /\ take m out !! d = Some i) as Hget.
  { intros d Hd. destruct (scan_before_surj view (S n) d Hd) as (i&Hi&Hf&E).
    exists i. split; [lia|]. split; [done|]. split; [done|].
    rewrite lookup_take by done. subst d. apply W; [|done]. apply Hfl. split; [lia|done]. }
  assert (forall d a, take m out !! d = Some a -> a <= n /\ first_flag eqb view a = Some true /\
     scan_before eqb view a = d) as Hget'.
  { intros d a Hd. pose proof (lookup_lt_Some _ _ _ Hd) as Hlt. rewrite LT in Hlt.
    destruct (Hget d Hlt) as (i&?&?&?&E). assert (a = i) by congruence. subst. done. }
  rewrite LT.
  split; [lia|]. split; [|split; [|split; [|split]]].
  - destruct (Hget 0) as (i&Hi&Hfi&E&->); [lia|].
    destruct i as [|i]; [done|].
    pose proof (scan_before_flag_lt view 0 (S i) Hf0). lia.
  - destruct (Hget (m-1)) as (i&Hi&Hfi&E&->); [lia|]. f_equal.
    destruct (decide (i = n)); [done|].
    pose proof (scan_before_flag_lt view i n Hfi). lia.
  - intros k a b Ha Hb. destruct (Hget' _ _ Ha) as (?&?&?). destruct (Hget' _ _ Hb) as (?&?&?).
    destruct (decide (a < b)); [done|].
    pose proof (scan_before_mono view b a). lia.
  - intros k a b i x y Ha Hb Hi Hx Hy.
    destruct (Hget' _ _ Ha) as (Ha1&Ha2&Ha3). destruct (Hget' _ _ Hb) as (Hb1&Hb2&Hb3).
    assert (forall i, a <= i < b -> forall y, view !! i = Some y -> x = y) as Hrun.
    { clear i y Hi Hy. induction i as [i IH] using lt_wf_ind. intros Hi y Hy.
      destruct (decide (i = a)) as [->|]; [congruence|].
      destruct (lookup_lt_is_Some_2 view (i-1)) as [z Hz].
      { apply lookup_lt_Some in Hy. lia. }
      assert (x = z) by (apply (IH (i-1)); auto; lia). subst z.
      destruct (eqb y x) eqn:Ee; [symmetry; by apply eqb_ok|].
      exfalso.
      assert (first_flag eqb view i = Some true) as Hfi.
      { unfold first_flag. destruct (Nat.eqb_spec i 0); [done|].
        destruct (Nat.eqb_spec i (length view)); [done|]. simpl. rewrite Hy, Hz; simpl. by rewrite Ee. }
      pose proof (scan_before_flag_lt view a i Ha2 ltac:(lia)).
      pose proof (scan_before_flag_lt view i b Hfi ltac:(lia)). lia. }
    eauto.
  - intros k a x y Ha Halt Hx Hy. destruct (Hget' _ _ Ha) as (Ha1&Ha2&Ha3).
    destruct (decide (a = 0)) as [->|]; [simpl in Ha3; lia|].
    unfold first_flag in Ha2. fold n in Ha2.
    destruct (Nat.eqb_spec a 0); [done|]. destruct (Nat.eqb_spec a n); [lia|]. simpl in Ha2.
    rewrite Hx, Hy in Ha2; simpl in Ha2. intros ->.
    rewrite (proj2 (eqb_ok y y) eq_refl) in Ha2. done.
Qed.
End Offsets.
