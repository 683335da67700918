(** Lemmas about the heap model. *)
From Verif Require Import HeapModel HeapSpec.

Section Proofs.
Context {A : Type} (comp : A -> A -> bool) (SW : StrictWeak comp).

Lemma comp_asym x y : comp x y = true -> comp y x = false.
Proof.
  intros H. destruct (comp y x) eqn:E; [|done].
  pose proof (sw_trans _ SW _ _ _ H E). rewrite (sw_irrefl _ SW) in *. done.
Qed.

(** not (x < y), y > z  -> not (x < z) *)
Lemma comp_le_trans x y z : comp x y = false -> comp z y = true -> comp x z = false.
Proof. intros H1 H2. eapply (sw_incomp _ SW); [exact H1|]. by apply comp_asym. Qed.

(** [m] is a heap of size [n] except possibly at the edge above [pos]. *)
Definition UpInv (m : list A) (n pos : nat) : Prop :=
  (forall i j x y, j < n -> (j = 2*i+1 \/ j = 2*i+2) -> j <> pos ->
     m !! i = Some x -> m !! j = Some y -> comp x y = false) /\
  (0 < pos -> forall j x y, j < n -> (j = 2*pos+1 \/ j = 2*pos+2) ->
     m !! ((pos-1)/2) = Some x -> m !! j = Some y -> comp x y = false).

Lemma parent_child i j : (j = 2*i+1 \/ j = 2*i+2) <-> (0 < j /\ i = (j-1)/2).
Proof. lia. Qed.

Lemma bubbleUp_correct fuel : forall l n pos val,
  pos < fuel -> pos < n -> n <= length l ->
  UpInv (<[pos:=val]> l) n pos ->
  exists l', bubbleUp comp fuel l pos 0 val = Some l' /\ l' ≡ₚ <[pos:=val]> l /\
    HeapOrd comp l' n /\ (forall k, n <= k -> l' !! k = l !! k) /\ length l' = length l.
Proof.
  induction fuel as [|fuel IH]; intros l n pos val Hf Hpos Hn [H1 H2]; [lia|].
  cbn [bubbleUp].
  destruct (Nat.ltb_spec 0 pos) as [Hp|Hp].
  - destruct (lookup_lt_is_Some_2 l ((pos-1)/2)) as [p Hpar]; [lia|].
    rewrite Hpar; simpl.
    destruct (comp p val) eqn:Ec.
    + rewrite wr_Some by lia. simpl.
      destruct (IH (<[pos:=p]> l) n ((pos-1)/2) val) as (l'&E&P&HO&F&L).
      * lia. * lia. * rewrite insert_length; lia.
      * (* invariant *)
        assert (forall k, k <> pos -> k <> (pos-1)/2 ->
           <[(pos-1)/2:=val]> (<[pos:=p]> l) !! k = <[pos:=val]> l !! k) as Hsame.
        { intros k ??. rewrite !list_lookup_insert_ne; auto. }
        assert (<[pos:=val]> l !! pos = Some val) as Hatpos by (apply list_lookup_insert; lia).
        assert (<[pos:=val]> l !! ((pos-1)/2) = Some p) as Hatpar.
        { rewrite list_lookup_insert_ne by lia. done. }
        assert (<[(pos-1)/2:=val]> (<[pos:=p]> l) !! ((pos-1)/2) = Some val) as Hnpar.
        { apply list_lookup_insert. rewrite insert_length. lia. }
        assert (<[(pos-1)/2:=val]> (<[pos:=p]> l) !! pos = Some p) as Hnpos.
        { rewrite list_lookup_insert_ne by lia. apply list_lookup_insert. lia. }
        split.
        -- intros i j x y Hj Hij Hne Hx Hy.
           destruct (decide (j = pos)) as [->|Hjp].
           ++ assert (i = (pos-1)/2) as -> by lia.
              assert (x = val) by congruence. assert (y = p) by congruence. subst.
              by apply comp_asym.
           ++ rewrite Hsame in Hy by done.
              destruct (decide (i = pos)) as [->|Hip].
              ** assert (x = p) by congruence. subst.
                 eapply (H2 Hp j); eauto.
              ** destruct (decide (i = (pos-1)/2)) as [->|Hip'].
                 --- assert (x = val) by congruence. subst.
                     assert (comp p y = false) by (eapply (H1 ((pos-1)/2) j); eauto).
                     eapply (sw_incomp _ SW); [|eauto]. by apply comp_asym.
                 --- rewrite Hsame in Hx by done. eauto.
        -- intros Hpp j x y Hj Hij Hx Hy.
           rewrite Hsame in Hx by lia.
           assert (comp x p = false) as Hxp.
           { apply (H1 (((pos-1)/2 - 1)/2) ((pos-1)/2)); eauto; lia. }
           destruct (decide (j = pos)) as [->|Hjp].
           ++ assert (y = p) by congruence. subst. done.
           ++ rewrite Hsame in Hy by lia.
              assert (comp p y = false) by (eapply (H1 ((pos-1)/2) j); eauto).
              eapply (sw_incomp _ SW); eauto.
      * exists l'. split; [done|]. split.
        { rewrite P.
          replace (<[pos:=p]> l) with (<[pos:=p]> (<[pos:=val]> l)) by apply list_insert_insert.
          apply insert_swap_perm.
          - rewrite list_lookup_insert_ne by lia. done.
          - apply list_lookup_insert. lia. }
        split; [done|]. split.
        { intros k Hk. rewrite F by done. rewrite list_lookup_insert_ne by lia. done. }
        by rewrite L, insert_length.
    + rewrite wr_Some by lia. eexists. split; [done|]. split; [done|]. split.
      { intros i j x y Hj Hij Hx Hy.
        destruct (decide (j = pos)) as [->|Hjp]; [|eauto].
        assert (i = (pos-1)/2) as -> by lia.
        rewrite list_lookup_insert in Hy by lia.
        rewrite list_lookup_insert_ne in Hx by lia. congruence. }
      split; [|by rewrite insert_length].
      intros k Hk. by rewrite list_lookup_insert_ne by lia.
  - rewrite wr_Some by lia. eexists. split; [done|]. split; [done|]. split.
    { intros i j x y Hj Hij Hx Hy. eapply H1; eauto. lia. }
    split; [|by rewrite insert_length].
    intros k Hk. by rewrite list_lookup_insert_ne by lia.
Qed.

Lemma pushHeap_correct l n :
  n <= length l -> HeapOrd comp l (n - 1) ->
  exists l', pushHeap comp l n = Some l' /\ l' ≡ₚ l /\ HeapOrd comp l' n /\
    (forall k, n <= k -> l' !! k = l !! k) /\ length l' = length l.
Proof.
  intros Hn HO. unfold pushHeap.
  destruct (Nat.ltb_spec 1 n) as [H1|H1].
  - destruct (lookup_lt_is_Some_2 l (n-1)) as [v Hv]; [lia|]. rewrite Hv; simpl.
    destruct (bubbleUp_correct n l n (n-1) v) as (l'&E&P&HO'&F&L); try lia.
    { rewrite list_insert_id by done. split.
      - intros i j x y ????. eapply (HO i j); eauto. lia.
      - intros. lia. }
    exists l'. rewrite list_insert_id in P by done. auto.
  - exists l. split; [done|]. split; [done|]. split; [|done].
    intros i j x y Hj Hij. lia.
Qed.

(** [m] is a heap of size [n] except possibly at the edges below [pos]. *)
Definition DownInv (m : list A) (n pos : nat) : Prop :=
  (forall i j x y, j < n -> (j = 2*i+1 \/ j = 2*i+2) -> i <> pos ->
     m !! i = Some x -> m !! j = Some y -> comp x y = false) /\
  (0 < pos -> forall j x y, j < n -> (j = 2*pos+1 \/ j = 2*pos+2) ->
     m !! ((pos-1)/2) = Some x -> m !! j = Some y -> comp x y = false).

Lemma pickChild_correct l pos n : n <= length l ->
  exists c, pickChild comp l pos n = Some c /\ (c = 2*pos+1 \/ c = 2*pos+2) /\
    (n <= c -> n <= 2*pos+1) /\
    (forall j x y, j < n -> (j = 2*pos+1 \/ j = 2*pos+2) ->
       l !! c = Some x -> l !! j = Some y -> comp x y = false).
Proof.
  intros Hn. unfold pickChild.
  destruct (Nat.ltb_spec (2*pos+1+1) n) as [H|H].
  - destruct (lookup_lt_is_Some_2 l (2*pos+1)) as [a Ha]; [lia|].
    destruct (lookup_lt_is_Some_2 l (2*pos+1+1)) as [b Hb]; [lia|].
    rewrite Ha, Hb; simpl.
    destruct (comp a b) eqn:E; eexists; (split; [reflexivity|]); cbv beta iota.
    + split; [lia|]. split; [lia|]. intros j x y Hj Hij Hx Hy.
      assert (x = b) by congruence. subst.
      destruct Hij as [->| ->].
      * assert (y = a) by congruence. subst. by apply comp_asym.
      * replace (2*pos+2) with (2*pos+1+1) in Hy by lia.
        assert (y = b) by congruence. subst. apply (sw_irrefl _ SW).
    + split; [lia|]. split; [lia|]. intros j x y Hj Hij Hx Hy.
      assert (x = a) by congruence. subst.
      destruct Hij as [->| ->].
      * assert (y = a) by congruence. subst. apply (sw_irrefl _ SW).
      * replace (2*pos+2) with (2*pos+1+1) in Hy by lia. congruence.
  - eexists. split; [done|]. split; [lia|]. split; [lia|].
    intros j x y Hj Hij Hx Hy. assert (j = 2*pos+1) as -> by lia.
    assert (x = y) by congruence. subst. apply (sw_irrefl _ SW).
Qed.

Lemma bubbleDown_correct fuel : forall l n pos val,
  n < fuel + pos -> pos < length l -> n <= length l -> (0 < pos -> pos < n) ->
  0 < fuel ->
  DownInv (<[pos:=val]> l) n pos ->
  exists l', bubbleDown comp fuel l pos n val = Some l' /\ l' ≡ₚ <[pos:=val]> l /\
    HeapOrd comp l' n /\ (forall k, n <= k -> k <> pos -> l' !! k = l !! k) /\
    (n <= pos -> l' !! pos = Some val) /\ length l' = length l.
Proof.
  induction fuel as [|fuel IH]; intros l n pos val Hf Hpos Hn Hpn Hf0 [H1 H2]; [lia|].
  cbn [bubbleDown].
  destruct (pickChild_correct l pos n Hn) as (c&->&Hc&Hcn&Hmax). simpl.
  assert (forall (b : comp val val = false), True) as _ by done.
  destruct (Nat.ltb_spec c n) as [Hlt|Hge].
  - destruct (lookup_lt_is_Some_2 l c) as [cv Hcv]; [lia|]. rewrite Hcv; simpl.
    destruct (comp val cv) eqn:Ec.
    + rewrite wr_Some by lia. simpl.
      assert (<[pos:=val]> l !! c = Some cv) as Hcv'.
      { rewrite list_lookup_insert_ne by lia. done. }
      assert (<[c:=val]> (<[pos:=cv]> l) !! c = Some val) as Hnc.
      { apply list_lookup_insert. rewrite insert_length. lia. }
      assert (<[c:=val]> (<[pos:=cv]> l) !! pos = Some cv) as Hnpos.
      { rewrite list_lookup_insert_ne by lia. apply list_lookup_insert. lia. }
      assert (forall k, k <> pos -> k <> c ->
           <[c:=val]> (<[pos:=cv]> l) !! k = <[pos:=val]> l !! k) as Hsame.
      { intros k ??. rewrite !list_lookup_insert_ne; auto. }
      destruct (IH (<[pos:=cv]> l) n c val) as (l'&E&P&HO&F&_&L).
      * lia. * rewrite insert_length; lia. * rewrite insert_length; lia. * lia. * lia.
      * split.
        -- intros i j x y Hj Hij Hne Hx Hy.
           destruct (decide (i = pos)) as [->|Hip].
           ++ assert (x = cv) by congruence. subst.
              destruct (decide (j = c)) as [->|Hjc].
              ** assert (y = val) by congruence. subst. by apply comp_asym.
              ** rewrite Hsame in Hy by lia. rewrite list_lookup_insert_ne in Hy by lia.
                 eapply Hmax; eauto.
           ++ rewrite Hsame in Hx by done.
              destruct (decide (j = pos)) as [->|Hjp].
              ** assert (y = cv) by congruence. subst.
                 assert (i = (pos-1)/2) as -> by lia.
                 eapply (H2 ltac:(lia) c); eauto.
              ** destruct (decide (j = c)) as [->|Hjc]; [lia|].
                 rewrite Hsame in Hy by done. eauto.
        -- intros Hc0 j x y Hj Hij Hx Hy.
           replace ((c-1)/2) with pos in Hx by lia.
           assert (x = cv) by congruence. subst.
           rewrite Hsame in Hy by lia.
           eapply (H1 c j); eauto. lia.
      * exists l'. split; [done|]. split.
        { rewrite P.
          replace (<[pos:=cv]> l) with (<[pos:=cv]> (<[pos:=val]> l)) by apply list_insert_insert.
          apply insert_swap_perm; [done|]. apply list_lookup_insert. lia. }
        split; [done|]. split.
        { intros k Hk Hkp. rewrite F by lia. rewrite list_lookup_insert_ne by lia. done. }
        split; [lia|]. by rewrite L, insert_length.
    + rewrite wr_Some by lia. eexists. split; [done|]. split; [done|]. split.
      { intros i j x y Hj Hij Hx Hy.
        destruct (decide (i = pos)) as [->|Hip]; [|eauto].
        rewrite list_lookup_insert in Hx by lia. injection Hx as <-.
        rewrite list_lookup_insert_ne in Hy by lia.
        eapply (sw_incomp _ SW); [exact Ec|]. eapply Hmax; eauto. }
      split. { intros k Hk Hkp. by rewrite list_lookup_insert_ne by lia. }
      split; [intros; by apply list_lookup_insert|by rewrite insert_length].
  - rewrite wr_Some by lia. eexists. split; [done|]. split; [done|]. split.
    { intros i j x y Hj Hij Hx Hy. eapply H1; eauto. lia. }
    split. { intros k Hk Hkp. by rewrite list_lookup_insert_ne by lia. }
    split; [intros; by apply list_lookup_insert|by rewrite insert_length].
Qed.

Lemma heap_root_max l n r :
  HeapOrd comp l n -> l !! 0 = Some r -> n <= length l ->
  forall j y, j < n -> l !! j = Some y -> comp r y = false.
Proof.
  intros HO Hr Hn j. induction j as [j IH] using lt_wf_ind. intros y Hj Hy.
  destruct (decide (j = 0)) as [->|].
  - assert (r = y) by congruence. subst. apply (sw_irrefl _ SW).
  - destruct (lookup_lt_is_Some_2 l ((j-1)/2)) as [p Hp]; [lia|].
    eapply (sw_incomp _ SW); [eapply (IH ((j-1)/2)); eauto; lia|].
    eapply (HO ((j-1)/2) j); eauto. lia.
Qed.

Lemma popHeap_correct l n r :
  0 < n -> n <= length l -> HeapOrd comp l n -> l !! 0 = Some r ->
  exists l', popHeap comp l n = Some l' /\ l' ≡ₚ l /\ HeapOrd comp l' (n - 1) /\
    l' !! (n - 1) = Some r /\
    (forall k, n <= k -> l' !! k = l !! k) /\ length l' = length l.
Proof.
  intros Hn0 Hn HO Hr. unfold popHeap.
  destruct (Nat.ltb_spec 1 n) as [H1|H1].
  - rewrite Hr; simpl. destruct (lookup_lt_is_Some_2 l (n-1)) as [v Hv]; [lia|].
    rewrite Hv; simpl.
    destruct (bubbleDown_correct n l (n-1) 0 v) as (l'&->&P&HO'&F&_&L); try lia.
    { split; [|lia]. intros i j x y Hj Hij Hne Hx Hy.
      rewrite list_lookup_insert_ne in Hx by lia.
      rewrite list_lookup_insert_ne in Hy by lia. eapply (HO i j); eauto. lia. }
    simpl. rewrite wr_Some by lia. eexists. split; [done|].
    assert (l' !! (n-1) = Some v) as Hl'v by (rewrite F by lia; done).
    split; [|split; [|split; [|split]]].
    + (* permutation *)
      assert (l' ≡ₚ <[0:=v]> l) as P' by done.
      apply (Permutation_cons_inv (a:=v)).
      assert (v :: <[n-1:=r]> l' ≡ₚ r :: l') as ->.
      { clear -Hl'v. revert Hl'v. generalize (n-1) as k. clear n.
        induction l' as [|a l' IH]; intros k Hk; [done|].
        destruct k; simpl in *.
        - injection Hk as ->. constructor.
        - rewrite (Permutation_swap a v), (IH k Hk). constructor. }
      rewrite P'. clear -Hr. destruct l as [|a l]; [done|]. simpl in *.
      injection Hr as ->. constructor.
    + intros i j x y Hj Hij Hx Hy.
      rewrite list_lookup_insert_ne in Hx by lia.
      rewrite list_lookup_insert_ne in Hy by lia. eapply (HO' i j); eauto.
    + apply list_lookup_insert. lia.
    + intros k Hk. rewrite list_lookup_insert_ne by lia. rewrite F by lia. done.
    + by rewrite insert_length.
  - exists l. split; [done|]. split; [done|]. split; [intros i j x y; lia|].
    split; [|done]. replace (n-1) with 0 by lia. done.
Qed.

Lemma makeHeap_correct n : forall l, n <= length l ->
  exists l', makeHeap comp l n = Some l' /\ l' ≡ₚ l /\ HeapOrd comp l' n /\
    (forall k, n <= k -> l' !! k = l !! k) /\ length l' = length l.
Proof.
  induction n as [|n IH]; intros l Hn.
  { exists l. split; [done|]. split; [done|]. split; [intros i j x y; lia|done]. }
  destruct (IH l) as (l1&E1&P1&H1&F1&L1); [lia|].
  destruct (pushHeap_correct l1 (S n)) as (l2&E2&P2&H2&F2&L2); [lia| |].
  { by replace (S n - 1) with n by lia. }
  exists l2. cbn [makeHeap]. rewrite E1; simpl. rewrite E2. split; [done|].
  split; [by rewrite P2|]. split; [done|]. split; [|lia].
  intros k Hk. rewrite F2, F1 by lia. done.
Qed.

(** Reading the first n cells as a list. *)
Lemma perm_take_frame (l l' : list A) n :
  l' ≡ₚ l -> length l' = length l -> (forall k, n <= k -> l' !! k = l !! k) ->
  take n l' ≡ₚ take n l.
Proof.
  intros P L F.
  assert (drop n l' = drop n l) as D.
  { apply list_eq. intros i. rewrite !lookup_drop. apply F. lia. }
  rewrite <- (take_drop n l), <- (take_drop n l') in P. rewrite D in P.
  by eapply Permutation_app_inv_r.
Qed.

Lemma sortHeap_correct n : forall l, n <= length l -> HeapOrd comp l n ->
  exists l', sortHeap comp l n = Some l' /\ l' ≡ₚ l /\ length l' = length l /\
    (forall k, n <= k -> l' !! k = l !! k) /\
    (forall i j x y, i < j -> j < n -> l' !! i = Some x -> l' !! j = Some y ->
       comp y x = false).
Proof.
  induction n as [|n IH]; intros l Hn HO.
  { exists l. split; [done|]. split; [done|]. split; [done|]. split; [done|]. lia. }
  destruct (lookup_lt_is_Some_2 l 0) as [r Hr]; [lia|].
  destruct (popHeap_correct l (S n) r) as (l1&E1&P1&H1&R1&F1&L1); try lia; auto.
  replace (S n - 1) with n in * by lia.
  destruct (IH l1) as (l2&E2&P2&L2&F2&S2); [lia|done|].
  exists l2. cbn [sortHeap]. rewrite E1; simpl. rewrite E2.
  split; [done|]. split; [by rewrite P2|]. split; [lia|].
  split. { intros k Hk. rewrite F2, F1 by lia. done. }
  intros i j x y Hij Hj Hx Hy.
  destruct (decide (j = n)) as [->|]; [|apply (S2 i j); auto; lia].
  rewrite F2 in Hy by lia. assert (y = r) by congruence. subst y.
  (* x is one of the first n of l1, hence among l's first S n *)
  pose proof (perm_take_frame l1 l2 n P2 L2 F2) as PT.
  assert (x ∈ take n l1) as Hin.
  { rewrite <- PT. apply elem_of_list_lookup. exists i. rewrite lookup_take by lia. done. }
  assert (x ∈ take (S n) l) as Hin'.
  { rewrite <- (perm_take_frame l l1 (S n) P1 L1 F1).
    rewrite (take_S_r l1 n r R1). apply elem_of_app. by left. }
  apply elem_of_list_lookup in Hin' as [k Hk].
  assert (k < S n).
  { apply lookup_lt_Some in Hk. rewrite take_length in Hk. lia. }
  rewrite lookup_take in Hk by lia.
  eapply (heap_root_max l (S n) r HO Hr Hn k); eauto; lia.
Qed.

Lemma pq_push_correct cap q v :
  length q < cap -> HeapOrd comp q (length q) ->
  exists q', pq_push comp cap q v = Some q' /\ q' ≡ₚ v :: q /\ HeapOrd comp q' (length q').
Proof.
  intros Hc HO. unfold pq_push. destruct (Nat.ltb_spec (length q) cap); [|lia].
  destruct (pushHeap_correct (q ++ [v]) (S (length q))) as (q'&E&P&HO'&_&L).
  { rewrite app_length; simpl; lia. }
  { replace (S (length q) - 1) with (length q) by lia.
    intros i j x y Hj Hij Hx Hy.
    rewrite lookup_app_l in Hx by lia. rewrite lookup_app_l in Hy by lia. eapply (HO i j); eauto. }
  exists q'. split; [done|]. split.
  { rewrite P. symmetry. apply Permutation_cons_append. }
  rewrite L, app_length; simpl. by replace (length q + 1) with (S (length q)) by lia.
Qed.

Lemma pq_pop_correct q r :
  HeapOrd comp q (length q) -> q !! 0 = Some r ->
  exists q', pq_pop comp q = Some q' /\ r :: q' ≡ₚ q /\ HeapOrd comp q' (length q') /\
    Maximal comp r q.
Proof.
  intros HO Hr. pose proof (lookup_lt_Some _ _ _ Hr) as Hlt.
  destruct (popHeap_correct q (length q) r) as (l&E&P&HO'&R&_&L); auto.
  assert (pq_pop comp q = Some (take (length q - 1) l)) as Eq.
  { unfold pq_pop. destruct q; [done|]. rewrite E. done. }
  exists (take (length q - 1) l). split; [done|].
  assert (length (take (length q - 1) l) = length q - 1) as LT by (rewrite take_length; lia).
  split; [|split].
  - etrans; [|exact P]. rewrite Permutation_cons_append.
    rewrite <- (take_S_r l (length q - 1) r R).
    rewrite take_ge by lia. done.
  - intros i j x y Hj Hij Hx Hy. rewrite LT in Hj.
    rewrite lookup_take in Hx by lia. rewrite lookup_take in Hy by lia.
    eapply (HO' i j); eauto.
  - intros y Hy. apply elem_of_list_lookup in Hy as [j Hj].
    exact (heap_root_max q (length q) r HO Hr (le_n _) j y (lookup_lt_Some _ _ _ Hj) Hj).
Qed.

Lemma pq_popPush_correct q v r :
  HeapOrd comp q (length q) -> q !! 0 = Some r ->
  exists q', pq_popPush comp q v = Some q' /\ r :: q' ≡ₚ v :: q /\
    HeapOrd comp q' (length q') /\ length q' = length q.
Proof.
  intros HO Hr. pose proof (lookup_lt_Some _ _ _ Hr) as Hlt.
  destruct (bubbleDown_correct (S (length q)) q (length q) 0 v) as (q'&E&P&HO'&_&_&L); try lia.
  { split; [|lia]. intros i j x y Hj Hij Hne Hx Hy.
    rewrite list_lookup_insert_ne in Hx by lia.
    rewrite list_lookup_insert_ne in Hy by lia. eapply (HO i j); eauto. }
  exists q'. split.
  { unfold pq_popPush. destruct q; [done|]. done. }
  split; [|split; [by rewrite L|done]].
  rewrite P. destruct q as [|a q]; [done|]. simpl in *. injection Hr as ->. constructor.
Qed.

Lemma pq_top_max q r :
  HeapOrd comp q (length q) -> pq_top q = Some r -> Maximal comp r q.
Proof.
  intros HO Hr y Hy. apply elem_of_list_lookup in Hy as [j Hj].
  exact (heap_root_max q (length q) r HO Hr (le_n _) j y (lookup_lt_Some _ _ _ Hj) Hj).
Qed.

Lemma isHeap_correct l : isHeap comp l (length l) = true <-> HeapOrd comp l (length l).
Proof.
  unfold isHeap. rewrite forallb_forall. split.
  - intros H i j x y Hj Hij Hx Hy.
    specialize (H i). rewrite in_seq in H.
    specialize (H ltac:(lia)). rewrite forallb_forall in H.
    specialize (H j). simpl In in H. specialize (H ltac:(lia)).
    destruct (Nat.ltb_spec j (length l)); [|lia]. rewrite Hx, Hy in H.
    by destruct (comp x y).
  - intros HO i Hi. rewrite in_seq in Hi. rewrite forallb_forall. intros j Hj.
    simpl In in Hj.
    destruct (Nat.ltb_spec j (length l)) as [Hl|]; [|done].
    destruct (lookup_lt_is_Some_2 l i) as [x Hx]; [lia|].
    destruct (lookup_lt_is_Some_2 l j) as [y Hy]; [lia|].
    rewrite Hx, Hy. rewrite (HO i j x y); auto; lia.
Qed.

End Proofs.

(** History refinement. *)
Definition op_kind {A} (o : pq_op A) : nat :=
  match o with Push _ => 0 | Pop => 1 | PopPush _ => 2 end.
Definition op_arg {A} (o : pq_op A) : option A :=
  match o with Push v => Some v | Pop => None | PopPush v => Some v end.

(** The caller respects the size: never pops/replaces on empty, never exceeds capacity. *)
Fixpoint ops_ok {A} (cap size : nat) (os : list (pq_op A)) : Prop :=
  match os with
  | [] => True
  | Push _ :: os => size < cap /\ ops_ok cap (S size) os
  | Pop :: os => 0 < size /\ ops_ok cap (size - 1) os
  | PopPush _ :: os => 0 < size /\ ops_ok cap size os
  end.

Lemma pq_exec_correct {A} (comp : A -> A -> bool) (SW : StrictWeak comp) cap q o os :
  HeapOrd comp q (length q) -> ops_ok cap (length q) (o :: os) ->
  exists q', pq_exec comp cap q o = Some q' /\ HeapOrd comp q' (length q') /\
    MSStep comp q (op_kind o) (op_arg o) q' /\ ops_ok cap (length q') os.
Proof.
  intros HO Hok. destruct o as [v| |v]; simpl in *.
  - destruct Hok as [Hc Hok].
    destruct (pq_push_correct comp SW cap q v) as (q'&E&P&HO'); auto.
    exists q'. split; [done|]. split; [done|]. split; [by constructor|].
    by rewrite P.
  - destruct Hok as [Hc Hok].
    destruct (lookup_lt_is_Some_2 q 0) as [r Hr]; [lia|].
    destruct (pq_pop_correct comp SW q r) as (q'&E&P&HO'&HM); auto.
    exists q'. split; [done|]. split; [done|]. split; [by econstructor|].
    apply Permutation_length in P. simpl in P.
    by replace (length q') with (length q - 1) by lia.
  - destruct Hok as [Hc Hok].
    destruct (lookup_lt_is_Some_2 q 0) as [r Hr]; [lia|].
    destruct (pq_popPush_correct comp SW q v r) as (q'&E&P&HO'&L); auto.
    exists q'. split; [done|]. split; [done|]. split; [|by rewrite L].
    eapply MSRepl; [|by eapply elem_of_list_lookup_2|done].
    eapply pq_top_max; eauto.
Qed.

Lemma pq_run_correct {A} (comp : A -> A -> bool) (SW : StrictWeak comp) cap os : forall q,
  HeapOrd comp q (length q) -> ops_ok cap (length q) os ->
  exists qs, pq_run comp cap q os = Some qs /\ length qs = length os /\
    forall i o p p', os !! i = Some o -> (q :: qs) !! i = Some p -> qs !! i = Some p' ->
      MSStep comp p (op_kind o) (op_arg o) p' /\ HeapOrd comp p' (length p').
Proof.
  induction os as [|o os IH]; intros q HO Hok.
  { exists []. done. }
  destruct (pq_exec_correct comp SW cap q o os) as (q'&E&HO'&MS&Hok'); auto.
  destruct (IH q' HO' Hok') as (qs&E2&L&H).
  exists (q' :: qs). cbn [pq_run]. rewrite E; simpl. rewrite E2; simpl.
  split; [done|]. split; [lia|].
  intros [|i] o' p p' Ho Hp Hp'; simpl in *.
  - naive_solver.
  - eapply (H i); eauto.
Qed.
