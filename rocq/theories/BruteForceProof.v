(** Proofs about the brute-force search. *)
From Verif Require Export BruteForceModel HeapSpec HeapProof.
Local Open Scope nat_scope.

Lemma NoDup_flat_map {A B} (f : A -> list B) l : NoDup l -> (forall x, x ∈ l -> NoDup (f x)) ->
  (forall x y z, x ∈ l -> y ∈ l -> z ∈ f x -> z ∈ f y -> x = y) -> NoDup (flat_map f l).
Proof.
  induction 1 as [|x l Hx Hl IH]; intros H1 H2; simpl; [constructor|]. apply NoDup_app. split; [apply H1; left|]. split.
  - intros z Hz Hz'. apply elem_of_list_In, in_flat_map in Hz' as (y & Hy & Hzy). apply elem_of_list_In in Hy, Hzy.
    assert (x = y) as -> by (eapply (H2 x y z); eauto; [left|by right]). done.
  - apply IH; [intros; apply H1; by right|]. intros y y' z Hy Hy'. apply H2; by right.
Qed.

Lemma team_pairs_in np ni pp ip nit t q j : (q, j) ∈ team_pairs np ni pp ip nit t <->
  pp * (t / nit) <= q < pp * (t / nit) + pp /\ q < np /\ ip * (t mod nit) <= j < ip * (t mod nit) + ip /\ j < ni.
Proof.
  unfold team_pairs. rewrite elem_of_list_In, in_flat_map. split.
  - intros (j' & Hj & H). apply in_map_iff in H as (q' & E & Hq). injection E as <- <-. apply in_seq in Hj, Hq. lia.
  - intros (H1 & H2 & H3 & H4). exists (j - ip * (t mod nit)). split; [apply in_seq; lia|].
    apply in_map_iff. exists (q - pp * (t / nit)). split; [f_equal; lia|apply in_seq; lia].
Qed.

Lemma team_pairs_nodup np ni pp ip nit t : NoDup (team_pairs np ni pp ip nit t).
Proof.
  unfold team_pairs. apply NoDup_flat_map; [apply NoDup_seq| |].
  - intros j _. apply NoDup_ListNoDup, FinFun.Injective_map_NoDup; [|apply NoDup_ListNoDup, NoDup_seq].
    intros x y E. injection E. lia.
  - intros x y [a b] _ _ Ha Hb. apply elem_of_list_In, in_map_iff in Ha as (? & E1 & _).
    apply elem_of_list_In, in_map_iff in Hb as (? & E2 & _). injection E1. injection E2. lia.
Qed.

Lemma block_unique (p a b x : nat) : p * a <= x < p * a + p -> p * b <= x < p * b + p -> a = b.
Proof. intros H1 H2. destruct (Nat.lt_total a b) as [H|[H|H]]; [exfalso|done|exfalso]; nia. Qed.

Lemma tested_pairs_ok np ni pp ip npt nit : 0 < pp -> 0 < ip ->
  ni <= nit * ip -> np <= npt * pp ->
  NoDup (tested_pairs np ni pp ip npt nit) /\
  forall q j, (q, j) ∈ tested_pairs np ni pp ip npt nit <-> q < np /\ j < ni.
Proof.
  intros Hpp Hip Hni Hnp. unfold tested_pairs. split.
  - apply NoDup_flat_map; [apply NoDup_seq|intros; apply team_pairs_nodup|].
    intros x y [q j] Hx Hy H1 H2. apply elem_of_seq in Hx, Hy. apply team_pairs_in in H1 as (A1 & _ & B1 & _), H2 as (A2 & _ & B2 & _).
    assert (nit <> 0) as Hnz by (destruct nit; lia).
    pose proof (block_unique _ _ _ _ A1 A2) as E1. pose proof (block_unique _ _ _ _ B1 B2) as E2.
    rewrite (Nat.div_mod x nit Hnz), (Nat.div_mod y nit Hnz). by rewrite E1, E2.
  - intros q j. rewrite elem_of_list_In, in_flat_map. split.
    + intros (t & _ & H). apply elem_of_list_In, team_pairs_in in H. lia.
    + intros [Hq Hj]. pose proof (Nat.div_mod j ip ltac:(lia)) as Dj. pose proof (Nat.mod_upper_bound j ip ltac:(lia)).
      pose proof (Nat.div_mod q pp ltac:(lia)) as Dq. pose proof (Nat.mod_upper_bound q pp ltac:(lia)).
      assert (j / ip < nit) as H1 by (apply Nat.div_lt_upper_bound; lia).
      assert (q / pp < npt) as H2 by (apply Nat.div_lt_upper_bound; lia).
      exists (nit * (q / pp) + j / ip). split.
      { apply in_seq. revert H1 H2. generalize (j / ip) (q / pp). intros a b H1 H2. clear -H1 H2.
        pose proof (Nat.mul_le_mono_l (S b) npt nit ltac:(lia)) as H3. rewrite Nat.mul_succ_r in H3. lia. }
      apply elem_of_list_In, team_pairs_in.
      rewrite (Nat.add_comm (nit * (q / pp))), (Nat.mul_comm nit), Nat.div_add, Nat.mod_add, Nat.div_small, Nat.mod_small by lia. rewrite Nat.add_0_l.
      revert Dj Dq. generalize (j / ip) (q / pp). intros a b Dj Dq. lia.
Qed.

(** ** Nearest *)
Section Near.
Context {D : Type} (ltb : D -> D -> bool) (inf : D) (dl : nat -> D).
Hypothesis SW : StrictWeak ltb.
Hypothesis inf_top : forall j, ltb inf (dl j) = false.
Notation cmp := (bf_cmp ltb).
Notation pr := (fun j => (j, dl j)).

Lemma SWb : StrictWeak cmp.
Proof. constructor; intros *; unfold bf_cmp; apply SW. Qed.

Lemma bf_fill_ok k js : forall h, length h + length js <= k -> HeapOrd cmp h (length h) ->
  exists h', bf_fill ltb dl k h js = Some h' /\ h' ≡ₚ h ++ map pr js /\ HeapOrd cmp h' (length h').
Proof.
  induction js as [|j js IH]; intros h Hk HO; simpl in *; [exists h; rewrite app_nil_r; done|].
  destruct (pq_push_correct cmp SWb k h (j, dl j) ltac:(lia) HO) as (h1 & -> & P1 & O1). simpl.
  destruct (IH h1) as (h' & E & P' & O'); [rewrite P1; simpl; lia|done|]. exists h'. split; [done|]. split; [|done].
  rewrite P', P1. simpl. by rewrite Permutation_middle.
Qed.

Lemma lt_asym x y : ltb x y = true -> ltb y x = false.
Proof. intros H. destruct (ltb y x) eqn:E; [|done]. rewrite <- (sw_irrefl _ SW x). symmetry. eapply (sw_trans _ SW); eauto. Qed.

Definition closed (h : list (nat * D)) : Prop := forall p, p ∈ h -> p = pr (fst p).

(** once the radius is the distance of the top of the full heap *)
Lemma bf_scan_ok k js : 1 <= k -> forall h t P, HeapOrd cmp h (length h) -> length h = k -> closed h -> h !! 0 = Some t ->
  (forall r, r ∈ P -> ltb (dl r) (snd t) = false) ->
  exists h' rest, bf_scan ltb dl h (snd t) js = Some h' /\ HeapOrd cmp h' (length h') /\ length h' = k /\ closed h' /\
    map fst h ++ P ++ js ≡ₚ map fst h' ++ rest /\
    forall a b, a ∈ map fst h' -> b ∈ rest -> ltb (dl b) (dl a) = false.
Proof.
  intros Hk. induction js as [|j js IH]; intros h t P HO HL HC Ht HP.
  - exists h, P. simpl. rewrite app_nil_r. split; [done|]. split; [done|]. split; [done|]. split; [done|]. split; [done|].
    intros a b Ha Hb. apply elem_of_list_In, in_map_iff in Ha as (p & <- & Hp). apply elem_of_list_In in Hp.
    pose proof (pq_top_max cmp SWb h t HO Ht p Hp) as Hm. unfold bf_cmp in Hm.
    rewrite (HC p Hp) in Hm. simpl in Hm. apply (sw_incomp _ SW _ (snd t) _); auto.
  - cbn [bf_scan]. destruct (ltb (dl j) (snd t)) eqn:Hlt.
    + destruct (pq_popPush_correct cmp SWb h (j, dl j) t HO Ht) as (h0 & -> & P1 & O1 & L1). cbn [mbind option_bind].
      assert (exists t1, h0 !! 0 = Some t1) as [t1 Ht1] by (destruct h0; [simpl in L1; lia|eauto]).
      assert (t1 ∈ h0) as Hth1 by (by apply (elem_of_list_lookup_2 _ 0)).
      unfold pq_top. rewrite Ht1. cbn [mbind option_bind].
      assert (closed h0) as C1.
      { intros p Hp. assert (p ∈ t :: h0) as Hp' by (by right). rewrite P1 in Hp'. apply elem_of_cons in Hp' as [->|Hp']; [done|by apply HC]. }
      assert (ltb (snd t) (snd t1) = false) as Htt.
      { assert (t1 ∈ t :: h0) as Hp' by (by right). rewrite P1 in Hp'. apply elem_of_cons in Hp' as [->|Hp']; [simpl; by apply lt_asym|].
        apply (pq_top_max cmp SWb h t HO Ht t1 Hp'). }
      assert (t ∈ h) as Hth by (by apply (elem_of_list_lookup_2 _ 0)).
      destruct (IH h0 t1 (fst t :: P) O1 ltac:(lia) C1 Ht1) as (h' & rest & E & A & B & C & F & G).
      { intros r Hr. apply elem_of_cons in Hr as [->|Hr].
        - rewrite (HC t Hth) in Htt. simpl in Htt. exact Htt.
        - specialize (HP r Hr). eapply (sw_incomp _ SW); eauto. }
      exists h', rest. split; [done|]. split; [done|]. split; [done|]. split; [done|]. split; [|done].
      rewrite <- F. assert (map fst (t :: h0) ≡ₚ map fst ((j, dl j) :: h)) as Hm by (by rewrite P1). simpl in Hm.
      transitivity (j :: map fst h ++ P ++ js).
      { rewrite <- !Permutation_middle. done. }
      change (j :: map fst h ++ P ++ js) with ((j :: map fst h) ++ P ++ js). rewrite <- Hm.
      simpl. by rewrite Permutation_middle.
    + destruct (IH h t (j :: P) HO HL HC Ht) as (h' & rest & E & A & B & C & F & G).
      { intros r Hr. apply elem_of_cons in Hr as [->|Hr]; auto. }
      exists h', rest. split; [done|]. split; [done|]. split; [done|]. split; [done|]. split; [|done].
      rewrite <- F. simpl. by rewrite <- !Permutation_middle.
Qed.

(** from the initial radius: at most one value of the initial heap is lost *)
Lemma bf_scan_init k js : 1 <= k -> forall h P, HeapOrd cmp h (length h) -> length h = k -> closed h ->
  (forall r, r ∈ P -> ltb (dl r) inf = false) ->
  exists h' x rest, bf_scan ltb dl h inf js = Some h' /\ HeapOrd cmp h' (length h') /\ length h' = k /\ closed h' /\
    map fst h ++ P ++ js ≡ₚ map fst h' ++ x ++ rest /\
    (forall a b, a ∈ map fst h' -> b ∈ rest -> ltb (dl b) (dl a) = false) /\
    length x <= 1 /\ forall b, b ∈ x -> b ∈ map fst h /\ (forall i, i ∈ map fst h -> ltb (dl b) (dl i) = false) /\
      exists j, j ∈ js /\ ltb (dl b) (dl j) = true.
Proof.
  intros Hk. induction js as [|j js IH]; intros h P HO HL HC HP.
  - exists h, [], P. simpl. rewrite app_nil_r. split; [done|]. split; [done|]. split; [done|]. split; [done|]. split; [done|].
    split; [|split; [lia|intros b Hb; by apply elem_of_nil in Hb]].
    intros a b Ha Hb. eapply (sw_incomp _ SW); [by apply HP|apply inf_top].
  - cbn [bf_scan]. destruct (ltb (dl j) inf) eqn:Hlt.
    + assert (exists t, h !! 0 = Some t) as [t Ht] by (destruct h; [simpl in HL; lia|eauto]).
      assert (t ∈ h) as Hth by (by apply (elem_of_list_lookup_2 _ 0)).
      destruct (pq_popPush_correct cmp SWb h (j, dl j) t HO Ht) as (h1 & -> & P1 & O1 & L1). cbn [mbind option_bind].
      assert (exists t1, h1 !! 0 = Some t1) as [t1 Ht1] by (destruct h1; [simpl in L1; lia|eauto]).
      unfold pq_top. rewrite Ht1. cbn [mbind option_bind].
      assert (closed h1) as C1.
      { intros p Hp. assert (p ∈ t :: h1) as Hp' by (by right). rewrite P1 in Hp'. apply elem_of_cons in Hp' as [->|Hp']; [done|by apply HC]. }
      assert (t1 ∈ h1) as Hth1 by (by apply (elem_of_list_lookup_2 _ 0)).
      assert (forall r, r ∈ P -> ltb (dl r) (snd t1) = false) as HP1.
      { intros r Hr. rewrite (C1 t1 Hth1). simpl. eapply (sw_incomp _ SW); [by apply HP|apply inf_top]. }
      assert (Hm : map fst (t :: h1) ≡ₚ map fst ((j, dl j) :: h)) by (by rewrite P1). simpl in Hm.
      destruct (ltb (dl (fst t)) (dl j)) eqn:Hworse.
      * destruct (bf_scan_ok k js Hk h1 t1 P O1 ltac:(lia) C1 Ht1 HP1) as (h' & rest & E & A & B & C & F & G).
        exists h', [fst t], rest. split; [done|]. split; [done|]. split; [done|]. split; [done|]. split; [|split; [done|split; [simpl; lia|]]].
        -- transitivity (j :: map fst h ++ P ++ js); [by rewrite <- !Permutation_middle|].
           change (j :: map fst h ++ P ++ js) with ((j :: map fst h) ++ P ++ js). rewrite <- Hm.
           change ((fst t :: map fst h1) ++ P ++ js) with (fst t :: map fst h1 ++ P ++ js). rewrite F.
           simpl. by rewrite Permutation_middle.
        -- intros b Hb. apply elem_of_list_singleton in Hb as ->. split; [|split].
           ++ apply elem_of_list_In, in_map. by apply elem_of_list_In.
           ++ intros i Hi. apply elem_of_list_In, in_map_iff in Hi as (p & <- & Hp). apply elem_of_list_In in Hp.
              pose proof (pq_top_max cmp SWb h t HO Ht p Hp) as Hmx. unfold bf_cmp in Hmx. by rewrite (HC p Hp), (HC t Hth) in Hmx.
           ++ exists j. split; [left|done].
      * destruct (bf_scan_ok k js Hk h1 t1 (fst t :: P) O1 ltac:(lia) C1 Ht1) as (h' & rest & E & A & B & C & F & G).
        { intros r Hr. apply elem_of_cons in Hr as [->|Hr]; [|auto].
          assert (t1 ∈ t :: h1) as Hp' by (by right). rewrite P1 in Hp'. apply elem_of_cons in Hp' as [->|Hp']; [done|].
          pose proof (pq_top_max cmp SWb h t HO Ht t1 Hp') as Hmx. unfold bf_cmp in Hmx. by rewrite (HC t Hth) in Hmx. }
        exists h', [], rest. split; [done|]. split; [done|]. split; [done|]. split; [done|]. split; [|split; [done|split; [simpl; lia|intros b Hb; by apply elem_of_nil in Hb]]].
        simpl. rewrite <- F.
        transitivity (j :: map fst h ++ P ++ js); [by rewrite <- !Permutation_middle|].
        change (j :: map fst h ++ P ++ js) with ((j :: map fst h) ++ P ++ js). rewrite <- Hm. simpl. by rewrite Permutation_middle.
    + destruct (IH h (j :: P) HO HL HC) as (h' & x & rest & E & A & B & C & F & G & HX & HX2).
      { intros r Hr. apply elem_of_cons in Hr as [->|Hr]; auto. }
      exists h', x, rest. split; [done|]. split; [done|]. split; [done|]. split; [done|]. split; [|split; [done|split; [done|]]].
      * rewrite <- F. simpl. by rewrite <- !Permutation_middle.
      * intros b Hb. destruct (HX2 b Hb) as (Hb1 & Hb2 & j' & Hj' & ?). split; [done|]. split; [done|]. exists j'. split; [by right|done].
Qed.

Lemma bf_nearest_ok k n : 1 <= k ->
  exists out x rest, bf_nearest ltb inf dl k n = Some out /\ seq 0 n ≡ₚ out ++ x ++ rest /\
    length out = min k n /\ Ascending (fun a b => ltb (dl a) (dl b)) out /\
    (forall a b, a ∈ out -> b ∈ rest -> ltb (dl b) (dl a) = false) /\
    length x <= 1 /\ forall b, b ∈ x -> b < k < n /\ (forall i, i < k -> ltb (dl b) (dl i) = false) /\
      exists j, k <= j < n /\ ltb (dl b) (dl j) = true.
Proof.
  intros Hk. unfold bf_nearest. destruct (Nat.ltb_spec k 1); [lia|].
  destruct (bf_fill_ok k (seq 0 (min n k)) []) as (h & -> & Ph & Oh); [simpl; rewrite seq_length; lia|intros i j x y Hj; simpl in Hj; lia|].
  cbn [mbind option_bind]. simpl in Ph.
  assert (closed h) as Ch.
  { intros p Hp. rewrite Ph in Hp. apply elem_of_list_In, in_map_iff in Hp as (j & <- & _). done. }
  assert (length h = min n k) as Lh by (by rewrite Ph, map_length, seq_length).
  assert (map fst h ≡ₚ seq 0 (min n k)) as Hfst.
  { rewrite Ph. rewrite map_map. simpl. by rewrite map_id. }
  assert (exists h' x rest, bf_scan ltb dl h inf (seq (min n k) (n - min n k)) = Some h' /\ HeapOrd cmp h' (length h') /\ length h' = min n k /\ closed h' /\
    seq 0 n ≡ₚ map fst h' ++ x ++ rest /\ (forall a b, a ∈ map fst h' -> b ∈ rest -> ltb (dl b) (dl a) = false) /\
    length x <= 1 /\ forall b, b ∈ x -> b < k < n /\ (forall i, i < k -> ltb (dl b) (dl i) = false) /\ exists j, k <= j < n /\ ltb (dl b) (dl j) = true)
    as (h' & x & rest & -> & Oh' & Lh' & Ch' & Pn & Hr & Lx & Hx).
  { destruct (decide (n <= k)) as [Hnk|Hnk].
    - replace (n - min n k) with 0 by lia. simpl. exists h, [], []. rewrite app_nil_r. split; [done|]. split; [done|]. split; [done|]. split; [done|].
      split; [rewrite Hfst; f_equiv; f_equal; lia|]. split; [intros a b _ Hb; by apply elem_of_nil in Hb|].
      split; [simpl; lia|intros b Hb; by apply elem_of_nil in Hb].
    - destruct (bf_scan_init k (seq (min n k) (n - min n k)) Hk h [] Oh ltac:(lia) Ch) as (h' & x & rest & E & A & B & C & F & G & Lx & Hx).
      { intros r Hb. by apply elem_of_nil in Hb. }
      exists h', x, rest. split; [done|]. split; [done|]. split; [lia|]. split; [done|]. split; [|split; [done|split; [done|]]].
      + rewrite <- F. simpl. rewrite Hfst. rewrite <- seq_app. f_equiv. f_equal. lia.
      + intros b Hb. destruct (Hx b Hb) as (Hb1 & Hb2 & j & Hj & Hlt). rewrite Hfst in Hb1. apply elem_of_seq in Hb1, Hj.
        split; [lia|]. split; [|exists j; split; [lia|done]]. intros i Hi. apply Hb2. rewrite Hfst. apply elem_of_seq. lia. }
  cbn [mbind option_bind].
  destruct (sortHeap_correct cmp SWb (length h') h' (le_n _) Oh') as (s & -> & Ps & Ls & _ & Ss). cbn [mbind option_bind].
  assert (map fst s ≡ₚ map fst h') as Hs by (by rewrite Ps).
  exists (map fst s), x, rest. split; [done|]. split; [by rewrite Hs|]. split; [rewrite map_length; lia|]. split.
  - intros i j a b Hij Ha Hb. rewrite list_lookup_fmap in Ha, Hb.
    destruct (s !! i) as [pa|] eqn:Ea; [|done]. destruct (s !! j) as [pb|] eqn:Eb; [|done]. injection Ha as <-. injection Hb as <-.
    pose proof (lookup_lt_Some _ _ _ Eb). specialize (Ss i j pa pb Hij ltac:(lia) Ea Eb). unfold bf_cmp in Ss.
    assert (forall p, p ∈ s -> snd p = dl (fst p)) as Hc. { intros p Hp. rewrite Ps in Hp. rewrite (Ch' p Hp) at 1. done. }
    rewrite <- !Hc by (eapply elem_of_list_lookup_2; eauto). exact Ss.
  - split; [|done]. intros a b Ha Hb. apply Hr; [|done]. by rewrite <- Hs.
Qed.
End Near.
